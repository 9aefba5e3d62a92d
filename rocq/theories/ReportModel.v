(** print_labeled_residuals of chumpy/ch.py and DrWrtProfiler.dump_tree of chumpy/monitor.py. *)
From Coq Require Import Reals String.
From stdpp Require Import list gmap.

(** An object: its label if it has one (ch.py:257), the values of the attributes named in its
    dterms, in that order (ch.py:259-261, monitor.py:94-97; __setattr__ makes every such value
    an object with dterms, ch.py:381-383), and the elements of its .r. Reading .r does not raise
    and attributes do not change during the report. *)
Record object := Object { o_label : option string; o_terms : list nat; o_r : list R }.
(** ids to objects *)
Definition graph : Type := nat → object.
(** np.sum(self.r**2) (ch.py:258, 264) *)
Fixpoint sumsq (l : list R) : R := match l with [] => 0%R | x :: l => (x * x + sumsq l)%R end.
(** What is written: '%s: %.<d>e | ' % (label, v) (ch.py:258) and '%.<d>e\n' % v (ch.py:264) as
    label, decimals and value. *)
Inductive piece := Part (l : string) (d : nat) (v : R) | Total (d : nat) (v : R).
(** print_labeled_residuals(print_newline, num_decimals) (ch.py:253-264). The parts are asked
    without num_decimals, so with its default 2 (ch.py:262). [fuel] bounds the depth of the
    recursion; None is Python's RecursionError. *)
Fixpoint print_labeled_residuals (fuel : nat) (g : graph) (print_newline : bool) (num_decimals : nat) (i : nat) : option (list piece) :=
  match fuel with
  | O => None
  | S fuel =>
    let own := match o_label (g i) with Some l => [Part l num_decimals (sumsq (o_r (g i)))] | None => [] end in
    match mapM (λ k, print_labeled_residuals fuel g false 2 k) (o_terms (g i)) with
    | None => None
    | Some parts => Some (own ++ concat parts ++ if print_newline then [Total num_decimals (sumsq (o_r (g i)))] else [])
    end
  end.

(** The dictionary dump_tree returns for an object: id with 'indirect': False and 'children', or
    id with 'indirect': True (monitor.py:82-102, serialize_node with verbose=False,
    monitor.py:104-115). *)
Inductive entry := Full (i : nat) (children : list entry) | Indirect (i : nat).
(** Calls [f] on each element in turn, handing on the state. *)
Fixpoint each {A S : Type} (f : nat → S → option (A * S)) (l : list nat) (s : S) : option (list A * S) :=
  match l with
  | [] => Some ([], s)
  | k :: l =>
    match f k s with
    | None => None
    | Some (a, s) => match each f l s with None => None | Some (r, s) => Some (a :: r, s) end
    end
  end.
(** dump_tree (monitor.py:82-102). The state is the set of objects whose attribute visited is
    True; it is set on the objects themselves (monitor.py:91) and nothing resets it. *)
Fixpoint dump_tree (fuel : nat) (g : graph) (i : nat) (visited : gset nat) : option (entry * gset nat) :=
  match fuel with
  | O => None
  | S fuel =>
    if decide (i ∈ visited) then Some (Indirect i, visited)
    else
      match each (dump_tree fuel g) (o_terms (g i)) ({[i]} ∪ visited) with
      | None => None
      | Some (children_list, visited) => Some (Full i children_list, visited)
      end
  end.

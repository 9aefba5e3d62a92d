(** Class declarations for the examples. *)
From stdpp Require Import strings gmap list prelude.
From Verif Require Import BindModel BindSpec BindThms.
Local Open Scope string_scope.

Definition plain_class : cls := Cls "Other" [] (Attrs None None None) [].
(** the operators, and
    class A(Ch): dterms = 'a'
    class B(A): dterms = 'b'
    class D(Ch): u = Term(); v = Term()
    class D(Ch): dterms = 'w'    (a namesake in another module)
    class G(Ch): terms = 'n'; dterms = 'p', 'q'
    class H(G): term_order = 'q', 'p', 'n' *)
Definition demo (c : nat) : cls :=
  match c with
  | 0 => Cls "add" [0] (Attrs None (Some (Many ["a"; "b"])) None) []
  | 1 => Cls "subtract" [1] (Attrs None (Some (Many ["a"; "b"])) None) []
  | 2 => Cls "multiply" [2] (Attrs None (Some (Many ["a"; "b"])) None) []
  | 3 => Cls "divide" [3] (Attrs None (Some (Many ["x1"; "x2"])) None) []
  | 4 => Cls "power" [4] (Attrs None (Some (Many ["x"; "pow"])) None) []
  | 5 => Cls "A" [5] (Attrs None (Some (One "a")) None) []
  | 6 => Cls "B" [6; 5] (Attrs None (Some (One "b")) None) []
  | 7 => Cls "D" [7] (Attrs None None None) [("u", true); ("v", true)]
  | 8 => Cls "D" [8] (Attrs None (Some (One "w")) None) []
  | 9 => Cls "G" [9] (Attrs (Some (One "n")) (Some (Many ["p"; "q"])) None) []
  | 10 => Cls "H" [10; 9] (Attrs None None (Some ["q"; "p"; "n"])) []
  | c => Cls "E" [c] (Attrs None None None) [("u", true)]
  end.
Definition demo_of (o : op) : nat := match o with Add => 0 | Sub => 1 | Mul => 2 | Div => 3 | Pow => 4 end.
Definition reserved0 (n : string) : bool := bool_decide (n ∈ ["r"; "T"; "copy"]).
Lemma demo_single : single_inheritance demo.
Proof.
  intros c. split; [do 11 (destruct c as [|c]; [by eexists|]); by eexists|]. intros b l1 l2. do 11 (destruct c as [|c]; [destruct l1 as [|? [|? []]]; intros; simplify_eq/=; done|]). destruct l1 as [|? [|? []]]; intros; simplify_eq/=; done.
Qed.
Lemma demo_operators : operator_classes demo reserved0 demo_of.
Proof.
  intros o. split; [by destruct o|]. split; [by destruct o|]. split; [|by destruct o]. intros b. destruct o; simpl; do 11 (destruct b as [|b]; [done|]); done.
Qed.
(** results by their attributes *)
Definition shown (x : object + error) : option (nat * list (string * slot)) :=
  match x with inl b => Some (o_class b, map_to_list (o_attrs b)) | inr _ => None end.
Lemma shown_inl x c l : shown x = Some (c, l) → ∃ b, x = inl b ∧ o_class b = c ∧ o_attrs b = list_to_map l.
Proof. destruct x as [b|]; [|done]. intros [= <- <-]. exists b. by rewrite list_to_map_to_list. Qed.

(** What is asked of a run of the optimizer. *)
From Coq Require Import Sorting.Sorted.
From stdpp Require Import list numbers.
From Verif Require Import DogModel.

Section spec.
  Context {N : num} {L : lin N}.
  (** the events of a configuration; the evaluations, the user's callbacks *)
  Definition events (c : conf N L) : list (event N L) :=
    match c with AtOuter _ _ s | AtInner _ _ s | Returned _ _ s => s_log N L s | Raised _ _ l => l end.
  Definition evals (l : list (event N L)) : list (V L * W L) := omap (λ e, match e with EEval _ _ x r => Some (x, r) | _ => None end) l.
  Definition calls (l : list (event N L)) : list (V L) := omap (λ e, match e with ECall _ _ x => Some x | _ => None end) l.
  Definition finished (c : conf N L) : Prop := match c with Returned _ _ _ | Raised _ _ _ => True | _ => False end.
  Definition variables (c : conf N L) : option (V L) :=
    match c with AtOuter _ _ s | AtInner _ _ s | Returned _ _ s => Some (s_fv N L s) | Raised _ _ _ => None end.
  (** the sum of squares of residuals, as the code computes it *)
  Definition sse (r : W L) : K N := kmul N (wnorm L r) (wnorm L r).
  (** [path] is a sequence of evaluated points of strictly decreasing sums of squares *)
  Definition descends (l : list (event N L)) (path : list (V L * W L)) : Prop :=
    (∀ q, q ∈ path → q ∈ evals l) ∧ StronglySorted (λ a b, klt N (sse b.2) (sse a.2) = true) path.
End spec.
(** Laws of the order: smaller than is transitive, and a difference that compares
    greater than zero is one of a larger and a smaller number. *)
Definition ordered (N : num) : Prop :=
  (∀ x y z, klt N x y = true → klt N y z = true → klt N x z = true) ∧
  (∀ x y, klt N (k0 N) (ksub N x y) = true → klt N y x = true).

(** Numbers for which a search by quartering the radius ends: [fin] are the finite ones
    and [nan] the one that is no number. *)
Definition quartered (N : num) (n : nat) (d : K N) : K N := Nat.iter n (λ d, kmul N d (k025 N)) d.
Record shrinking (N : num) (nan fin : K N → Prop) : Prop := {
  sh_ratio x : ¬ nan x → klt N (k0 N) x = false → klt N x (k005 N) = true ∧ klt N (k09 N) x = false;
  sh_radius d : fin d → ∃ n, ∀ k, n ≤ k → ∀ t, kle N (k0 N) t = true → kle N (quartered N k d) t = true
}.
(** No ratio of improvements is NaN, radii are finite, and the threshold for step sizes
    is a number that is not negative. *)
Definition tame {N : num} {L : lin N} (P : problem N L) (nan fin : K N → Prop) (l : list (event N L)) : Prop :=
  ∀ e, e ∈ l → match e with
    | ETrial _ _ rho _ => ¬ nan rho
    | EStep _ _ _ d => fin d
    | ECall _ _ x => kle N (k0 N) (kmul N (e2 N L P) (vnorm L x)) = true
    | EEval _ _ _ _ => True
    end.

(** Model of Interp3D (chumpy/extras.py:9-43) over the reals. *)
From Coq Require Import Reals.
From stdpp Require Import list list_numbers numbers gmap.
From Verif Require Import ArrModel.

(** np.gradient along axis [k] (extras.py:15): one-sided differences at the border,
    central ones elsewhere. *)
Definition gradient (k : nat) (img : arr R) : arr R :=
  Arr_ (sh img) (λ o,
    let ix := unravel (sh img) o in let i := nth k ix 0 in let d := nth k (sh img) 0 in
    if decide (i = 0) then (at_ img (<[k := 1%nat]> ix) - at_ img ix)%R
    else if decide (i = d - 1) then (at_ img ix - at_ img (<[k := (d - 2)%nat]> ix))%R
    else ((at_ img (<[k := (i + 1)%nat]> ix) - at_ img (<[k := (i - 1)%nat]> ix)) / 2)%R).
(** The shapes that are accepted: np.gradient must yield three arrays and needs two
    elements along every axis; scipy cannot infer the size of a matrix without entries, and
    refuses data and indices of different lengths. The number of locations. *)
Definition interp_dims (img loc : arr R) : option nat :=
  match sh img, sh loc with
  | [d0; d1; d2], [n; 3] => if decide (2 ≤ d0 ∧ 2 ≤ d1 ∧ 2 ≤ d2 ∧ 0 < n) then Some n else None
  | _, _ => None
  end.
(** np.clip(x, 0, d - 1) (extras.py:20, 32) *)
Definition clip (x : R) (d : nat) : R := Rmin (Rmax x 0) (INR d - 1).
(** np.floor(x).astype(np.uint32) (extras.py:21, 33), for 0 <= x below 2^32 *)
Definition cellno (x : R) : nat := Z.to_nat (Int_part x).
(** The clipped coordinate [c] of location [r], and the cell of location [r]. *)
Definition coord (img loc : arr R) (r c : nat) : R := clip (dat loc (r * 3 + c)) (nth c (sh img) 0).
Definition cell (img loc : arr R) (r : nat) : list nat := (λ c, cellno (coord img loc r c)) <$> [0; 1; 2].

(** data, JS = np.arange(locations.size), IS = JS // 3 (extras.py:39-43) *)
Definition interp_mat (n : nat) (g : nat → nat → R) : spm :=
  coo n (n * 3) ((λ j, g (j / 3) (j mod 3)) <$> seq 0 (n * 3)) ((λ j, j / 3) <$> seq 0 (n * 3)) (seq 0 (n * 3)).
(** compute_dr_wrt(self.locations) (extras.py:28-43) *)
Definition interp_jac (img loc : arr R) : option spm :=
  n ← interp_dims img loc; Some (interp_mat n (λ r c, at_ (gradient c img) (cell img loc r))).
(** compute_r (extras.py:17-26) *)
Definition interp_r (img loc : arr R) : option (arr R) :=
  n ← interp_dims img loc; J ← interp_jac img loc;
  Some (Arr_ [n] (λ r, at_ img (cell img loc r) +
    mact J (λ j, let x := coord img loc (j / 3)%nat (j mod 3) in x - INR (cellno x)) r)%R).

(** Products as classes of the array library. *)
From Coq Require Import Reals Lra.
From stdpp Require Import gmap strings list list_numbers numbers.
From Verif Require Import EngineModel EngineSpec EngineEval EngineInv EngineHist EngineThms GraphSpec ArrModel Curve ArrThms ElemModel ReorderModel NpModel NpSpec NpThms ViewThms RedFine
  DotModel DotSpec DotThms DotThms2.

(** dot (ch_ops.py:727-764) *)
Definition op_dot : npop := {|
  np_dt := ["a"%string; "b"%string]; np_tm := []; np_perm := false;
  np_r _ vs := match vs with [a; b] => np_dot a b | _ => None end;
  np_jac _ vs ws := match vs, ws with [a; b], [wa; wb] => dot_jac wa wb a b | _, _ => None end
|}.
(** MatVecMult (ch.py:1171-1182); the matrix, a term, is a parameter here *)
Definition op_matvec (m : spm) : npop := {|
  np_dt := ["vec"%string]; np_tm := []; np_perm := false;
  np_r _ vs := match vs with [v] => matvec_r m v | _ => None end;
  np_jac _ vs ws := match vs with [v] => Some (Some m) | _ => None end
|}.
(** Cross (ch_ops.py:116-183) with the default axes *)
Definition op_cross : npop := {|
  np_dt := ["a"%string; "b"%string]; np_tm := []; np_perm := false;
  np_r _ vs := match vs with [a; b] => np_cross a b | _ => None end;
  np_jac _ vs ws := match vs, ws with [a; b], [wa; wb] => cross_jac wa wb a b | _, _ => None end
|}.

Lemma np_dot_same_shapes a b y u v : np_dot a b = Some y → sh u = sh a → sh v = sh b → np_dot u v = Some (default u (np_dot u v)).
Proof.
  intros Hy Hu Hv. assert (Hs : is_Some (np_dot u v)) by (apply np_dot_some; rewrite Hu, Hv; apply np_dot_some; by exists y).
  destruct Hs as [z ->]. done.
Qed.
Lemma np_cross_same_shapes a b y u v : np_cross a b = Some y → sh u = sh a → sh v = sh b → np_cross u v = Some (default u (np_cross u v)).
Proof.
  intros Hy Hu Hv. destruct (np_cross_inv a b y Hy) as (h & Ha & Hb). destruct (cross_is h u v (eq_trans Hu Ha) (eq_trans Hv Hb)) as (z & -> & _). done.
Qed.
Lemma fine_dot (g : graph) x c q1 q2 a b y : g !! x = Some c → c_cls nplib c = NOp op_dot → c_dt nplib c = ["a"; "b"]%string → c_tm nplib c = [] →
  c_attr nplib c !! "a"%string = Some (@ARef nplib q1) → c_attr nplib c !! "b"%string = Some (@ARef nplib q2) →
  denotes nplib g q1 QR a → denotes nplib g q2 QR b → np_dot a b = Some y → length (sh b) ≤ 2 → 0 < nth 0 (sh b) 0 → fine_at g x.
Proof.
  intros Hc Hcls Hdt Htm H1 H2 Ha Hb Hy Hl Hp.
  apply (fine_two g x c op_dot "a"%string "b"%string q1 q2 a b (λ u v, default u (np_dot u v))); try done.
  - intros u v Hu Hv. cbn [np_r op_dot]. by apply (np_dot_same_shapes a b y).
  - intros <-. assert (a = b) as <- by (by eapply (denotes_det nplib)).
    destruct (dot_same_right a y Hy Hl Hp) as (J & HJ & _ & Hd). by exists J.
  - intros _. destruct (dot_right a b y Hy Hl Hp) as (Ja & Jb & HJa & HJb & _ & _ & Hd & _). by exists Ja, Jb.
Qed.
Lemma fine_cross (g : graph) x c q1 q2 a b y : g !! x = Some c → c_cls nplib c = NOp op_cross → c_dt nplib c = ["a"; "b"]%string → c_tm nplib c = [] →
  c_attr nplib c !! "a"%string = Some (@ARef nplib q1) → c_attr nplib c !! "b"%string = Some (@ARef nplib q2) → q1 ≠ q2 →
  denotes nplib g q1 QR a → denotes nplib g q2 QR b → np_cross a b = Some y → fine_at g x.
Proof.
  intros Hc Hcls Hdt Htm H1 H2 Hne Ha Hb Hy.
  apply (fine_two g x c op_cross "a"%string "b"%string q1 q2 a b (λ u v, default u (np_cross u v))); try done.
  - intros u v Hu Hv. cbn [np_r op_cross]. by apply (np_cross_same_shapes a b y).
  - intros _. destruct (cross_right a b y Hy) as (Ja & Jb & HJa & HJb & _ & _ & Hd). by exists Ja, Jb.
Qed.
Lemma matvec_same_shape m v y u : matvec_r m v = Some y → sh u = sh v → matvec_r m u = Some (default u (matvec_r m u)).
Proof.
  intros Hy Hu. unfold matvec_r in *. unfold asize in *. rewrite Hu. destruct (decide (ncol m = size (sh v))); [|done]. cbv zeta in *.
  destruct (decide _); [|done]. unfold reshaped in *. apply fmap_Some in Hy as (s & Hs & _). unfold asize in *. simpl in *. by rewrite Hs.
Qed.
Lemma fine_matvec (g : graph) x c m q v y : g !! x = Some c → c_cls nplib c = NOp (op_matvec m) → c_dt nplib c = ["vec"]%string → c_tm nplib c = [] →
  c_attr nplib c !! "vec"%string = Some (@ARef nplib q) → denotes nplib g q QR v → in_range m → matvec_r m v = Some y → fine_at g x.
Proof.
  intros Hc Hcls Hdt Htm H1 Hv Hr Hy. destruct (matvec_right m v y Hr Hy) as [_ Hd].
  apply (fine_one g x c (op_matvec m) "vec"%string q v m (λ u, default u (matvec_r m u))); try done.
  intros u Hu. cbn [np_r op_matvec]. by apply (matvec_same_shape m v y).
Qed.
(** statements for the properties *)
Lemma dot_both a b y : np_dot a b = Some y → length (sh b) ≤ 2 → 0 < nth 0 (sh b) 0 →
  ∃ Ja Jb, dot_jac true false a b = Some (Some Ja) ∧ dot_jac false true a b = Some (Some Jb) ∧
    fits Ja (asize y) (asize a) ∧ fits Jb (asize y) (asize b) ∧ diff2 (λ u v, default u (np_dot u v)) Ja Jb a b.
Proof.
  intros Hy Hl Hp. destruct (dot_right a b y Hy Hl Hp) as (Ja & Jb & H1 & H2 & F1 & F2 & Hd & _). by exists Ja, Jb.
Qed.
Lemma dot_value a b : (is_Some (np_dot a b) ↔ dot_shapes (sh a) (sh b)) ∧ ∀ y, np_dot a b = Some y → is_dot a b y.
Proof. split; [apply np_dot_some|apply np_dot_value]. Qed.
Lemma dot_empty : ∃ a b y, np_dot a b = Some y ∧ length (sh a) = 2 ∧ length (sh b) = 2 ∧ dot_jac true false a b = None.
Proof. exists (Arr_ [1; 0] (λ _, 0%R)), (Arr_ [0; 1] (λ _, 0%R)). eexists. split_and!; [reflexivity|done..]. Qed.
Lemma cross_value h a b : sh a = [h; 3] → sh b = [h; 3] → ∃ y, np_cross a b = Some y ∧ sh y = [h; 3] ∧
  ∀ r c, r < h → c < 3 → at_ y [r; c] = cross3 (λ k, at_ a [r; k]) (λ k, at_ b [r; k]) c.
Proof.
  intros Ha Hb. destruct (cross_is h a b Ha Hb) as (y & Hy & Sy & Dy). exists y. split_and!; [done|done|]. intros r c _ Hc.
  assert (E : ∀ (s : arr R) k, sh s = [h; 3] → at_ s [r; k] = dat s (r * 3 + k)) by (intros s k Hs; unfold at_; rewrite Hs; cbn; f_equal; lia).
  rewrite E, Dy by done. unfold vrow. apply vrow_ext; intros k _; by rewrite E.
Qed.

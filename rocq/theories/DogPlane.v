(** Problems with two residuals of two parameters in binary64 numbers. *)
From Coq Require Import ZArith.
From Flocq Require Import Core IEEE754.BinarySingleNaN.
From stdpp Require Import list numbers.
From Verif Require Import DogModel DogSpec DogGeo DogThms DogStops Dog64.

Definition pt : Type := b64 * b64.
Definition add64 : b64 → b64 → b64 := Bplus mode_NE.
Definition mul64 : b64 → b64 → b64 := Bmult mode_NE.
Definition dot2 (u v : pt) : b64 := add64 (mul64 u.1 v.1) (mul64 u.2 v.2).
Definition norm2 (u : pt) : b64 := Bsqrt mode_NE (dot2 u u).
Definition max2 (u : pt) : b64 := if Bltb (Babs u.1) (Babs u.2) then Babs u.2 else Babs u.1.
(** matrices by columns *)
Definition app2 (A : pt * pt) (v : pt) : pt := (add64 (mul64 A.1.1 v.1) (mul64 A.2.1 v.2), add64 (mul64 A.1.2 v.1) (mul64 A.2.2 v.2)).
Definition plane (slv : pt * pt → pt → option pt) : lin f64 := {|
  V := pt; W := pt; M := pt * pt; H := pt * pt;
  vnorm := norm2 : pt → K f64; vinf := max2 : pt → K f64; wnorm := norm2 : pt → K f64;
  vadd := λ u v, (add64 u.1 v.1, add64 u.2 v.2);
  vsub := λ u v, (Bminus mode_NE u.1 v.1, Bminus mode_NE u.2 v.2);
  vscale := (λ c v, (mul64 c v.1, mul64 c v.2)) : K f64 → pt → pt;
  vdot := dot2 : pt → pt → K f64;
  jt_neg := λ J r, (dot2 J.1 (Bopp r.1, Bopp r.2), dot2 J.2 (Bopp r.1, Bopp r.2));
  jdot := app2; gram := λ J, ((dot2 J.1 J.1, dot2 J.2 J.1), (dot2 J.1 J.2, dot2 J.2 J.2)); hdot := app2;
  solve := slv
|}.
Definition ident : pt * pt := ((of_int 1, of_int 0), (of_int 0, of_int 1)).
Definition tol : b64 := ratio 1 1000000000000000.

(** residuals equal to the parameters; the solver is right, as the normal matrix is the identity *)
Definition simple : problem f64 (plane (λ _ g, Some g)) := Build_problem f64 (plane (λ _ g, Some g))
  (λ _ x, Some x) (λ _ _, Some ident) (Some 3) (Some 1) tol tol (of_int 0) None.
Definition unit_pt : pt := (of_int 1, of_int 0).
Lemma simple_two : finished (run _ _ simple unit_pt 3) ∧ length (evals (events (run _ _ simple unit_pt 3))) = 2.
Proof. split; vm_compute; done. Qed.

(** residuals that are not numbers away from the start *)
Definition cliff : problem f64 (plane (λ _ g, Some g)) := Build_problem f64 (plane (λ _ g, Some g))
  (λ _ x, if Bleb (of_int 1) x.1 then Some x else Some (B754_nan, B754_nan)) (λ _ _, Some ident) (Some 1) None tol tol (of_int 0) (Some (of_int 10 : K f64)).
Section stuck.
  Context (N : num) (L : lin N) (P : problem N L).
  Context (p : V L) (r : W L) (J : M L) (y : V L) (d : K N) (r' : W L).
  Notation A := (gram L J). Notation g := (jt_neg L J r). Notation sd := (cauchy N L J g).
  Context (Hs : solve L A g = Some y) (H1 : kle N d (vnorm L sd) = false) (H2 : kle N (vnorm L y) d = true).
  Context (H3 : kle N (vnorm L y) (kmul N (e2 N L P) (vnorm L p)) = false) (H4 : ∀ k, resid N L P k (vadd L p y) = Some r').
  Notation rho := (ksub N (ksq N (wnorm L r)) (ksq N (wnorm L r'))).
  Context (H5 : klt N (k0 N) rho = false) (H6 : klt N (k09 N) rho = false) (H7 : klt N rho (k005 N) = false).
  Context (H8 : kle N d (kmul N (e2 N L P) (vnorm L p)) = false) (H9 : max_fevals N L P = None).
  Definition stuck (c : conf N L) : Prop := ∃ fv dl gn it fe l, (gn = None ∨ gn = Some y) ∧ c = AtInner N L (St N L p fv r J A g sd gn dl (Some d) it false fe l).
  Lemma stuck_step c : stuck c → stuck (step N L P c).
  Proof.
    intros (fv & dl & gn & it & fe & l & Hg & ->). unfold step, inner. cbn [s_sd s_gn s_delta s_A s_g].
    assert (Hu : update_step N L sd gn (Some d) A g = Some (Some y, y, d)).
    { unfold update_step. rewrite H1. assert (Hf : from_option Some (solve L A g) gn = Some y) by (destruct Hg as [->| ->]; [exact Hs|done]). rewrite Hf. cbn [mbind option_bind]. by rewrite H2. }
    rewrite Hu. cbv zeta. cbn [s_p set_step set_log s_fevals]. rewrite H3, H4. unfold trial. cbn [s_r set_step set_log]. cbv zeta. rewrite H5. rewrite H5. unfold new_radius. rewrite H6, H7.
    cbn. rewrite H8, H9. exists p, y, (Some y), it, (S fe). eexists. split; [by right|]. reflexivity.
  Qed.
  Lemma stuck_forever c k : stuck c → stuck (Nat.iter k (step N L P) c).
  Proof. intros H. induction k as [|k IH]; [done|]. by apply (stuck_step (Nat.iter k _ c)). Qed.
End stuck.
Lemma cliff_stuck k : ¬ finished (run _ _ cliff unit_pt k).
Proof.
  destruct k as [|k]; [vm_compute; tauto|].
  assert (E : run _ _ cliff unit_pt (S k) = Nat.iter k (step _ _ cliff) (run _ _ cliff unit_pt 1)).
  { unfold run. rewrite <- (iter_add _ _ cliff k 1). f_equal. lia. }
  set (L := plane (λ _ g, Some g)) in *.
  assert (S : stuck f64 L unit_pt unit_pt ident (jt_neg L ident unit_pt) (of_int 10) (run f64 L cliff unit_pt (S k))).
  { rewrite E. apply (stuck_forever _ _ cliff _ _ _ _ _ (B754_nan, B754_nan)).
    - reflexivity.
    - vm_compute. reflexivity.
    - vm_compute. reflexivity.
    - vm_compute. reflexivity.
    - intros j. assert (Eb : Bleb (of_int 1) (vadd L unit_pt (jt_neg L ident unit_pt)).1 = false) by (vm_compute; reflexivity).
      change ((if Bleb (of_int 1) (vadd L unit_pt (jt_neg L ident unit_pt)).1 then Some (vadd L unit_pt (jt_neg L ident unit_pt)) else Some (B754_nan, B754_nan)) = Some (B754_nan, B754_nan)).
      by rewrite Eb.
    - vm_compute. reflexivity.
    - vm_compute. reflexivity.
    - vm_compute. reflexivity.
    - vm_compute. reflexivity.
    - reflexivity.
    - unfold run. cbn [Nat.iter nat_rect]. assert (Es : start f64 L cliff unit_pt = AtOuter f64 L (St f64 L unit_pt unit_pt unit_pt ident (gram L ident) (jt_neg L ident unit_pt) unit_pt None unit_pt (Some (of_int 10 : K f64)) 0 false 1 [ECall f64 L unit_pt; EEval f64 L unit_pt unit_pt])).
      { unfold start. change (jac f64 L cliff 0 unit_pt) with (Some ident). assert (Er : resid f64 L cliff 0 unit_pt = Some unit_pt).
        { change ((if Bleb (of_int 1) (of_int 1) then Some unit_pt else Some (B754_nan, B754_nan)) = Some unit_pt). assert (Eb : Bleb (of_int 1) (of_int 1) = true) by (vm_compute; reflexivity). by rewrite Eb. }
        rewrite Er. unfold small_gradient. assert (Eg : klt f64 (vinf L (jt_neg L ident unit_pt)) (e1 f64 L cliff) = false) by (vm_compute; reflexivity). cbn [s_g]. by rewrite Eg. }
      rewrite Es. cbn [step s_done]. eexists _, _, None, _, _, _. split; [by left|]. reflexivity. }
  destruct S as (fv & dl & gn & it & fe & l & _ & Hc). fold L. rewrite Hc. tauto.
Qed.

(** a solver that goes too far: the better point is turned down *)
Definition far : problem f64 (plane (λ _ _, Some (of_int (-3), of_int 0))) := Build_problem f64 (plane (λ _ _, Some (of_int (-3), of_int 0)))
  (λ _ x, if Bleb x.1 (of_int (-3)) then Some (of_int 0, of_int 0) else Some unit_pt) (λ _ _, Some ident) (Some 3) (Some 2) tol tol (of_int 0) None.
Definition origin : pt := (of_int 0, of_int 0).
Definition worse_check slv (c : conf f64 (plane slv)) : bool :=
  match c with
  | Returned _ _ s => match evals (s_log _ _ s) with
      | [(a, ra); (b, rb)] => klt f64 (sse (L := plane slv) rb) (sse (L := plane slv) ra) && Bltb (fst (b : pt)) (fst (s_fv _ _ s : pt)) && negb (Bltb (fst (b : pt)) (fst (b : pt)))
      | _ => false end
  | _ => false end.
Lemma worse_best slv c : worse_check slv c = true → ∃ s, c = Returned _ _ s ∧ ¬ best (s_log _ _ s) (s_fv _ _ s).
Proof.
  destruct c as [| |s|]; try discriminate. unfold worse_check. intros C. exists s. split; [done|]. intros (r & Hin & Hall).
  destruct (evals (s_log _ _ s)) as [|[a ra] [|[b rb] [|]]]; try discriminate. apply andb_true_iff in C as [C C3]. apply andb_true_iff in C as [C1 C2]. apply negb_true_iff in C3.
  apply elem_of_cons in Hin as [Hin|Hin%elem_of_list_singleton].
  - injection Hin as _ ->. specialize (Hall (b, rb)). cbn [snd] in Hall. rewrite C1 in Hall. discriminate Hall. right. by left.
  - injection Hin as Hb _. rewrite Hb, C3 in C2. discriminate.
Qed.
Lemma far_worse : ∃ s, run _ _ far origin 3 = Returned _ _ s ∧ ¬ best (s_log _ _ s) (s_fv _ _ s).
Proof. apply worse_best. vm_compute. reflexivity. Qed.

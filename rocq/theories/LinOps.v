(** Inverses and determinants as classes of the array library. *)
From Coq Require Import Reals Lra.
From stdpp Require Import gmap strings list list_numbers numbers.
From Verif Require Import EngineModel EngineSpec EngineEval EngineInv EngineHist EngineThms GraphSpec ArrModel Curve ArrThms ElemModel ElemThms ReorderModel NpModel NpSpec NpThms ViewThms
  DotModel LinModel LinSpec LinThms LinJac.

(** Inv (linalg.py:154-175), Det (linalg.py:143-151), LogAbsDet (linalg.py:114-125; its
    value is computed by on_changed there) *)
Definition op_inv : npop := {|
  np_dt := ["a"%string]; np_tm := []; np_perm := false;
  np_r _ vs := match vs with [a] => np_inv a | _ => None end;
  np_jac _ vs ws := match vs with [a] => Some <$> inv_jac a | _ => None end
|}.
Definition op_det : npop := {|
  np_dt := ["x"%string]; np_tm := []; np_perm := false;
  np_r _ vs := match vs with [a] => np_det a | _ => None end;
  np_jac _ vs ws := match vs with [a] => Some <$> det_jac a | _ => None end
|}.
Definition op_logdet : npop := {|
  np_dt := ["x"%string]; np_tm := []; np_perm := false;
  np_r _ vs := match vs with [a] => np_logdet a | _ => None end;
  np_jac _ vs ws := match vs with [a] => Some <$> logdet_jac a | _ => None end
|}.

(** Operations whose value exists near the operand, not for all operands of its shape *)
Lemma fine_near (g : graph) x c p k q a J (f : arr R → arr R) : g !! x = Some c → c_cls nplib c = NOp p →
  c_dt nplib c = np_dt p → c_tm nplib c = np_tm p → np_dt p = [k] → c_attr nplib c !! k = Some (@ARef nplib q) →
  denotes nplib g q QR a → np_jac p (terms_of p (plain nplib c)) [a] [true] = Some (Some J) →
  (∀ u v, u 0%R = a → amoves u v → near (λ t, np_r p (terms_of p (plain nplib c)) [u t] = Some (f (u t)))) → diff1 f J a → fine_at g x.
Proof.
  intros Hc Hcls Hdt Htm Hk Ha Hden HJ Hf Hd. exists c. split; [done|]. rewrite Hcls. split_and!; [done..|].
  exists [q], [a]. rewrite Hk. split_and!; [by repeat constructor|by repeat constructor|apply NoDup_singleton| |].
  - exists (λ _, Some J). split.
    + intros r Hr. apply elem_of_list_singleton in Hr as ->. change ((λ r, bool_decide (r = q)) <$> [q]) with [bool_decide (q = q)]. by rewrite bool_decide_eq_true_2.
    + intros rho V Ha' Hm. simpl in Ha'. injection Ha' as Ha'. specialize (Hm q (elem_of_list_here _ _)). exists (λ t, f (rho q t)). split; [by apply (Hf _ (V q))|].
      change (remove_dups [q]) with (if decide_rel elem_of q [] then [] else [q]). destruct (decide_rel elem_of q []) as [H|_]; [by apply elem_of_nil in H|].
      eapply amoves_ext; [|apply (Hd (rho q) (V q) Ha' Hm)]. intros i. simpl. ring.
  - intros r Hr. apply elem_of_list_singleton in Hr as ->. change ((λ r, bool_decide (r = q)) <$> [q]) with [bool_decide (q = q)].
    rewrite bool_decide_eq_true_2 by done. rewrite HJ. done.
Qed.
Lemma inv_near a y u v : np_inv a = Some y → u 0%R = a → amoves u v → near (λ t, np_inv (u t) = Some (default (u t) (np_inv (u t)))).
Proof.
  intros Hy <- Hu. destruct (np_inv_inv _ _ Hy) as (pre & n & Hs & HD). pose proof (amoves_shape _ _ Hu) as Hsh.
  assert (HN : near (λ s, ∀ t, t ∈ seq 0 (size pre) → detn n (blk (u s) n t) ≠ 0%R)).
  { apply (near_list (seq 0 (size pre)) (λ t s, detn n (blk (u s) n t) ≠ 0%R)). intros t [_ Ht]%elem_of_seq.
    apply (det_near n (λ s, blk (u s) n t) (λ i j, v (t * (n * n) + i * n + j)%nat)); [|by apply HD]. by apply (blk_moves u v pre). }
  eapply near_mono; [|apply (near_and _ _ Hsh HN)]. intros s [H1 H2]. rewrite <- H1 in Hs. destruct (np_inv_some (u s) pre n Hs) as (z & -> & _); [|done].
  intros t Ht. apply H2, elem_of_seq. lia.
Qed.
Lemma fine_inv (g : graph) x c q a y : g !! x = Some c → c_cls nplib c = NOp op_inv → c_dt nplib c = ["a"]%string → c_tm nplib c = [] →
  c_attr nplib c !! "a"%string = Some (@ARef nplib q) → denotes nplib g q QR a → np_inv a = Some y → length (sh a) = 2 ∨ 0 < asize a → fine_at g x.
Proof.
  intros Hc Hcls Hdt Htm H1 Ha Hy Hp. destruct (inv_right a y Hy Hp) as (J & HJ & _ & Hd).
  apply (fine_near g x c op_inv "a"%string q a J (λ u, default u (np_inv u))); try done.
  - cbn [np_jac op_inv]. by rewrite HJ.
  - intros u v E Hu. by apply (inv_near a y u v).
Qed.
Lemma fine_det (g : graph) x c q a d : g !! x = Some c → c_cls nplib c = NOp op_det → c_dt nplib c = ["x"]%string → c_tm nplib c = [] →
  c_attr nplib c !! "x"%string = Some (@ARef nplib q) → denotes nplib g q QR a → np_det a = Some d → is_Some (np_inv a) → fine_at g x.
Proof.
  intros Hc Hcls Hdt Htm H1 Ha Hy Hp. destruct (det_right a d Hy Hp) as (J & HJ & _ & Hd).
  apply (fine_near g x c op_det "x"%string q a J (λ u, default u (np_det u))); try done.
  - cbn [np_jac op_det]. by rewrite HJ.
  - intros u v E Hu. pose proof (amoves_shape _ _ Hu) as Hsh. destruct (np_det_is a d Hy) as (n & Hs & _). rewrite E, Hs in Hsh.
    eapply near_mono; [|exact Hsh]. intros s Hss. cbn [np_r op_det]. by rewrite (np_det_some _ n Hss).
Qed.
Lemma fine_logdet (g : graph) x c q a d : g !! x = Some c → c_cls nplib c = NOp op_logdet → c_dt nplib c = ["x"]%string → c_tm nplib c = [] →
  c_attr nplib c !! "x"%string = Some (@ARef nplib q) → denotes nplib g q QR a → np_logdet a = Some d → fine_at g x.
Proof.
  intros Hc Hcls Hdt Htm H1 Ha Hy. destruct (logdet_right a d Hy) as (J & HJ & _ & Hd).
  apply (fine_near g x c op_logdet "x"%string q a J (λ u, default u (np_logdet u))); try done.
  - cbn [np_jac op_logdet]. by rewrite HJ.
  - intros u v E Hu. pose proof (amoves_shape _ _ Hu) as Hsh. destruct (np_logdet_is a d Hy) as (n & Hs & HD & _). rewrite E, Hs in Hsh.
    destruct (inv_of_det a n Hs HD) as [y Hyi]. destruct (det_move a n y Hyi Hs u v E Hu) as (_ & HM & _).
    assert (HD0 : detn n (blk (u 0%R) n 0) ≠ 0%R) by (by rewrite E).
    eapply near_mono; [|apply (near_and _ _ Hsh (det_near n (λ s, blk (u s) n 0) _ HM HD0))]. intros s [H2 H3]. cbn [np_r op_logdet]. by rewrite (np_logdet_some _ n H2 H3).
Qed.

(** A concrete matrix *)
Definition m22 : arr R := of_list 0%R [2; 2] [2; 1; 1; 1]%R.
Lemma det22 a : detn 2 (blk a 2 0) = (dat a 0%nat * dat a 3%nat - dat a 1%nat * dat a 2%nat)%R.
Proof. cbv -[Rplus Rmult Rminus Ropp IZR dat]. ring. Qed.
Lemma m22_inverse : ∃ y, np_inv m22 = Some y ∧ elems y = [1; -1; -1; 2]%R.
Proof.
  assert (D : detn 2 (blk m22 2 0) = 1%R) by (rewrite det22; simpl; ring).
  destruct (np_inv_some m22 [] 2) as (y & Hy & Hs & Hd).
  - done.
  - intros t Ht. assert (t = 0) as -> by (simpl in Ht; lia). rewrite D. lra.
  - exists y. split; [done|]. unfold elems, asize. rewrite Hs. change (seq 0 (size (sh m22))) with [0; 1; 2; 3]. cbn [fmap list_fmap].
    rewrite !Hd by (unfold asize; simpl; lia). unfold invx. cbn [Nat.div Nat.modulo Nat.mul Nat.divmod Nat.add fst snd Nat.sub]. rewrite D. unfold cof.
    repeat f_equal; cbv -[Rplus Rmult Rminus Ropp IZR Rdiv]; field.
Qed.

(** The library of EngineDemo.v with Jacobians as matrices whose entries are given
    by functions; these satisfy the laws of RevSpec.v. *)
From stdpp Require Import gmap strings list relations.
From Coq Require Import FunctionalExtensionality.
From Verif Require Import EngineModel EngineSpec EngineDemo EngineEval Check GraphModel GraphSpec RevModel RevSpec.

Record fmat := FMat { frows : nat; fcols : nat; fent : nat → nat → Z }.
Fixpoint zsum (n : nat) (f : nat → Z) : Z :=
  match n with O => 0%Z | S n' => (zsum n' f + f n')%Z end.
Definition fmul (a b : fmat) : fmat :=
  FMat (frows a) (fcols b) (λ i j, zsum (fcols a) (λ k, fent a i k * fent b k j)%Z).
Definition fadd (a b : fmat) : fmat := FMat (frows a) (fcols a) (λ i j, fent a i j + fent b i j)%Z.
Definition fT (a : fmat) : fmat := FMat (fcols a) (frows a) (λ i j, fent a j i).
Definition of_mat (m : mat) : fmat := FMat (length m) (ncols m) (λ i j, nth j (nth i m []) 0%Z).
Definition to_mat (a : fmat) : mat := (λ i, (λ j, fent a i j) <$> seq 0 (fcols a)) <$> seq 0 (frows a).

Lemma zsum_ext n f g : (∀ k, f k = g k) → zsum n f = zsum n g.
Proof. intros H. induction n as [|n IH]; simpl; [done|]. by rewrite IH, H. Qed.
Lemma zsum_add n f g : zsum n (λ k, f k + g k)%Z = (zsum n f + zsum n g)%Z.
Proof. induction n as [|n IH]; simpl; [done|]. rewrite IH. lia. Qed.
Lemma zsum_mul n a f : zsum n (λ k, a * f k)%Z = (a * zsum n f)%Z.
Proof. induction n as [|n IH]; simpl; [lia|]. rewrite IH. lia. Qed.
Lemma zsum_swap n m (f : nat → nat → Z) : zsum n (λ k, zsum m (λ l, f k l)) = zsum m (λ l, zsum n (λ k, f k l)).
Proof.
  induction n as [|n IH]; simpl.
  - induction m as [|m IHm]; simpl; [done|]. by rewrite <- IHm.
  - by rewrite IH, zsum_add.
Qed.

Fixpoint pmap {A R R'} (f : R → R') (p : prog A R) : prog A R' :=
  match p with
  | PRet r => PRet (f r)
  | PRaise => PRaise
  | PAsk q k => PAsk q (λ v, pmap f (k v))
  end.

Definition fdemo : lib := {|
  Cls := cls; Val := vec; Arr := vec; Jac := fmat;
  is_base := is_base demo; is_permute := is_permute demo;
  compute_r := demo_r;
  compute_dr c ts b ks := pmap (fmap of_mat) (demo_dr c ts b ks);
  prop_deps := prop_deps demo; compute_prop := compute_prop demo;
  as_array v := v; base_cls := KBase;
  jadd := fadd; jmul := fmul; jT := fT
|}.

Lemma pmap_uses {R R'} (P : req → Prop) (f : R → R') (p : prog vec R) :
  uses demo P p → uses fdemo P (pmap f p).
Proof.
  induction p as [r| |q k IH]; simpl; [done|done|]. intros [Hq Hk]. split; [done|]. intros v. by apply IH.
Qed.
Lemma uses_fdemo {R} (P : req → Prop) (p : prog vec R) : uses demo P p → uses fdemo P p.
Proof.
  induction p as [r| |q k IH]; simpl; [done|done|]. intros [Hq Hk]. split; [done|]. intros v. by apply IH.
Qed.
Lemma fdemo_ok c : class_ok fdemo c (sig c).1 (sig c).2.
Proof.
  destruct (demo_ok c) as [H1 H2 H3 H4 H5 H6 H7 H8 H9]. split.
  - intros ts. apply uses_fdemo, H1.
  - apply H2.
  - intros ts b ks. apply pmap_uses, (H3 ts b ks).
  - intros ts1 ts2 b ks H. simpl. f_equal. apply (H4 ts1 ts2 b ks H).
  - apply H5.
  - intros k ds ts Hk. apply uses_fdemo, (H6 k ds ts Hk).
  - apply H7.
  - apply H8.
  - apply H9.
Qed.
Lemma fdemo_lib_ok : lib_ok fdemo.
Proof. split; [done|]. apply (fdemo_ok KBase). Qed.
Lemma fdemo_laws : jac_laws fdemo.
Proof.
  split; intros a b c; simpl.
  - unfold fmul. simpl. f_equal. do 2 (apply functional_extensionality; intros ?).
    rewrite (zsum_ext _ _ (λ k, zsum (fcols b) (λ l, fent a x k * (fent b k l * fent c l x0))%Z))
      by (intros; by rewrite zsum_mul).
    rewrite zsum_swap. apply zsum_ext. intros l.
    rewrite Z.mul_comm, <- zsum_mul. apply zsum_ext. intros k. lia.
  - unfold fmul, fadd. simpl. f_equal. do 2 (apply functional_extensionality; intros ?).
    rewrite <- zsum_add. apply zsum_ext. intros k. lia.
Qed.
Lemma fdemo_local : local_derivatives fdemo.
Proof.
  intros c ts b Hb. destruct c; simpl; try done.
  destruct b; [|done]. by specialize (Hb eq_refl).
Qed.

Notation fnew o c := (ONew fdemo o c (sig c).1 (sig c).2).
Definition fval (v : vec) : aval fdemo := @AVal fdemo v.
Definition fref (o : oid) : aval fdemo := @ARef fdemo o.

(** x and k are variables, y = x*x, z = y + k, u = z * x, and w = x\[0\]. *)
Definition fbuild : list (op fdemo) :=
  [fnew 1 KBase; OSet fdemo 1 "x" (fval [3; 4]%Z) 101;
   fnew 2 KBase; OSet fdemo 2 "x" (fval [5; 6]%Z) 102;
   fnew 3 KMul; OSetKw fdemo 3 [("a"%string, fref 1, 103); ("b"%string, fref 1, 104)];
   fnew 4 KAdd; OSetKw fdemo 4 [("a"%string, fref 3, 105); ("b"%string, fref 2, 106)];
   fnew 5 KMul; OSetKw fdemo 5 [("a"%string, fref 4, 107); ("b"%string, fref 2, 108)];
   fnew 6 KSel; OSetKw fdemo 6 [("a"%string, fref 1, 109); ("idxs"%string, fval [0]%Z, 110)]].
Notation fvalid_b := (valid_b fdemo sig (λ _, true)).
Lemma fvalid_ok l : fvalid_b ∅ l ∅ = true → valid fdemo l.
Proof. apply (valid_b_ok fdemo sig (λ _, true) (λ c _, fdemo_ok c)). Qed.
Lemma fbuild_valid : valid fdemo fbuild.
Proof. apply fvalid_ok. vm_compute. reflexivity. Qed.

Lemma rev_view : ∃ (L : lib) l m o w j, lib_ok L ∧ valid L l ∧ jac_laws L ∧ local_derivatives L ∧
  (read_dr_rev L m o w (exec L l (init L))).2 = Some None ∧ dr_denotes L (gexec L l ∅) o w (Some j).
Proof.
  assert (Hd : ∃ j, drval fdemo 9 (gexec fdemo fbuild ∅) 5 6 = Some (Some j)).
  { assert (H : (match drval fdemo 9 (gexec fdemo fbuild ∅) 5 6 with Some (Some _) => true | _ => false end) = true)
      by (vm_compute; reflexivity).
    destruct (drval fdemo 9 (gexec fdemo fbuild ∅) 5 6) as [[j|]|]; [by exists j|done|done]. }
  destruct Hd as [j Hj].
  exists fdemo, fbuild, 9, 5, 6, j. split_and!.
  - apply fdemo_lib_ok.
  - apply fbuild_valid.
  - apply fdemo_laws.
  - apply fdemo_local.
  - vm_compute. reflexivity.
  - by exists 9.
Qed.

Definition smooth_b (g : gmap oid (core fdemo)) : bool :=
  forallb (λ oc : oid * core fdemo, forallb (λ k, some_b (c_attr fdemo oc.2 !! k)) (c_dt fdemo oc.2)) (map_to_list g) &&
  forallb (λ o, forallb (λ p, some_b (psliced fdemo 9 g o p)) (elements (dom g))) (elements (dom g)).
Lemma smooth_b_ok g : smooth_b g = true → smooth fdemo g.
Proof.
  intros [H1 H2]%andb_true_iff. split.
  - intros o c k Hc Hk. apply forallb_forall with (x := (o, c)) in H1; [|by apply elem_of_list_In, elem_of_map_to_list].
    simpl in H1. apply forallb_forall with (x := k) in H1; [|by apply elem_of_list_In]. by apply some_b_ok in H1.
  - intros o p Ho Hp. apply forallb_forall with (x := o) in H2; [|by apply elem_of_list_In, elem_of_elements].
    apply forallb_forall with (x := p) in H2; [|by apply elem_of_list_In, elem_of_elements].
    apply some_b_ok in H2 as [d Hd]. by exists 9, d.
Qed.
Definition shown (x : option (option (Jac fdemo))) : option (option mat) :=
  match x with Some (Some j) => Some (Some (to_mat j)) | Some None => Some None | None => None end.

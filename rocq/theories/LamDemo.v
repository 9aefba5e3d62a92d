(** A concrete library with lambda objects, and histories over it. *)
From stdpp Require Import gmap strings list relations.
From Verif Require Import EngineModel EngineSpec LamModel LamSpec LamGraph LamThms LamHist LamMake.

(** Values are integers; classes: leaf, sum, product, handle, lambda. *)
Inductive kcls := KLeaf | KAdd | KMul | KHandle | KLam.
Definition k_r (c : kcls) (ts : gmap name Z) : prog Z Z :=
  match c with
  | KLeaf => match ts !! "x"%string with Some t => PRet t | None => PRaise end
  | KAdd => PAsk (RChild "a"%string) (λ u, PAsk (RChild "b"%string) (λ v, PRet (u + v)%Z))
  | KMul => PAsk (RChild "a"%string) (λ u, PAsk (RChild "b"%string) (λ v, PRet (u * v)%Z))
  | KHandle => PAsk (RChild "x"%string) PRet
  | KLam => PAsk (RChild "_result"%string) PRet
  end.
Definition k_leaf (c : kcls) : bool := match c with KLeaf => true | _ => false end.
Definition klib : lib :=
  Lib kcls Z Z unit k_leaf (λ _, false) k_r (λ _ _ _ _, PRet None) (λ _, ∅) (λ _ _ _, PRaise)
      id KLeaf (λ _ _, tt) (λ _ _, tt) id.
Definition k_lam (c : kcls) : bool := match c with KLam => true | _ => false end.
Definition k_handle (c : kcls) : bool := match c with KHandle => true | _ => false end.

Definition k_needs (c : kcls) : list name :=
  match c with
  | KLeaf => ["x"%string] | KAdd | KMul => ["a"%string; "b"%string]
  | KHandle => ["x"%string] | KLam => ["_result"%string]
  end.
Lemma k_class_ok c dt tm : (∀ k, k ∈ k_needs c → k ∈ dt) → (c = KLeaf → dt = ["x"%string] ∧ tm = []) →
  class_ok klib c dt tm.
Proof.
  intros Hn Hleaf. split; try done.
  - intros ts. destruct c; simpl.
    + destruct (@lookup name Z (gmap name Z) _ "x"%string ts); exact I.
    + repeat (split || intros _); try exact I; apply Hn; set_solver.
    + repeat (split || intros _); try exact I; apply Hn; set_solver.
    + split; [|intros _; exact I]. apply Hn. set_solver.
    + split; [|intros _; exact I]. apply Hn. set_solver.
  - intros ts1 ts2 H. destruct c; try done. destruct (Hleaf eq_refl) as [-> ->].
    assert (E : ts1 !! "x"%string = ts2 !! "x"%string) by (apply H; unfold tracked; set_solver).
    simpl in E |- *. by rewrite E.
  - intros Hb. destruct c; try done. destruct (Hleaf eq_refl). done.
Qed.
Lemma klib_ok : lib_ok klib.
Proof. split; [done|]. apply k_class_ok; [|done]. intros k Hk. done. Qed.
Lemma klam_ok : lam_lib_ok klib k_lam k_handle.
Proof.
  split; [done| |].
  - intros c Hc. destruct c; done.
  - intros c Hc. destruct c; done.
Qed.

(* ------------------------------------------------------------------ *)
(** Boolean checks. *)
Notation kgraph := (gmap oid (core klib)).
Definition aval_eqb (a b : option (aval klib)) : bool :=
  match a, b with
  | Some (AVal s), Some (AVal t) => Z.eqb s t
  | Some (ARef x), Some (ARef y) => Nat.eqb x y
  | None, None => true
  | _, _ => false
  end.
Lemma aval_eqb_ok a b : aval_eqb a b = true → a = b.
Proof.
  destruct a as [[s|x]|], b as [[t|y]|]; simpl; try done.
  - intros H%Z.eqb_eq. by subst.
  - intros H%Nat.eqb_eq. by subst.
Qed.

Definition kid_edges (g : kgraph) (x : oid) : list (name * oid) :=
  match g !! x with
  | Some c => omap (λ k, match c_attr klib c !! k with Some (ARef p) => Some (k, p) | _ => None end) (c_dt klib c)
  | None => []
  end.
Fixpoint exposedb (n : nat) (reg : registry) (g : kgraph) (hd x : oid) : bool :=
  match n with
  | O => true
  | S n' =>
    Nat.eqb x hd ||
    existsb (λ e : name * oid,
      negb (match reg !! hd with Some (f, _) => Nat.eqb f x && String.eqb e.1 "_result" | None => false end)
      && exposedb n' reg g hd e.2) (kid_edges g x)
  end.
Lemma exposedb_ok n reg g hd : ∀ x, exposed klib reg g hd x → exposedb n reg g hd x = true.
Proof.
  induction n as [|n IH]; intros x He; [done|]. simpl. apply orb_true_iff.
  destruct He as [Hb|x d y He Hd Hy].
  - left. apply Nat.eqb_refl.
  - right. apply existsb_exists. exists (d, y). split.
    + destruct He as (c & Hc & _ & Hk & Ha). unfold kid_edges. rewrite Hc.
      apply elem_of_list_In, elem_of_list_omap. exists d. split; [done|]. by rewrite Ha.
    + simpl. rewrite (IH y Hy), andb_true_r. apply negb_true_iff.
      destruct (reg !! hd) as [[f k]|]; [|done].
      destruct (Nat.eqb f x) eqn:Ef; [|done]. apply Nat.eqb_eq in Ef as ->. simpl.
      apply String.eqb_neq. by apply (Hd k).
Qed.

Definition behindb (reg : registry) (g : kgraph) (hd : oid) : bool :=
  match reg !! hd with
  | Some (f, k) => negb (aval_eqb (gattr klib g hd "x"%string) (gattr klib g f k))
  | None => false
  end.
Lemma behindb_ok reg g hd : behind klib reg g hd → behindb reg g hd = true.
Proof.
  intros (f & k & E & Hne). unfold behindb. rewrite E. apply negb_true_iff.
  destruct (aval_eqb _ _) eqn:He; [|done]. apply aval_eqb_ok in He. done.
Qed.
Definition safeb (reg : registry) (g : kgraph) (x : oid) : bool :=
  forallb (λ hd, negb (behindb reg g hd && exposedb 12 reg g hd x)) (elements (dom reg)).
Lemma safeb_ok reg g x : safeb reg g x = true → safe klib reg g x.
Proof.
  intros H hd He. pose proof (exposed_behind _ _ _ _ _ He) as Hb.
  assert (Hin : hd ∈ dom reg) by (destruct Hb as (f & k & E & _); by apply elem_of_dom_2 in E).
  unfold safeb in H. rewrite forallb_forall in H.
  specialize (H hd). rewrite (behindb_ok _ _ _ Hb), (exposedb_ok 12 _ _ _ _ He) in H.
  assert (In hd (elements (dom reg))) by (by apply elem_of_list_In, elem_of_elements).
  by specialize (H H0).
Qed.

Definition inb (k : name) (l : list name) : bool := existsb (String.eqb k) l.
Lemma inb_ok k l : inb k l = true → k ∈ l.
Proof.
  unfold inb. rewrite existsb_exists. intros (k' & Hin & He). apply String.eqb_eq in He as ->.
  by apply elem_of_list_In.
Qed.
Lemma inb_no k l : inb k l = false → k ∉ l.
Proof.
  intros H Hin. assert (inb k l = true); [|congruence]. unfold inb. apply existsb_exists.
  exists k. split; [by apply elem_of_list_In|]. apply String.eqb_refl.
Qed.
Definition hasb (g : kgraph) (o : oid) : bool := match g !! o with Some _ => true | None => false end.
Lemma hasb_ok g o : hasb g o = true → o ∈ dom g.
Proof. unfold hasb. destruct (g !! o) eqn:E; [|done]. intros _. by apply elem_of_dom_2 in E. Qed.
Lemma hasb_no g o : hasb g o = false → o ∉ dom g.
Proof. unfold hasb. destruct (g !! o) eqn:E; [done|]. intros _. by apply not_elem_of_dom. Qed.

Definition class_okb (c : kcls) (dt tm : list name) : bool :=
  forallb (λ k, inb k dt) (k_needs c) &&
  match c with KLeaf => bool_decide (dt = ["x"%string] ∧ tm = []) | _ => true end.
Lemma class_okb_ok c dt tm : class_okb c dt tm = true → class_ok klib c dt tm.
Proof.
  intros [H1 H2]%andb_true_iff. apply k_class_ok.
  - rewrite forallb_forall in H1. intros k Hk. apply inb_ok, H1, elem_of_list_In, Hk.
  - intros ->. by apply bool_decide_eq_true_1 in H2.
Qed.

Definition refb (g : kgraph) (v : aval klib) : bool := match v with ARef p => hasb g p | AVal _ => true end.
Definition valb (v : aval klib) : bool := match v with AVal _ => true | ARef _ => false end.
Definition lop_okb (a : lop klib) (reg : registry) (g : kgraph) : bool :=
  match a with
  | LNew _ o c dt tm => negb (hasb g o) && class_okb c dt tm
  | LSet _ o k v o' =>
    match g !! o with
    | Some c => (negb (k_leaf (c_cls klib c)) || valb v) && refb g v && negb (hasb g o') &&
                match reg !! o with Some _ => false | None => true end &&
                (inb k (c_dt klib c) || inb k (c_tm klib c))
    | None => false
    end
  | LRead _ n o => safeb reg g o
  | LMake _ c f args result =>
    negb (hasb g f) && k_lam c && hasb g result &&
    bool_decide (NoDup args.*1) && bool_decide (NoDup args.*2) &&
    forallb (λ a : name * oid,
      negb (inb a.1 reserved) && match reg !! a.2 with Some _ => false | None => true end &&
      match g !! a.2 with
      | Some ch => k_handle (c_cls klib ch) && bool_decide (c_dt klib ch = ["x"%string]) &&
                   match c_attr klib ch !! "x"%string with Some (ARef p) => hasb g p | _ => false end
      | None => false
      end) args
  end.
Notation klop_ok := (lop_ok klib k_lam k_handle).
Notation kcores ls := (cores klib (st_h klib (ls_st klib ls))).

Lemma lop_okb_ok a ls : lop_okb a (ls_reg klib ls) (kcores ls) = true → klop_ok a ls.
Proof.
  destruct a as [o c dt tm|o k v o'|n o|c f args result]; simpl.
  - intros [H1%negb_true_iff H2]%andb_true_iff. split; [by apply hasb_no|by apply class_okb_ok].
  - destruct (kcores ls !! o) as [c|] eqn:Ec; [|done].
    intros [[[[H1 H2]%andb_true_iff H3%negb_true_iff]%andb_true_iff H4]%andb_true_iff H5]%andb_true_iff.
    split_and!.
    + exists c. split_and!; [done| | |by apply hasb_no].
      * intros Hb _. apply orb_true_iff in H1 as [H1%negb_true_iff|H1].
        -- simpl in Hb. congruence.
        -- destruct v; [eauto|done].
      * intros p ->. by apply hasb_ok.
    + apply not_elem_of_dom. destruct (ls_reg klib ls !! o) eqn:E; [discriminate|exact E].
    + exists c. split; [done|]. apply orb_true_iff in H5 as [H5|H5]; [left|right]; by apply inb_ok.
  - intros H. by apply safeb_ok.
  - intros [[[[[H1%negb_true_iff H2]%andb_true_iff H3]%andb_true_iff H4]%andb_true_iff H5]%andb_true_iff H6]%andb_true_iff.
    split_and!; [by apply hasb_no|done|by apply hasb_ok|by apply bool_decide_eq_true_1 in H4|
      by apply bool_decide_eq_true_1 in H5|].
    intros k hd Hin. rewrite forallb_forall in H6. apply elem_of_list_In in Hin. specialize (H6 _ Hin). simpl in H6.
    apply andb_true_iff in H6 as [[G1%negb_true_iff G2]%andb_true_iff G3]. split_and!.
    + by apply inb_no.
    + apply not_elem_of_dom. destruct (ls_reg klib ls !! hd) eqn:E; [discriminate|exact E].
    + destruct (kcores ls !! hd) as [ch|] eqn:Ech; [|done].
      apply andb_true_iff in G3 as [[G3 G4%bool_decide_eq_true_1]%andb_true_iff G5].
      destruct (c_attr klib ch !! "x"%string) as [[t|p]|] eqn:Ex; try done.
      exists ch, p. split_and!; try done. by apply hasb_ok.
Qed.

Fixpoint lvalidb (l : list (lop klib)) (ls : lstate klib) : bool :=
  match l with
  | [] => true
  | a :: l' => lop_okb a (ls_reg klib ls) (kcores ls) && lvalidb l' (lstep klib k_lam a ls)
  end.
Lemma lvalidb_ok l : ∀ ls, lvalidb l ls = true → lvalid_from klib k_lam k_handle l ls.
Proof.
  induction l as [|a l IH]; intros ls; [done|]. cbn [lvalidb lvalid_from].
  intros [H1 H2]%andb_true_iff. split; [by apply lop_okb_ok|by apply IH].
Qed.

(* ------------------------------------------------------------------ *)
(** f = ChLambda(lambda a, b: a * b + a), with a and b starting as leaves 0 and 1; then
    a is replaced by leaf 2.  Object 9 is x2 * b + x2 written out by hand. *)
Definition leaf (o : oid) (t : Z) : list (lop klib) :=
  [LNew klib o KLeaf ["x"%string] []; LSet klib o "x" (@AVal klib t) 100].
Definition node2 (o : oid) (c : kcls) (a b : oid) : list (lop klib) :=
  [LNew klib o c ["a"%string; "b"%string] []; LSet klib o "a" (@ARef klib a) 100; LSet klib o "b" (@ARef klib b) 100].
Definition holder (o p : oid) : list (lop klib) :=
  [LNew klib o KHandle ["x"%string] []; LSet klib o "x" (@ARef klib p) 100].

Definition l_make : list (lop klib) :=
  leaf 0 3%Z ++ leaf 1 4%Z ++ leaf 2 10%Z ++ holder 3 0 ++ holder 4 1 ++
  node2 5 KMul 3 4 ++ node2 6 KAdd 5 3 ++
  [LMake klib KLam 7 [("a"%string, 3); ("b"%string, 4)] 6].
Definition l_demo : list (lop klib) :=
  l_make ++ [LRead klib 20 7; LSet klib 7 "a" (@ARef klib 2) 100] ++
  node2 8 KMul 2 1 ++ node2 9 KAdd 8 2.

Lemma l_demo_valid : lvalid klib k_lam k_handle l_demo.
Proof. apply lvalidb_ok. vm_compute. reflexivity. Qed.

(** Reading f before and after: 3*4+3 and 10*4+10. *)
Example l_demo_read :
  (read_l klib (ls_reg klib (lafter klib k_lam l_make)) 20 7 (ls_st klib (lafter klib k_lam l_make))).2 = Some 15%Z ∧
  (read_l klib (ls_reg klib (lafter klib k_lam l_demo)) 20 7 (ls_st klib (lafter klib k_lam l_demo))).2 = Some 50%Z ∧
  (read_l klib (ls_reg klib (lafter klib k_lam l_demo)) 20 9 (ls_st klib (lafter klib k_lam l_demo))).2 = Some 50%Z.
Proof. vm_compute. done. Qed.

(** The relation between the body (6, 5, 3, 4) and the written-out expression (9, 8, 2, 1). *)
Definition l_rel (a b : oid) : Prop := (a, b) ∈ [(6, 9); (5, 8); (3, 2); (4, 1)].

(** A second lambda object whose second argument is not used. *)
Definition l_two : list (lop klib) :=
  leaf 0 3%Z ++ holder 1 0 ++ node2 2 KMul 1 1 ++ [LMake klib KLam 3 [("a"%string, 1)] 2] ++
  leaf 4 5%Z ++ leaf 5 6%Z ++ holder 6 4 ++ holder 7 5 ++ node2 8 KAdd 6 6 ++ [LRead klib 20 3].
Definition l_other : lop klib := LMake klib KLam 9 [("a"%string, 6); ("b"%string, 7)] 8.

Lemma l_two_valid : lvalid klib k_lam k_handle (l_two ++ [l_other]).
Proof. apply lvalidb_ok. vm_compute. reflexivity. Qed.
Lemma lvalid_app l1 l2 ls : lvalid_from klib k_lam k_handle (l1 ++ l2) ls →
  lvalid_from klib k_lam k_handle l1 ls ∧ lvalid_from klib k_lam k_handle l2 (lexec klib k_lam l1 ls).
Proof.
  revert ls. induction l1 as [|a l1 IH]; intros ls; [done|]. intros [H1 H2].
  apply IH in H2 as [H2 H3]. by repeat split.
Qed.

Notation klog ls := (st_log klib (ls_st klib ls)).
Definition quiet := lexec klib k_lam [LSet klib 3 "b" (@AVal klib 1%Z) 100; LRead klib 20 3].

Lemma terms_shared :
  lvalid klib k_lam k_handle (l_two ++ [l_other]) ∧
  klog (quiet (lafter klib k_lam l_two)) = klog (lafter klib k_lam l_two) ∧
  klog (quiet (lafter klib k_lam (l_two ++ [l_other]))) ≠ klog (lafter klib k_lam (l_two ++ [l_other])).
Proof.
  split; [exact l_two_valid|]. split; [vm_compute; reflexivity|].
  intros H. apply (f_equal length) in H. vm_compute in H. discriminate H.
Qed.

(** A piece of the body asked for directly after an argument has been replaced. *)
Lemma l_demo_inside :
  lvalid klib k_lam k_handle l_demo ∧
  (read_l klib (ls_reg klib (lafter klib k_lam l_demo)) 20 6 (ls_st klib (lafter klib k_lam l_demo))).2 = Some 15%Z ∧
  (read_l klib (ls_reg klib (lafter klib k_lam l_demo)) 20 7 (ls_st klib (lafter klib k_lam l_demo))).2 = Some 50%Z ∧
  gattr klib (lattrs klib (lafter klib k_lam l_demo)) 7 "_result" = Some (ARef 6).
Proof. split; [exact l_demo_valid|]. split_and!; vm_compute; reflexivity. Qed.

Definition matchb (x y : option (aval klib)) : bool :=
  match x, y with
  | Some (ARef x), Some (ARef y) => bool_decide ((x, y) ∈ [(6, 9); (5, 8); (3, 2); (4, 1)])
  | Some (AVal s), Some (AVal t) => Z.eqb s t
  | None, None => true
  | _, _ => false
  end.
Lemma matchb_ok x y : matchb x y = true → attrs_match klib l_rel x y.
Proof.
  destruct x as [[s|x]|], y as [[t|y]|]; simpl; try done.
  - intros H. by apply Z.eqb_eq in H.
  - intros H. by apply bool_decide_eq_true_1 in H.
Qed.
Definition all_match (ca cb : core klib) : bool :=
  match ca, cb with
  | Core _ c1 _ _ m1, Core _ c2 _ _ m2 =>
    match c1, c2 with KMul, KMul | KAdd, KAdd => true | _, _ => false end &&
    forallb (λ k, matchb (m1 !! k) (m2 !! k)) ((map_to_list m1).*1 ++ (map_to_list m2).*1)
  end.
Lemma all_match_ok ca cb : all_match ca cb = true → c_cls klib ca = c_cls klib cb ∧
  ∀ k, attrs_match klib l_rel (c_attr klib ca !! k) (c_attr klib cb !! k).
Proof.
  destruct ca as [c1 d1 t1 m1], cb as [c2 d2 t2 m2]. simpl. intros [H1 H2]%andb_true_iff. split.
  - destruct c1, c2; done.
  - intros k. rewrite forallb_forall in H2.
    destruct (decide (k ∈ (map_to_list m1).*1 ++ (map_to_list m2).*1)) as [Hk|Hk].
    + apply matchb_ok, H2. by apply elem_of_list_In.
    + assert (E : m1 !! k = None ∧ m2 !! k = None) by (split;
      [destruct (m1 !! k) as [v|] eqn:E|destruct (m2 !! k) as [v|] eqn:E]; try done; exfalso; apply Hk, elem_of_app;
      [left|right]; apply elem_of_list_fmap; exists (k, v); (split; [done|by apply elem_of_map_to_list])).
      destruct E as [-> ->]. done.
Qed.
Definition pairb (reg : registry) (g : kgraph) (f a b : oid) : bool :=
  match reg !! a with
  | Some (f', k) => Nat.eqb f' f && aval_eqb (gattr klib g f k) (Some (ARef b))
  | None => match reg !! b, g !! a, g !! b with
            | None, Some ca, Some cb => all_match ca cb
            | _, _, _ => false
            end
  end.
Lemma l_rel_ok reg g f : pairb reg g f 6 9 && pairb reg g f 5 8 && pairb reg g f 3 2 && pairb reg g f 4 1 = true →
  written_out klib reg g f l_rel.
Proof.
  intros H. apply andb_true_iff in H as [[[H1 H2]%andb_true_iff H3]%andb_true_iff H4].
  assert (HH : ∀ a b, l_rel a b → pairb reg g f a b = true).
  { intros a b Hab. unfold l_rel in Hab. repeat (apply elem_of_cons in Hab as [[= -> ->]|Hab]; [done|]).
    by apply elem_of_nil in Hab. }
  intros a b Hab. specialize (HH a b Hab). unfold pairb in HH. right.
  destruct (reg !! a) as [[f' k]|] eqn:Ea.
  - left. apply andb_true_iff in HH as [Hf Hk]. apply Nat.eqb_eq in Hf as ->. apply aval_eqb_ok in Hk. by exists k.
  - right. destruct (reg !! b) eqn:Eb; [done|]. destruct (g !! a) as [ca|] eqn:Eca; [|done].
    destruct (g !! b) as [cb|] eqn:Ecb; [|done]. apply all_match_ok in HH as [Hc Hm].
    split_and!; try done. by exists ca, cb.
Qed.
Lemma l_demo_written : written_out klib (ls_reg klib (lafter klib k_lam l_demo)) (lattrs klib (lafter klib k_lam l_demo)) 7 l_rel.
Proof. apply l_rel_ok. vm_compute. reflexivity. Qed.
Lemma l_demo_f : ∃ cf, lattrs klib (lafter klib k_lam l_demo) !! 7 = Some cf ∧ k_lam (c_cls klib cf) = true ∧
  c_attr klib cf !! "_result"%string = Some (ARef 6).
Proof.
  assert (H : match lattrs klib (lafter klib k_lam l_demo) !! 7 with
    | Some cf => k_lam (c_cls klib cf) && aval_eqb (c_attr klib cf !! "_result"%string) (Some (ARef 6))
    | None => false end = true) by (vm_compute; reflexivity).
  destruct (lattrs klib (lafter klib k_lam l_demo) !! 7) as [cf|]; [|done]. exists cf. split; [done|].
  apply andb_true_iff in H as [H1 H2]. apply aval_eqb_ok in H2. done.
Qed.
Lemma l_demo_safe x : x ∈ [1; 2; 7; 8; 9] →
  safe klib (ls_reg klib (lafter klib k_lam l_demo)) (lattrs klib (lafter klib k_lam l_demo)) x.
Proof.
  intros H. apply safeb_ok. repeat (apply elem_of_cons in H as [->|H]; [vm_compute; reflexivity|]).
  by apply elem_of_nil in H.
Qed.

Fixpoint reachb (n : nat) (g : kgraph) (x w : oid) : bool :=
  match n with
  | O => true
  | S n' => Nat.eqb x w || existsb (λ e : name * oid, reachb n' g e.2 w) (kid_edges g x)
  end.
Lemma kid_edges_edge g x d y : edge klib g x d y → (d, y) ∈ kid_edges g x.
Proof.
  intros (c & Hc & _ & Hk & Ha). unfold kid_edges. rewrite Hc.
  apply elem_of_list_omap. exists d. split; [done|]. by rewrite Ha.
Qed.
Lemma reachb_ok n g w : ∀ x, dep klib g x w → reachb n g x w = true.
Proof.
  induction n as [|n IH]; intros x Hd; [done|]. simpl. apply orb_true_iff.
  inversion Hd as [|? y ? [d Hy] Hr]; subst.
  - left. apply Nat.eqb_refl.
  - right. apply existsb_exists. exists (d, y). split; [|by apply IH].
    by apply elem_of_list_In, kid_edges_edge.
Qed.

Lemma l_demo_apart : ¬ dep klib (lattrs klib (lafter klib k_lam l_demo)) 9 7.
Proof. intros H. apply (reachb_ok 12) in H. vm_compute in H. discriminate H. Qed.
Lemma inside_stale : ∃ (L : lib) is_lam is_handle l f r u v,
  lib_ok L ∧ lam_lib_ok L is_lam is_handle ∧ lvalid L is_lam is_handle l ∧
  gattr L (lattrs L (lafter L is_lam l)) f "_result" = Some (ARef r) ∧
  reads_l L (lafter L is_lam l) r u ∧ reads_l L (lafter L is_lam l) f v ∧ u ≠ v.
Proof.
  exists klib, k_lam, k_handle, l_demo, 7, 6, 15%Z, 50%Z.
  destruct l_demo_inside as (H1 & H2 & H3 & H4).
  split; [exact klib_ok|]. split; [exact klam_ok|]. split; [exact H1|]. split; [exact H4|].
  split; [by exists 20|]. split; [by exists 20|]. intros H. discriminate H.
Qed.
Lemma terms_leak : ∃ (L : lib) is_lam is_handle l c f args result o k v o' n,
  lib_ok L ∧ lam_lib_ok L is_lam is_handle ∧
  lvalid L is_lam is_handle (l ++ [LMake L c f args result]) ∧ ¬ dep L (lattrs L (lafter L is_lam l)) o f ∧
  let more := lexec L is_lam [LSet L o k v o'; LRead L n o] in
  let log ls := st_log L (ls_st L ls) in
  log (more (lafter L is_lam l)) = log (lafter L is_lam l) ∧
  log (more (lafter L is_lam (l ++ [LMake L c f args result]))) ≠ log (lafter L is_lam (l ++ [LMake L c f args result])).
Proof.
  exists klib, k_lam, k_handle, l_two, KLam, 9, [("a"%string, 6); ("b"%string, 7)], 8, 3, "b"%string,
    (@AVal klib 1%Z), 100, 20.
  destruct terms_shared as (H1 & H2 & H3).
  split; [exact klib_ok|]. split; [exact klam_ok|]. split; [exact H1|].
  split; [|split; [exact H2|exact H3]].
  intros H. apply (reachb_ok 12) in H. vm_compute in H. discriminate H.
Qed.

(** A check of [private] over the objects of a graph. *)
Definition privateb (reg : registry) (g : kgraph) (hd : oid) (B : list oid) : bool :=
  existsb (Nat.eqb hd) B &&
  forallb (λ xc : oid * core klib,
    existsb (Nat.eqb xc.1) B ||
    forallb (λ e : name * oid, negb (existsb (Nat.eqb e.2) B) ||
      (String.eqb e.1 "_result" && match reg !! hd with Some (f, _) => Nat.eqb f xc.1 | None => false end))
      (kid_edges g xc.1)) (map_to_list g).
Lemma existsb_elem x B : existsb (Nat.eqb x) B = true ↔ x ∈ B.
Proof.
  rewrite existsb_exists, elem_of_list_In. split.
  - intros (y & Hy & E). by apply Nat.eqb_eq in E as ->.
  - intros H. exists x. split; [done|apply Nat.eqb_refl].
Qed.
Lemma privateb_ok reg g hd B : privateb reg g hd B = true → private klib reg g hd (list_to_set B).
Proof.
  intros [H1 H2]%andb_true_iff. split; [by apply elem_of_list_to_set, existsb_elem|].
  intros x d y He Hy. apply elem_of_list_to_set in Hy. rewrite forallb_forall in H2.
  pose proof He as (c & Hc & _). specialize (H2 (x, c)).
  assert (Hin : In (x, c) (map_to_list g)) by (apply elem_of_list_In; by apply elem_of_map_to_list).
  specialize (H2 Hin). simpl in H2. apply orb_true_iff in H2 as [H2|H2].
  - left. by apply elem_of_list_to_set, existsb_elem.
  - right. rewrite forallb_forall in H2. specialize (H2 (d, y)).
    assert (Hin2 : In (d, y) (kid_edges g x)) by (by apply elem_of_list_In, kid_edges_edge).
    specialize (H2 Hin2). simpl in H2. apply orb_true_iff in H2 as [H2|H2].
    + apply negb_true_iff in H2. apply existsb_elem in Hy. congruence.
    + apply andb_true_iff in H2 as [H3 H4]. apply String.eqb_eq in H3. split; [done|].
      destruct (reg !! hd) as [[f k]|]; [|done]. apply Nat.eqb_eq in H4 as ->. by exists k.
Qed.
Lemma l_demo_private :
  private klib (ls_reg klib (lafter klib k_lam l_demo)) (lattrs klib (lafter klib k_lam l_demo)) 3 {[3; 5; 6]}.
Proof.
  assert (E : ({[3; 5; 6]} : gset oid) = list_to_set [3; 5; 6]) by (apply (bool_decide_eq_true_1 _); vm_compute; reflexivity).
  rewrite E. apply privateb_ok. vm_compute. reflexivity.
Qed.
Lemma hasb_some (g : kgraph) o : hasb g o = true → is_Some (g !! o).
Proof. unfold hasb. destruct (g !! o); [by eexists|done]. Qed.
Lemma l_two_old : is_Some (lattrs klib (lafter klib k_lam l_two) !! 3).
Proof. apply hasb_some. vm_compute. reflexivity. Qed.

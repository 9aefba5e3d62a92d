(** C82: a session behaves as a spreadsheet. *)
From stdpp Require Import list numbers gmap.
From Verif Require Import BlendModel BlendSpec SessModel SessSpec SessThms.

Theorem C82_spreadsheet : ∀ (N : numpy) (v : arrays N) (l : list (stmt N)) (st : state N),
  clean (blank v) l → session (fresh v) l = Some st →
  ∃ t : sheet N, sheet_run (blank v) l = Some t ∧ ∀ y, look st y = shown t y.
Proof. intros N. exact session_shown. Qed.
Print Assumptions C82_spreadsheet.

(** A session does not raise if numpy does not, no array is divided by an object, and only
    basic objects are assigned to. *)
Theorem C82_runs : ∀ (N : numpy) (v : arrays N) (l : list (stmt N)),
  clean (blank v) l → fine (blank v) l → is_Some (session (fresh v) l).
Proof. intros N. exact session_fine. Qed.
Print Assumptions C82_runs.

(** x = Ch([2]); y = [1] + x; z = asarray(x); y = y * x; z.x = [5]; now y is [30]. *)
Example C82_ex :
  let l : list (stmt toy) :=
    [SNew (N:=toy) 0 [2%Z]; SBind 1 (POper Plus (toy_array [1%Z]) (PVar 0)); SBind 2 (PAsarray (PVar 0));
     SBind 1 (POper Times (PVar 1) (PVar 0)); SAssign (N:=toy) 2 [5%Z]] in
  clean (blank (N:=toy) [0%Z]) l ∧ fine (blank (N:=toy) [0%Z]) l ∧
  ∃ st, session (fresh (N:=toy) [0%Z]) l = Some st ∧ look st 1 = Some [30%Z] ∧ look st 0 = Some [5%Z].
Proof.
  cbn zeta. split; [|split].
  - repeat (split; [cbn; first [exact I | intros q [= <-]; cbn; tauto] | intros t' [= <-]]). exact I.
  - split; [exact I|intros t' [= <-]].
    split; [eexists; split; [reflexivity|]; split; [cbn; repeat split; done|by eexists]|intros t' [= <-]].
    split; [eexists; split; [reflexivity|]; split; [cbn; repeat split; done|by eexists]|intros t' [= <-]].
    split; [eexists; split; [reflexivity|]; split; [cbn; repeat split; done|by eexists]|intros t' [= <-]].
    split; [do 2 eexists; split; reflexivity|intros t' [= <-]]. exact I.
  - eexists. split; [reflexivity|]. split; reflexivity.
Qed.

(** Names depend on exactly the objects in their formulas. *)
Theorem C82_depends : ∀ (N : numpy) (v : arrays N) (l : list (stmt N)) (st : state N),
  clean (blank v) l → session (fresh v) l = Some st →
  ∃ t : sheet N, sheet_run (blank v) l = Some t ∧
    ∀ y q x, formula t y = Some q → names st y = Some x → depends_on x = named q.
Proof. intros N. exact session_depends. Qed.
Print Assumptions C82_depends.
Example C82_depends_ex :
  let l : list (stmt toy) := [SNew (N:=toy) 0 [2%Z]; SNew (N:=toy) 1 [3%Z]; SBind 0 (POper Plus (PVar 1) (PVar 0)); SNew (N:=toy) 1 [4%Z]] in
  clean (blank (N:=toy) [0%Z]) l ∧
  ∃ st, session (fresh (N:=toy) [0%Z]) l = Some st ∧ ∃ x, names st 0 = Some x ∧ depends_on x = [1; 0].
Proof.
  cbn zeta. split.
  - repeat (split; [cbn; first [exact I | intros q [= <-]; cbn; tauto] | intros t' [= <-]]). exact I.
  - eexists. split; [reflexivity|]. eexists. split; reflexivity.
Qed.

(** All sessions: those that apply numpy's own functions or ch.array to objects are
    spreadsheets in which the results of these are entered as values when the name is bound. *)
Theorem C82_all_sessions : ∀ (N : numpy) (v : arrays N) (l : list (stmt N)) (st : state N),
  session (fresh v) l = Some st →
  ∃ t : sheet N, frozen_run (blank v) l = Some t ∧ (∀ y, look st y = shown t y) ∧
    ∀ y q x, formula t y = Some q → names st y = Some x → depends_on x = named q.
Proof. intros N. exact frozen_shown. Qed.
Print Assumptions C82_all_sessions.
(** x = Ch([2]); y = x + np.square(x); x.x = [5]; now y is [9]. *)
Example C82_all_sessions_ex :
  let l : list (stmt toy) :=
    [SNew (N:=toy) 0 [2%Z]; SBind 1 (POper Plus (PVar 0) (PNp1 1 (PVar 0))); SAssign (N:=toy) 0 [5%Z]] in
  ∃ st, session (fresh (N:=toy) [0%Z]) l = Some st ∧ look st 1 = Some [9%Z].
Proof. eexists. split; reflexivity. Qed.

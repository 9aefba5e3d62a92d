(** Model of the callbacks given to scipy's minimizers (chumpy/optimization.py:37-152). *)
From Coq Require Import ZArith.
From Flocq Require Import Core IEEE754.BinarySingleNaN.
From stdpp Require Import list numbers.
From Verif Require Import Dog64.

Definition zero64 : b64 := B754_zero false.
Definition sub64 : b64 → b64 → b64 := Bminus mode_NE.
Definition plus64 : b64 → b64 → b64 := Bplus mode_NE.
(** np.abs(a - b), elementwise *)
Definition absdiff (x y : b64) : b64 := Babs (sub64 x y).
(** np.max: NaN if there is one; raises (None) for no elements *)
Definition npmax2 (a b : b64) : b64 := if is_nan a then a else if is_nan b then b else if Bltb a b then b else a.
Definition npmax (l : list b64) : option b64 := match l with [] => None | x :: l => Some (foldl npmax2 x l) end.

(** A free variable: a variable of its own, or a view (for example x[2:5]) of one that no
    other free variable shows; and its current elements. *)
Inductive kind := Own | View.
Record var := Var { v_kind : kind; v_val : list b64 }.
(** freevar[:] = newvals (ch.py:506-545): in place for a variable of its own, and
    inner.x + t1 - t2 for a view, where t1 is the new and t2 the old value *)
Definition assign (v : var) (new : list b64) : var :=
  match v_kind v with
  | Own => Var Own new
  | View => Var View (zip_with (λ o n, sub64 (plus64 o n) o) (v_val v) new)
  end.
(** changevars (optimization.py:84-101); the flag tells whether it raised *)
Fixpoint changevars (vars : list var) (vs : list b64) : list var * bool :=
  match vars with
  | [] => ([], false)
  | v :: rest =>
      let sz := length (v_val v) in
      match npmax (zip_with absdiff (take sz vs) (v_val v)) with
      | None => (v :: rest, true)
      | Some m =>
          let '(rest', bad) := changevars rest (drop sz vs) in
          ((if Bltb zero64 m then assign v (take sz vs) else v) :: rest', bad)
      end
  end.

(** Arrays live at locations, those of the minimizer and those made here. *)
Inductive loc := Theirs (n : nat) | Ours (n : nat).
Global Instance loc_eq_dec : EqDecision loc.
Proof. solve_decision. Defined.
Record bridge := Bridge {
  heap : loc → list b64;
  vars : list var;
  m_vs : option loc;   (* scalar_jacfunc.vs *)
  m_J : option loc;    (* scalar_jacfunc.J *)
  n_vs : option loc;   (* ns_jacfunc.vs *)
  n_J : bool;          (* is there an attribute ns_jacfunc.J? *)
  h_vs : option loc;   (* hessp.vs *)
  h_H : bool;          (* is there an attribute hessp.H? *)
  next : nat
}.
Definition put (h : loc → list b64) (l : loc) (a : list b64) : loc → list b64 := λ l', if decide (l' = l) then a else h l'.

(** What the minimizer does: write to an array it can reach, evaluate the objective, the
    gradient or the Hessian at an array of its, or return its answer. *)
Inductive request := Write (l : loc) (a : list b64) | Fun (l : loc) | Jac (l : loc) | Hess (l : loc) | Answer (l : loc).
Inductive reply := Value (x : b64) | Gradient (l : loc) (g : list b64) | Matrix | Raised | Quiet.

Section bridge.
  (** the scalar objective and its gradient as functions of the free variables *)
  Context (f : list (list b64) → b64) (grad : list (list b64) → list b64).
  Definition set_vars (s : bridge) (w : list var) : bridge := Bridge (heap s) w (m_vs s) (m_J s) (n_vs s) (n_J s) (h_vs s) (h_H s) (next s).
  Definition huge : b64 := of_int 10000000000000000.
  (** vs*0+1e16, in a new array *)
  Definition all_huge (a : list b64) : list b64 := (λ x, plus64 (Bmult mode_NE x zero64) huge) <$> a.
  (** np.max(np.abs(vs - memo)) *)
  Definition distance (s : bridge) (l : loc) (memo : option loc) : option b64 :=
    npmax (zip_with absdiff (heap s l) (match memo with Some l' => heap s l' | None => [] end)).
  (** residuals (optimization.py:103-106) *)
  Definition residuals (s : bridge) (l : loc) : bridge * reply :=
    let '(w, bad) := changevars (vars s) (heap s l) in
    (set_vars s w, if bad then Raised else Value (f (v_val <$> w))).
  (** scalar_jacfunc (optimization.py:108-128) *)
  Definition jacfunc (s : bridge) (l : loc) : bridge * reply :=
    let s := match m_vs s with
      | Some _ => s
      | None => Bridge (put (heap s) (Ours (next s)) (all_huge (heap s l))) (vars s) (Some (Ours (next s))) (m_J s) (n_vs s) (n_J s) (h_vs s) (h_H s) (S (next s))
      end in
    match distance s l (m_vs s) with
    | None => (s, Raised)
    | Some m =>
        if Beqb m zero64 then (s, match m_J s with Some j => Gradient j (heap s j) | None => Raised end)
        else
          let '(w, bad) := changevars (vars s) (heap s l) in
          if bad then (set_vars s w, Raised)
          else let g := grad (v_val <$> w) in
               (Bridge (put (heap s) (Ours (next s)) g) w (Some l) (Some (Ours (next s))) (n_vs s) (n_J s) (h_vs s) (h_H s) (S (next s)), Gradient (Ours (next s)) g)
    end.
  (** ns_jacfunc (optimization.py:130-142) up to the call of hstack, a name that the module
      neither defines nor imports (optimization.py:8-20); the flag tells whether it returned *)
  Definition hstack_defined : bool := false.
  Definition ns_jacfunc (s : bridge) (l : loc) : bridge * bool :=
    let s := match n_vs s with
      | Some _ => s
      | None => Bridge (put (heap s) (Ours (next s)) (all_huge (heap s l))) (vars s) (m_vs s) (m_J s) (Some (Ours (next s))) (n_J s) (h_vs s) (h_H s) (S (next s))
      end in
    match distance s l (n_vs s) with
    | None => (s, false)
    | Some m =>
        if Beqb m zero64 then (s, n_J s)
        else
          let '(w, bad) := changevars (vars s) (heap s l) in
          if bad || negb hstack_defined then (set_vars s w, false)
          else (Bridge (heap s) w (m_vs s) (m_J s) (Some l) true (h_vs s) (h_H s) (next s), true)
    end.
  (** hessp and hess (optimization.py:60-82), for objectives of more than one element; hess
      does not set hessp.vs, which makes no difference here *)
  Definition hessian (s : bridge) (l : loc) : bridge * reply :=
    let '(w, bad) := changevars (vars s) (heap s l) in
    let s := set_vars s w in
    if bad then (s, Raised) else
    let s := match h_vs s with
      | Some _ => s
      | None => Bridge (put (heap s) (Ours (next s)) (all_huge (heap s l))) (vars s) (m_vs s) (m_J s) (n_vs s) (n_J s) (Some (Ours (next s))) (h_H s) (S (next s))
      end in
    match distance s l (h_vs s) with
    | None => (s, Raised)
    | Some m =>
        if Bltb zero64 m then
          let '(s, ok) := ns_jacfunc s l in
          if ok then (Bridge (heap s) (vars s) (m_vs s) (m_J s) (n_vs s) (n_J s) (Some l) true (next s), Matrix) else (s, Raised)
        else (s, if h_H s then Matrix else Raised)
    end.
  Definition serve (s : bridge) (q : request) : bridge * reply :=
    match q with
    | Write l a => (Bridge (put (heap s) l a) (vars s) (m_vs s) (m_J s) (n_vs s) (n_J s) (h_vs s) (h_H s) (next s), Quiet)
    | Fun l => residuals s l
    | Jac l => jacfunc s l
    | Hess l => hessian s l
    | Answer l => let '(w, bad) := changevars (vars s) (heap s l) in (set_vars s w, if bad then Raised else Quiet)   (* optimization.py:151 *)
    end.
  Fixpoint serves (s : bridge) (qs : list request) : bridge := match qs with [] => s | q :: qs => serves (serve s q).1 qs end.
End bridge.
(** before the first call *)
Definition fresh_bridge (h : loc → list b64) (w : list var) : bridge := Bridge h w None None None false None false 0.

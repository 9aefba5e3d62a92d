(** The user's callback in minimize (chumpy/optimization.py:37-152) for scipy's methods. *)
From Coq Require Import ZArith Ascii String.
From Flocq Require Import Core IEEE754.BinarySingleNaN.
From stdpp Require Import list numbers.
From Verif Require Import Dog64 BridgeModel.

(** method.lower(), for ASCII letters *)
Definition lower1 (c : ascii) : ascii :=
  let n := nat_of_ascii c in if (65 <=? n) && (n <=? 90) then ascii_of_nat (n + 32) else c.
Fixpoint lower (s : string) : string := match s with EmptyString => EmptyString | String c s => String (lower1 c) (lower s) end.
(** methods_without_callback (optimization.py:95-96), if the user gave a callback *)
Definition calls_itself (method : string) : bool :=
  let m := lower method in String.eqb m "anneal" || String.eqb m "powell" || String.eqb m "cobyla" || String.eqb m "slsqp".
(** What the user's function gets, and the values of the free variables at that time. *)
Record call := Call { c_arg : option (list b64); c_vars : list (list b64) }.
(** the flag [changed] of changevars (optimization.py:86-94) *)
Fixpoint changed (w : list var) (vs : list b64) : bool :=
  match w with
  | [] => false
  | v :: rest =>
      let sz := length (v_val v) in
      match npmax (zip_with absdiff (take sz vs) (v_val v)) with
      | None => false
      | Some m => Bltb zero64 m || changed rest (drop sz vs)
      end
  end.
(** callback(None) in changevars (optimization.py:97-98), if that is reached *)
Definition change_calls (w : list var) (vs : list b64) : list call :=
  let '(w', bad) := changevars w vs in
  if bad then [] else if changed w vs then [Call None (v_val <$> w')] else [].
(** The calls of changevars for a request. scalar_jacfunc does not come to it for a vector equal
    to the last one (optimization.py:109-112). Of the two calls of changevars for a Hessian
    (optimization.py:61 and 135) only the first is here; no method of the four asks for one. *)
Definition told (s : bridge) (q : request) : list call :=
  match q with
  | Write _ _ => []
  | Fun l | Hess l | Answer l => change_calls (vars s) (heap s l)
  | Jac l =>
      match npmax (zip_with absdiff (heap s l) (match m_vs s with Some l' => heap s l' | None => all_huge (heap s l) end)) with
      | Some m => if Beqb m zero64 then [] else change_calls (vars s) (heap s l)
      | None => []
      end
  end.
(** The minimizer asks or writes, or it calls callback(xk), which it was given, too
    (optimization.py:147). *)
Inductive event := Ask (q : request) | Announce (l : loc).
Section calls.
  Context (f : list (list b64) → b64) (grad : list (list b64) → list b64) (itself : bool).
  Definition happen (s : bridge) (e : event) : bridge * list call :=
    match e with
    | Ask q => ((serve f grad s q).1, if itself then told s q else [])
    | Announce l => (s, [Call (Some (heap s l)) (v_val <$> vars s)])
    end.
  Fixpoint happens (s : bridge) (es : list event) : bridge * list call :=
    match es with
    | [] => (s, [])
    | e :: es => let '(s, c) := happen s e in let '(s, cs) := happens s es in (s, c ++ cs)
    end.
End calls.

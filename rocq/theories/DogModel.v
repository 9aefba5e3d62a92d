(** Model of the dogleg optimizer (chumpy/optimization_internal.py:158-455). *)
From stdpp Require Import list numbers.

(** The numbers the code computes with: comparisons as IEEE comparisons (false on NaN),
    arithmetic, and the constants of the source text. *)
Record num := {
  K : Type;
  kle : K → K → bool; klt : K → K → bool;
  kadd : K → K → K; ksub : K → K → K; kmul : K → K → K; kdiv : K → K → K; ksqrt : K → K;
  k0 : K; k2 : K;             (* 0., 2. *)
  k005 : K; k09 : K;          (* lb=.05, ub=.9 (optimization_internal.py:351) *)
  k25 : K; k025 : K           (* 2.5 and .25 (optimization_internal.py:353,355) *)
}.
Definition ksq (N : num) (x : K N) : K N := kmul N x x.

(** Vectors of parameters, vectors of residuals, Jacobians and normal matrices, with the
    numpy/scipy operations on them.  [solve] is updateGN (optimization_internal.py:278-299)
    with its solvers and fallbacks, as one function; it gives None if the fallback raises. *)
Record lin (N : num) := {
  V : Type; W : Type; M : Type; H : Type;
  vnorm : V → K N; vinf : V → K N; wnorm : W → K N;
  vadd : V → V → V; vsub : V → V → V; vscale : K N → V → V; vdot : V → V → K N;
  jt_neg : M → W → V;         (* J.T.dot(-r) *)
  jdot : M → V → W; gram : M → H; hdot : H → V → V;
  solve : H → V → option V
}.
Global Arguments V {N}. Global Arguments W {N}. Global Arguments M {N}. Global Arguments H {N}.
Global Arguments vnorm {N}. Global Arguments vinf {N}. Global Arguments wnorm {N}.
Global Arguments vadd {N}. Global Arguments vsub {N}. Global Arguments vscale {N}. Global Arguments vdot {N}.
Global Arguments jt_neg {N}. Global Arguments jdot {N}. Global Arguments gram {N}. Global Arguments hdot {N}. Global Arguments solve {N}.

Section dog.
  Context (N : num) (L : lin N).
  Notation K := (K N). Notation V := (V L). Notation W := (W L). Notation M := (M L). Notation H := (H L).

  (** The problem: the residuals and the Jacobian at a point.  Both may depend on how
      often the objective has been evaluated, and may raise (None).  Options of minimize_dogleg
      (optimization_internal.py:358-361); None stands for an infinite limit. *)
  Record problem := {
    resid : nat → V → option W; jac : nat → V → option M;
    maxiter : option nat; max_fevals : option nat;
    e1 : K; e2 : K; e3 : K; delta0 : option K
  }.
  Context (P : problem).

  (** What can be observed of a run: the objective evaluated (fevals counts these), the
      user called back, with the contents of the free variables, and, for reference, the
      proposed steps with the trust radius and the outcome of trials. *)
  Inductive event :=
    | EEval (x : V) (r : W)
    | ECall (fv : V)
    | EStep (d : V) (delta : K)
    | ETrial (rho : K) (ok : bool).

  (** DoglegState (optimization_internal.py:169-182) together with the free variables,
      flattened, and obj.fevals.  The free variables are assigned when obj is evaluated
      after obj.x was assigned; that they then hold obj.x is property C41. *)
  Record st := St {
    s_p : V; s_fv : V; s_r : W; s_J : M; s_A : H; s_g : V;
    s_sd : V; s_gn : option V; s_dl : V; s_delta : option K;
    s_iter : nat; s_done : bool; s_fevals : nat; s_log : list event
  }.
  Definition set_log s e := St (s_p s) (s_fv s) (s_r s) (s_J s) (s_A s) (s_g s) (s_sd s) (s_gn s) (s_dl s) (s_delta s) (s_iter s) (s_done s) (s_fevals s) (s_log s ++ [e]).
  Definition set_fv s x := St (s_p s) x (s_r s) (s_J s) (s_A s) (s_g s) (s_sd s) (s_gn s) (s_dl s) (s_delta s) (s_iter s) (s_done s) (s_fevals s) (s_log s).
  Definition set_p s x := St x (s_fv s) (s_r s) (s_J s) (s_A s) (s_g s) (s_sd s) (s_gn s) (s_dl s) (s_delta s) (s_iter s) (s_done s) (s_fevals s) (s_log s).
  Definition set_step s gn dl delta := St (s_p s) (s_fv s) (s_r s) (s_J s) (s_A s) (s_g s) (s_sd s) gn dl delta (s_iter s) (s_done s) (s_fevals s) (s_log s).
  Definition set_delta s delta := St (s_p s) (s_fv s) (s_r s) (s_J s) (s_A s) (s_g s) (s_sd s) (s_gn s) (s_dl s) delta (s_iter s) (s_done s) (s_fevals s) (s_log s).
  Definition count s := St (s_p s) (s_fv s) (s_r s) (s_J s) (s_A s) (s_g s) (s_sd s) (s_gn s) (s_dl s) (s_delta s) (s_iter s) (s_done s) (S (s_fevals s)) (s_log s).
  (** stop (optimization_internal.py:409-412) *)
  Definition stop s := St (s_p s) (s_fv s) (s_r s) (s_J s) (s_A s) (s_g s) (s_sd s) (s_gn s) (s_dl s) (s_delta s) (s_iter s) true (s_fevals s) (s_log s).
  (** updateAg (optimization_internal.py:241-247), through the setter of r *)
  Definition set_r s (J : M) (r : W) :=
    St (s_p s) (s_fv s) r J (gram L J) (jt_neg L J r) (s_sd s) (s_gn s) (s_dl s) (s_delta s) (s_iter s) (s_done s) (s_fevals s) (s_log s).

  (** start_iteration (optimization_internal.py:226-230) *)
  Definition cauchy (J : M) (g : V) : V :=
    vscale L (kdiv N (ksq N (vnorm L g)) (ksq N (wnorm L (jdot L J g)))) g.
  Definition start_iteration s :=
    St (s_p s) (s_fv s) (s_r s) (s_J s) (s_A s) (s_g s) (cauchy (s_J s) (s_g s)) None (s_dl s) (s_delta s) (S (s_iter s)) (s_done s) (s_fevals s) (s_log s).
  (** beta_multiplier (optimization_internal.py:270-276); a division of Python floats, raising
      for a zero denominator *)
  Definition beta (delta : K) (sd gn : V) : option K :=
    let diff := vsub L gn sd in
    let sq := ksq N (vnorm L sd) in
    let pnow := ksub N (kadd N (kmul N (vdot L diff diff) (ksq N delta)) (ksq N (vdot L gn sd))) (kmul N (ksq N (vnorm L gn)) sq) in
    let den := kadd N (vdot L diff sd) (ksqrt N pnow) in
    if kle N (k0 N) den && kle N den (k0 N) then None else Some (kdiv N (ksub N (ksq N delta) sq) den).
  (** update_step (optimization_internal.py:249-268): the Gauss-Newton step, the dogleg
      step and the radius afterwards *)
  Definition update_step (sd : V) (gn : option V) (delta : option K) (A : H) (g : V) : option (option V * V * K) :=
    match delta with
    | Some d =>
        if kle N d (vnorm L sd) then Some (gn, vscale L (kdiv N d (vnorm L sd)) sd, d)
        else gn' ← from_option Some (solve L A g) gn;
             if kle N (vnorm L gn') d then Some (Some gn', gn', d)
             else b ← beta d sd gn'; Some (Some gn', vadd L sd (vscale L b (vsub L gn' sd)), d)
    | None => gn' ← from_option Some (solve L A g) gn; Some (Some gn', gn', vnorm L gn')
    end.
  (** Trial (optimization_internal.py:328-346) *)
  Definition predicted s : K := ksub N (kmul N (k2 N) (vdot L (s_g s) (s_dl s))) (vdot L (s_dl s) (hdot L (s_A s) (s_dl s))).
  Definition trial s (r : W) : K :=
    let rho := ksub N (ksq N (wnorm L (s_r s))) (ksq N (wnorm L r)) in
    if klt N (k0 N) rho then kdiv N rho (predicted s) else rho.
  Definition improvement s (r : W) : K :=
    kdiv N (ksub N (ksq N (wnorm L (s_r s))) (ksq N (wnorm L r))) (ksq N (wnorm L (s_r s))).
  (** updateRadius (optimization_internal.py:351-355); Python's max(a, b) is b if b > a *)
  Definition new_radius (rho delta : K) (dl : V) : K :=
    if klt N (k09 N) rho then let b := kmul N (k25 N) (vnorm L dl) in if klt N delta b then b else delta
    else if klt N rho (k005 N) then kmul N delta (k025 N) else delta.

  Definition over (lim : option nat) (n : nat) : bool := match lim with Some m => bool_decide (m ≤ n) | None => false end.
  Definition small_gradient s : st := if klt N (vinf L (s_g s)) (e1 P) then stop s else s.

  (** A computation that may raise; the log up to there. *)
  Definition may : Type := st + list event.
  (** the improving trial (optimization_internal.py:430-440) *)
  Definition accept s (x : V) (r : W) : may :=
    let s := set_log (set_p s x) (ECall (s_fv s)) in
    if klt N (k0 N) (e3 P) && klt N (improvement s r) (e3 P) then inl (stop s)
    else match jac P (s_fevals s) x with
         | None => inr (s_log s)
         | Some J => inl (small_gradient (set_r s J r))
         end.
  (** The body of the inner loop (optimization_internal.py:418-450): the new state and
      whether the loop is left.  Assigning obj.x and evaluating obj moves the free variables. *)
  Definition inner s : (st * bool) + list event :=
    match update_step (s_sd s) (s_gn s) (s_delta s) (s_A s) (s_g s) with
    | None => inr (s_log s)
    | Some (gn, dl, delta) =>
        let s := set_log (set_step s gn dl (Some delta)) (EStep dl delta) in
        let small := kle N (vnorm L dl) (kmul N (e2 P) (vnorm L (s_p s))) in
        if small then inl (stop s, true)
        else
          let x := vadd L (s_p s) dl in
          match resid P (s_fevals s) x with
          | None => inr (s_log s)
          | Some r =>
              let rho := trial s r in
              let ok := klt N (k0 N) rho in
              let s := set_log (set_log (count (set_fv s x)) (EEval x r)) (ETrial rho ok) in
              match (if ok then accept s x r else inl (set_fv s (s_p s))) with
              | inr l => inr l
              | inl s =>
                  let d := new_radius rho delta dl in
                  let s := set_delta s (Some d) in
                  let s := if kle N d (kmul N (e2 P) (vnorm L (s_p s))) then stop s else s in
                  inl (s, s_done s || ok || over (max_fevals P) (s_fevals s))
              end
          end
    end.
  (** After the inner loop (optimization_internal.py:451-454) *)
  Definition after_inner s : st :=
    if over (maxiter P) (s_iter s) then stop s else if over (max_fevals P) (s_fevals s) then stop s else s.

  (** The loops, as a machine; one step of it is one pass through the outer loop's head or
      the inner loop's body. *)
  Inductive conf := AtOuter (s : st) | AtInner (s : st) | Returned (s : st) | Raised (l : list event).
  Definition step (c : conf) : conf :=
    match c with
    | AtOuter s => if s_done s then Returned s else AtInner (start_iteration s)
    | AtInner s => match inner s with inr l => Raised l | inl (s, true) => AtOuter (after_inner s) | inl (s, false) => AtInner s end
    | c => c
    end.
  (** Before the loops (optimization_internal.py:390-415), from the point [x] where the
      free variables are.  If disp is set the objective is evaluated in the callback, and
      its value kept. *)
  Definition start (x : V) : conf :=
    let l := [ECall x] in
    match jac P 0 x with
    | None => Raised l
    | Some J =>
        match resid P 0 x with
        | None => Raised l
        | Some r => AtOuter (small_gradient
            (St x x r J (gram L J) (jt_neg L J r) x None x (delta0 P) 0 false 1 (l ++ [EEval x r])))
        end
    end.
  Definition run (x : V) (n : nat) : conf := Nat.iter n step (start x).
End dog.

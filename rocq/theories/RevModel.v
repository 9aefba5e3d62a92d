(** Reverse-mode derivatives (chumpy/ch.py): lop, compute_lop, lmult_wrt and
    dr_wrt(reverse_mode=True). *)
From stdpp Require Import gmap strings list.
From Verif Require Import EngineModel GraphModel.

Section rev.
Context (L : lib).
Notation state := (state L).
Notation result := (state * option (option (Jac L)))%type.

(** The loops over dterms (ch.py:661-670, 698-705, 757-786): [f p] is the
    contribution of operand [p]; [strict] tells whether a missing attribute raises
    (self.__dict__\[k\], getattr) or is skipped.  Python iterates over a set; the
    order of the list stands for any order. *)
Fixpoint each (strict : bool) (f : oid → state → result) (w : oid) (c : core L)
    (ks : list name) (acc : list (Jac L)) (st : state) : state * option (list (Jac L)) :=
  match ks with
  | [] => (st, Some acc)
  | k :: ks' =>
    match c_attr L c !! k with
    | Some (ARef p) =>
      if decide (p = w) then each strict f w c ks' acc st
      else match f p st with
           | (st1, Some d) => each strict f w c ks' (acc ++ opt_list d) st1
           | (st1, None) => (st1, None)
           end
    | Some (AVal _) => each strict f w c ks' acc st
    | None => if strict then (st, None) else each strict f w c ks' acc st
    end
  end.

(** compute_lop (ch.py:684-687); _superdot is [jmul]. *)
Definition compute_lop (n : nat) (o w : oid) (lhs : Jac L) (st : state) : result :=
  match sliced L n o w st with
  | (st', Some d) => (st', Some (jmul L lhs <$> d))
  | (st', None) => (st', None)
  end.

(** lop (ch.py:690-721).  todense() is not modelled. *)
Fixpoint lop (n : nat) (o w : oid) (lhs : Jac L) (st : state) : result :=
  match n with
  | O => (st, None)
  | S n' =>
    match st_h L st !! o with
    | None => (st, None)
    | Some nd =>
      match compute_lop n' o w lhs (fire L o st) with
      | (st1, Some d) =>
        match each true (λ p st,
            match compute_lop n' o p lhs st with
            | (st', Some (Some l')) => lop n' p w l' st'
            | (st', Some None) => (st', Some None)
            | (st', None) => (st', None)
            end) w (n_core L nd) (c_dt L (n_core L nd)) (opt_list d) st1 with
        | (st2, Some l) => (st2, Some (reduce_jac L l))
        | (st2, None) => (st2, None)
        end
      | (st1, None) => (st1, None)
      end
    end
  end.

(** lmult_wrt (ch.py:647-681) for a left factor that is not None; the test
    [direct_dr != None] is read as "is not None" (with a dense array numpy makes it
    elementwise, and the if raises). *)
Fixpoint lmult_wrt (n : nat) (o w : oid) (lhs : Jac L) (st : state) : result :=
  match n with
  | O => (st, None)
  | S n' =>
    match st_h L st !! o with
    | None => (st, None)
    | Some nd =>
      match compute_lop n' o w lhs (fire L o st) with
      | (st1, Some d) =>
        match each true (λ p st,
            match is_dr_wrt L n' (cores L (st_h L st)) p w with
            | Some true =>
              match compute_lop n' o p lhs st with
              | (st', Some (Some l')) => lmult_wrt n' p w l' st'
              | (st', Some None) => (st', Some None)
              | (st', None) => (st', None)
              end
            | Some false => (st, Some None)
            | None => (st, None)
            end) w (n_core L nd) (c_dt L (n_core L nd)) (opt_list d) st1 with
        | (st2, Some l) => (st2, Some (reduce_jac L l))
        | (st2, None) => (st2, None)
        end
      | (st1, None) => (st1, None)
      end
    end
  end.

(** dr_wrt with reverse_mode=True (ch.py:729-834). *)
Definition read_dr_rev (n : nat) (o w : oid) (st : state) : result :=
  match st_h L st !! o with
  | None => (st, None)
  | Some nd =>
    let st1 := fire L o st in
    match n_dr L nd !! w with
    | Some jo => (st1, Some jo)
    | None =>
      match sliced L n o w st1 with
      | (st2, Some d) =>
        match each false (λ p st,
            match sliced L n o p st with
            | (st', Some (Some l')) => lmult_wrt n p w l' st'
            | (st', Some None) => (st', Some None)
            | (st', None) => (st', None)
            end) w (n_core L nd) (c_dt L (n_core L nd)) (opt_list d) st2 with
        | (st3, Some l) =>
          let jo := reduce_jac L l in
          (if decide (size (n_par L nd) = 1) then st3
           else on_heap L (alter (map_dr L (<[w := jo]>)) o) st3, Some jo)
        | (st3, None) => (st3, None)
        end
      | (st2, None) => (st2, None)
      end
    end
  end.

End rev.

(** C84: nonlinear solvers and the objects they were created with. *)
From Coq Require Import List.
From Verif Require Import Base SolverObjects SolverObjectsSpec SolverObjectsClaims.
Import ListNotations.

(** A solver created from a named system and a named linear solver, after anything the caller does that keeps the solver (including solves
    with it): solve(x) works with the system, linear solver and weighting operator as they are now, and changes that linear solver only. *)
Theorem C84_named_objects :
  forall (Sy L Wt Res : Type) (move_l : L -> L * L) (move_w : Wt -> Wt * Wt) (extent : Sy -> nat) (leading : Wt -> nat)
    (run : Sy -> option (Wt * nat) -> L -> outcome Res * L),
  let one := use_one move_l move_w extent leading run in let all := use_all move_l move_w extent leading run in
  forall s k a b wa (m0 m1 m : @mem Sy L Wt) us v0 w0 v l w r l',
    move_ok move_w ->
    one (NCreate s k (Named Sy a) (Named L b) wa) m0 = (Ok None, m1) ->
    m_sys m0 a = Some v0 -> (k <> Plain -> meant (m_w m0) wa = Some w0) -> leading_survives move_w leading k wa ->
    Forall (keeps s) us -> all us m1 = (Ok tt, m) ->
    m_sys m a = Some v -> m_lin m b = Some l -> (k <> Plain -> meant (m_w m) wa = Some w) ->
    run v (weights k w (rows extent leading k v0 w0)) l = (r, l') ->
    exists m', one (NSolve s) m = (reported r, m') /\ only_linear m m' b l'.
Proof. exact @shared_objects. Qed.
Print Assumptions C84_named_objects.

(** The same for solve(system, x), however the solver's own system was given. *)
Theorem C84_other_system :
  forall (Sy L Wt Res : Type) (move_l : L -> L * L) (move_w : Wt -> Wt * Wt) (extent : Sy -> nat) (leading : Wt -> nat)
    (run : Sy -> option (Wt * nat) -> L -> outcome Res * L),
  let one := use_one move_l move_w extent leading run in let all := use_all move_l move_w extent leading run in
  forall s k sy b wa (m0 m1 m : @mem Sy L Wt) us v0 w0 a v l w r l',
    move_ok move_w ->
    one (NCreate s k sy (Named L b) wa) m0 = (Ok None, m1) ->
    meant (m_sys m0) sy = Some v0 -> (k <> Plain -> meant (m_w m0) wa = Some w0) -> leading_survives move_w leading k wa ->
    Forall (keeps s) us -> all us m1 = (Ok tt, m) ->
    m_sys m a = Some v -> m_lin m b = Some l -> (k <> Plain -> meant (m_w m) wa = Some w) ->
    run v (weights k w (rows extent leading k v0 w0)) l = (r, l') ->
    exists m', one (NSolveWith s a) m = (reported r, m') /\ only_linear m m' b l'.
Proof. exact @shared_other. Qed.
Print Assumptions C84_other_system.

(** A solver created from a temporary linear solver: whatever happens to other objects, it works with that linear solver as given, then,
    in its next solve, with the same object as the first one left it; nothing but the solver changes. *)
Theorem C84_temporary_linear_solver :
  forall (Sy L Wt Res : Type) (move_l : L -> L * L) (move_w : Wt -> Wt * Wt) (extent : Sy -> nat) (leading : Wt -> nat)
    (run : Sy -> option (Wt * nat) -> L -> outcome Res * L),
  let one := use_one move_l move_w extent leading run in let all := use_all move_l move_w extent leading run in
  forall s k sy x wa (m0 m1 m : @mem Sy L Wt) us v0 w0 a v w r l' u us2 m3 a3 v3 w3 r3 l3 u3,
    move_ok move_l -> move_ok move_w ->
    one (NCreate s k sy (Temp L x) wa) m0 = (Ok None, m1) ->
    meant (m_sys m0) sy = Some v0 -> (k <> Plain -> meant (m_w m0) wa = Some w0) -> leading_survives move_w leading k wa ->
    Forall (leaves s) us -> all us m1 = (Ok tt, m) ->
    m_sys m a = Some v -> (k <> Plain -> meant (m_w m) wa = Some w) -> solves s sy a u ->
    run v (weights k w (rows extent leading k v0 w0)) x = (r, l') ->
    exists m', one u m = (reported r, m') /\ only_solver m m' s /\
      (Forall (leaves s) us2 -> all us2 m' = (Ok tt, m3) ->
       m_sys m3 a3 = Some v3 -> (k <> Plain -> meant (m_w m3) wa = Some w3) -> solves s sy a3 u3 ->
       run v3 (weights k w3 (rows extent leading k v0 w0)) l' = (r3, l3) ->
       exists m4, one u3 m3 = (reported r3, m4) /\ only_solver m3 m4 s).
Proof. exact @own_objects. Qed.
Print Assumptions C84_temporary_linear_solver.

(** A copy gives the result the original would have given when it was copied, if the named objects are as they were then; whatever was done with the original since. *)
Theorem C84_copy :
  forall (Sy L Wt Res : Type) (move_l : L -> L * L) (move_w : Wt -> Wt * Wt) (extent : Sy -> nat) (leading : Wt -> nat)
    (run : Sy -> option (Wt * nat) -> L -> outcome Res * L),
  let one := use_one move_l move_w extent leading run in let all := use_all move_l move_w extent leading run in
  forall s s' (m m1 m2 : @mem Sy L Wt) us,
    s <> s' -> one (NCopy s s') m = (Ok None, m1) ->
    Forall (leaves s') us -> all us m1 = (Ok tt, m2) ->
    m_sys m2 = m_sys m -> m_lin m2 = m_lin m -> m_w m2 = m_w m ->
    fst (one (NSolve s') m2) = fst (one (NSolve s) m).
Proof. exact @copy_solves. Qed.
Print Assumptions C84_copy.

(** So does a solver that was moved to. *)
Theorem C84_move :
  forall (Sy L Wt Res : Type) (move_l : L -> L * L) (move_w : Wt -> Wt * Wt) (extent : Sy -> nat) (leading : Wt -> nat)
    (run : Sy -> option (Wt * nat) -> L -> outcome Res * L),
  let one := use_one move_l move_w extent leading run in let all := use_all move_l move_w extent leading run in
  forall s s' (m m1 m2 : @mem Sy L Wt) us,
    move_ok move_l -> move_ok move_w -> s <> s' ->
    one (NMove s s') m = (Ok None, m1) -> Forall (leaves s') us -> all us m1 = (Ok tt, m2) ->
    m_sys m2 = m_sys m -> m_lin m2 = m_lin m -> m_w m2 = m_w m ->
    fst (one (NSolve s') m2) = fst (one (NSolve s) m).
Proof. exact @move_solves. Qed.
Print Assumptions C84_move.

(** The solver moved from keeps its references, and works with what is left of the linear solver it owned. *)
Theorem C84_moved_from : forall (Sy L Wt Res : Type) (move_l : L -> L * L) (move_w : Wt -> Wt * Wt) (extent : Sy -> nat)
    (leading : Wt -> nat) (run : Sy -> option (Wt * nat) -> L -> outcome Res * L),
  let one := use_one move_l move_w extent leading run in
  forall s s' a la wa (m0 m1 m : @mem Sy L Wt) v l,
    s <> s' -> move_ok move_l ->
    one (NCreate s Plain (Named Sy a) la wa) m0 = (Ok None, m1) -> one (NMove s s') m1 = (Ok None, m) ->
    m_sys m0 a = Some v -> meant (m_lin m0) la = Some l ->
    fst (one (NSolve s) m) = reported (fst (run v None (match la with Named _ _ => l | Temp _ _ => snd (move_l l) end))).
Proof. exact @moved_from_solves. Qed.
Print Assumptions C84_moved_from.

(** solve(x) is undefined behaviour once the system the solver was created with is gone, at once for a temporary. (The comment of
    create_newton_solver, solvers_create_newton.hpp 66-68, requires objects that live on; those of the other factories do not.) *)
Theorem C84_system_destroyed :
  forall (Sy L Wt Res : Type) (move_l : L -> L * L) (move_w : Wt -> Wt * Wt) (extent : Sy -> nat) (leading : Wt -> nat)
    (run : Sy -> option (Wt * nat) -> L -> outcome Res * L),
  let one := use_one move_l move_w extent leading run in let all := use_all move_l move_w extent leading run in
  forall s k sy la wa (m0 m1 m : @mem Sy L Wt) us,
    one (NCreate s k sy la wa) m0 = (Ok None, m1) ->
    Forall (keeps s) us -> all us m1 = (Ok tt, m) ->
    match sy with Named _ a => m_sys m a = None | Temp _ _ => True end ->
    one (NSolve s) m = (Undef UDangling, m).
Proof. exact @gone. Qed.
Print Assumptions C84_system_destroyed.

(** Every solve is undefined behaviour once a named linear solver is gone. *)
Theorem C84_linear_solver_destroyed :
  forall (Sy L Wt Res : Type) (move_l : L -> L * L) (move_w : Wt -> Wt * Wt) (extent : Sy -> nat) (leading : Wt -> nat)
    (run : Sy -> option (Wt * nat) -> L -> outcome Res * L),
  let one := use_one move_l move_w extent leading run in let all := use_all move_l move_w extent leading run in
  forall s k sy b wa (m0 m1 m : @mem Sy L Wt) us a v,
    one (NCreate s k sy (Named L b) wa) m0 = (Ok None, m1) ->
    Forall (keeps s) us -> all us m1 = (Ok tt, m) -> m_lin m b = None -> m_sys m a = Some v ->
    one (NSolveWith s a) m = (Undef UDangling, m).
Proof. exact @linear_gone. Qed.
Print Assumptions C84_linear_solver_destroyed.

(** A solver created from a temporary system cannot solve(x), even if every solve of every system succeeds. *)
Theorem C84_temporary_system_refuted :
  ~ (forall (Sy L Wt Res : Type) move_l move_w extent leading (run : Sy -> option (Wt * nat) -> L -> outcome Res * L) s v la wa m0 m1,
     (forall x w l, exists y, fst (run x w l) = Ok y) ->
     use_one move_l move_w extent leading run (NCreate s Plain (Temp Sy v) la wa) m0 = (Ok None, m1) ->
     exists y, fst (use_one move_l move_w extent leading run (NSolve s) m1) = Ok (Some y)).
Proof. exact temporary_system_refuted. Qed.
Print Assumptions C84_temporary_system_refuted.

(** A compact weighting operator given as a temporary: the buffers for the weighted residual and Jacobian do not have its leading dimension. *)
Theorem C84_compact_temporary_refuted :
  ~ (forall (Sy L Wt Res : Type) move_l move_w extent leading (run : Sy -> option (Wt * nat) -> L -> outcome Res * L) s a l w m0 m1 v,
     move_ok move_l -> move_ok move_w -> m_sys m0 a = Some v ->
     use_one move_l move_w extent leading run (NCreate s CompactWeighted (Named Sy a) (Temp L l) (Temp Wt w)) m0 = (Ok None, m1) ->
     fst (use_one move_l move_w extent leading run (NSolve s) m1) = reported (fst (run v (Some (w, leading w)) l))).
Proof. exact compact_temporary_refuted. Qed.
Print Assumptions C84_compact_temporary_refuted.

(** What it means that a nonlinear solver object can be used again: hypotheses on
    the parts supplied by the user, the histories of an object, and what of a solve
    is observable. *)
From Coq Require Import ZArith List Bool.
From Verif Require Import Base NonlinDiag NonlinModel.
Import ListNotations.

(** residualAndJacobian overwrites the residual and Jacobian it is given: what they
    contained before does not influence the results. After a failure their content
    may be anything. *)
Definition overwrites {V R J W} (rj : V -> R -> option J -> W -> outcome unit * (R * option J * W)) : Prop :=
  forall y r r' j j' w, (j = None <-> j' = None) ->
  let '(e, (r1, j1, w1)) := rj y r j w in
  let '(e', (r1', j1', w1')) := rj y r' j' w in
  e' = e /\ w1' = w1 /\ (e = Ok tt -> r1' = r1 /\ j1' = j1).

(** A Jacobian that was passed is still there afterwards (references do not vanish;
    the model passes the optional Jacobian as a value). *)
Definition keeps_jacobian {V R J W} (rj : V -> R -> option J -> W -> outcome unit * (R * option J * W)) : Prop :=
  forall y r j w, let '(_, (_, j', _)) := rj y r (Some j) w in j' <> None.

(** Two answers are the same as far as the caller may look at them. *)
Definition same_answer {A} (E : Prop) (e e' : outcome unit) (a a' : A) : Prop :=
  e' = e /\ (e = Ok tt -> a' = a /\ E).

(** The linear solver, QR solver and weighting operator give results that depend
    neither on what the result's buffer contained nor on what they did before.
    [good]: the states their memory can be in. [fact]: two memories hold the same
    factorisation. *)
Record reproducible {V R J H L} (xt : exts V R J H L) (good : L -> Prop) (fact : L -> L -> Prop) : Prop := {
  rp_newton : forall j r c c' l l', good l -> good l' ->
    let '(e, (v, m)) := x_newton xt j r c l in
    let '(e', (v', m')) := x_newton xt j r c' l' in
    good m /\ good m' /\ same_answer True e e' v v';
  rp_normal : forall h g c c' l l', good l -> good l' ->
    let '(e, (v, m)) := x_normal xt h g c l in
    let '(e', (v', m')) := x_normal xt h g c' l' in
    good m /\ good m' /\ same_answer True e e' v v';
  rp_thin : forall j l l', good l -> good l' ->
    let '(e, m) := x_thin xt j l in
    let '(e', m') := x_thin xt j l' in
    good m /\ good m' /\ e' = e /\ (e = Ok tt -> fact m m');
  rp_qtr : forall r c c' l l', good l -> good l' -> fact l l' ->
    let '(e, (v, m)) := x_qtr xt r c l in
    let '(e', (v', m')) := x_qtr xt r c' l' in
    good m /\ good m' /\ same_answer (fact m m') e e' v v';
  rp_rsolve : forall q c c' l l', good l -> good l' -> fact l l' ->
    let '(e, (v, m)) := x_rsolve xt q c l in
    let '(e', (v', m')) := x_rsolve xt q c' l' in
    good m /\ good m' /\ same_answer True e e' v v';
  rp_wr : forall r c c' l l', good l -> good l' ->
    let '(e, (v, m)) := x_wr xt r c l in
    let '(e', (v', m')) := x_wr xt r c' l' in
    good m /\ good m' /\ same_answer True e e' v v';
  rp_wj : forall j c c' l l', good l -> good l' ->
    let '(e, (v, m)) := x_wj xt j c l in
    let '(e', (v', m')) := x_wj xt j c' l' in
    good m /\ good m' /\ same_answer True e e' v v' }.

Section Used.
  Context {S V R J H L : Type}.
  Variable o : sops S.
  Notation G := (reg S V R J H L).
  (** The solve method with given settings *)
  Variable solve : config S -> prog V R J G unit.
  Variable good : L -> Prop.

  (** A solver object with these diagnostics, made from any buffers, that has
      carried out any number of solves: each with its own settings, state, system
      and system memory, and with any outcome. *)
  Inductive used (diags : list diag) : G -> Prop :=
  | used_new v r j h l : good l -> used diags (new_reg o v r j h l diags)
  | used_solve W (rj : V -> R -> option J -> W -> outcome unit * (R * option J * W)) cf y w g r g' w' :
      keeps_jacobian rj -> used diags g -> exec rj (solve cf) (set_x y g, w) = (r, (g', w')) -> used diags g'.

  (** Two solves from state [y] with the same settings and system, on objects [g] and
      [g2]: same outcome, same state, same calls of the system (it ends in the same
      state), the same lines printed, and the same done to the report file. *)
  Definition same_solve {W} (rj : V -> R -> option J -> W -> outcome unit * (R * option J * W))
             (cf : config S) (y : V) (w : W) (g g2 : G) : Prop :=
    let '(r, (s, w1)) := exec rj (solve cf) (set_x y g, w) in
    let '(r2, (s2, w2)) := exec rj (solve cf) (set_x y g2, w) in
    r2 = r /\ g_x s2 = g_x s /\ w2 = w1 /\
    (exists lines, g_log s = g_log g ++ lines /\ g_log s2 = g_log g2 ++ lines) /\
    ((g_file s = g_file g /\ g_file s2 = g_file g2) \/ g_file s2 = g_file s).
End Used.

(** C74: a nonlinear solver object can be used again. *)
From Coq Require Import List.
From Verif Require Import Base NonlinDiag NonlinModel ReuseSpec ReuseProofs ReuseProofs2.

(** Two objects made with the same diagnostics, each after any history of solves (with
    any settings, systems, states, and failures): the next solve is the same. One of
    them can be new. *)
Theorem C74_least_squares :
  forall (S V R J H L W : Type) (o : sops S) (no : nlops S V R J H) (xt : exts V R J H L)
    (good : L -> Prop) (fact : L -> L -> Prop)
    (rj : V -> R -> option J -> W -> outcome unit * (R * option J * W)) tag diags cf y w g g2,
  reproducible xt good fact -> overwrites rj -> keeps_jacobian rj ->
  used o (ls_solve o no xt tag) good diags g -> used o (ls_solve o no xt tag) good diags g2 ->
  same_solve (ls_solve o no xt tag) rj cf y w g g2.
Proof. exact @reuse_ls. Qed.
Print Assumptions C74_least_squares.

Theorem C74_newton :
  forall (S V R J H L W : Type) (o : sops S) (no : nlops S V R J H) (xt : exts V R J H L)
    (good : L -> Prop) (fact : L -> L -> Prop)
    (rj : V -> R -> option J -> W -> outcome unit * (R * option J * W)) diags cf y w g g2,
  reproducible xt good fact -> overwrites rj -> keeps_jacobian rj ->
  used o (root_solve o no xt) good diags g -> used o (root_solve o no xt) good diags g2 ->
  same_solve (root_solve o no xt) rj cf y w g g2.
Proof. exact @reuse_root. Qed.
Print Assumptions C74_newton.

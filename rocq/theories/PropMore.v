(** More of C04, C07, C21, C36, C62: public functions, default settings, sizes, moved-from objects. *)
From Coq Require Import Reals ZArith List Bool.
From Verif Require Import Base RInst AdvanceModel AdvanceSpec NonlinDiag NonlinModel NonlinSpec NonlinClaims
  LspgModel ProblemObjects ProblemObjectsSpec ProblemObjectsProofs MoreSpec MoreClaims.
Import ListNotations.

(** C04. [advance_to_target_point] never retries a step ... *)
Theorem C04_advance_to_target_point :
  forall (T St W : Type) (o : sops T) (obs : Z -> T -> St -> W -> outcome unit * W) step pol fuel start final s w r s' w' tr,
  advance_to_target_point o obs pol step fuel start final (s, w, []) = (r, (s', w', tr)) -> r <> NoFuel ->
  target_run o (mk_user obs (pol3 pol) noop_guess step) false start final s w r s' w' tr.
Proof. exact @point_without_recovery. Qed.
Print Assumptions C04_advance_to_target_point.

(** C07. ... the step recovery function with stepper arguments does. *)
Theorem C07_advance_with_step_recovery :
  forall (T St W : Type) (o : sops T) (obs : Z -> T -> St -> W -> outcome unit * W) step pol fuel start final s w r s' w' tr,
  with_step_recovery_args o obs pol step fuel start final (s, w, []) = (r, (s', w', tr)) -> r <> NoFuel ->
  target_run o (mk_user obs pol noop_guess step) true start final s w r s' w' tr.
Proof. exact @point_with_recovery. Qed.
Print Assumptions C07_advance_with_step_recovery.

(** C21. A solver whose settings were not changed. *)
Theorem C21_default_least_squares :
  forall (eps : R) (V Rs J H L W : Type) (no : nlops R V Rs J H) (xt : exts V Rs J H L)
    (rj : V -> Rs -> option J -> W -> outcome unit * (Rs * option J * W)) wr wj tag (s : reg R V Rs J H L) w s' w',
  ls_object (Rops eps) s -> plain_system rj -> weights_ok xt wr wj no_linesearch ->
  exec rj (ls_solve (Rops eps) no xt tag (default_config (Rops eps))) (s, w) = (Ok tt, (s', w')) ->
  exists ls, g_log s' = g_log s ++ ls /\ default_rule (g_x s') ls.
Proof. exact @default_least_squares. Qed.
Print Assumptions C21_default_least_squares.

Theorem C21_default_newton :
  forall (eps : R) (V Rs J H L W : Type) (no : nlops R V Rs J H) (xt : exts V Rs J H L)
    (rj : V -> Rs -> option J -> W -> outcome unit * (Rs * option J * W)) (s : reg R V Rs J H L) w s' w',
  root_object (Rops eps) s -> plain_system rj ->
  exec rj (root_solve (Rops eps) no xt (default_config (Rops eps))) (s, w) = (Ok tt, (s', w')) ->
  exists ls, g_log s' = g_log s ++ ls /\ default_rule (g_x s') ls.
Proof. exact @default_newton. Qed.
Print Assumptions C21_default_newton.

(** C36. The assertions are as weak as they can be. *)
Theorem C36_read_short :
  forall (Y : Type) (g : tag) (data : list Y), (length data < asserted_size g)%nat -> fom_at g data = Undef UOutOfBounds.
Proof. exact @fom_at_short. Qed.
Print Assumptions C36_read_short.

(** C62. An LSPG problem that was moved from still steps while the new owner lives, and not after. *)
Theorem C62_lspg_moved_from :
  forall l a b, Forall not_copied l -> correct_use (l ++ [UMove a b; UDestroy b]) nothing ->
  fst (uses lp_use (l ++ [UMove a b; UStep a; UDestroy b; UStep a]) lnothing) =
  fst (uses lp_use l lnothing) ++ [Ok tt; Ok tt; Ok tt; Undef UDangling].
Proof. exact lp_moved_from. Qed.
Print Assumptions C62_lspg_moved_from.

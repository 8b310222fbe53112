(** Property C96: statements only. Spec: [GaussSpec.v], and [NewtonSpec.v], [NonlinSpec.v] and [NonlinLaws.v]. *)
From Coq Require Import Reals ZArith List.
From Verif Require Import Base RInst Laws NonlinDiag NonlinModel NonlinWp NonlinSpec NonlinLaws NewtonSpec GaussSpec GaussProofs GaussClaims.
Import ListNotations.
Local Open Scope R_scope.

Theorem C96_gauss_newton :
  forall (eps : R) (V Rs J H L W : Type) (no : nlops R V Rs J H) (ro : vops R Rs)
    (apJ : J -> V -> Rs) (apH : H -> V -> V), nl_laws eps no ro apJ apH ->
  forall (xt : exts V Rs J H L) (rj : V -> Rs -> option J -> W -> outcome unit * (Rs * option J * W))
    (F : V -> Rs) (DF : V -> J), computes rj F DF ->
  linear_ok xt (if_solvable (normal_exact apH)) (if_solvable (qr_exact no apJ)) (if_solvable (newton_exact apJ)) nothing ->
  forall (xs : V) (rad beta gamma rho : R), regular_minimum no ro apJ F DF xs rad beta gamma rho ->
  forall (wr : Rs -> Rs) (wj : J -> J), weights_ok xt wr wj nothing ->
  forall tag : lstag,
  (forall x, apart no x xs <= rad -> forall r, exists d,
     match tag with
     | GaussNewtonQr => qr_exact no apJ (DF x) r d
     | _ => normal_exact apH (n_jtj no (DF x) (DF x)) (n_jtr no (DF x) r) d
     end) ->
  forall (cf : config R) (s : reg R V Rs J H L) (w : W) (r : outcome unit) (s' : reg R V Rs J H L) (w' : W),
  ls_object (Rops eps) s -> tag = GaussNewton \/ tag = GaussNewtonQr -> f_update cf = UStandard ->
  (0 <= f_max cf < int32_max)%Z -> apart no (g_x s) xs <= rad ->
  exec rj (ls_solve (Rops eps) no xt tag cf) (s, w) = (r, (s', w')) ->
  exists ls, g_log s' = g_log s ++ ls /\ r = Ok tt /\ apart no (g_x s') xs <= rad /\
    approaches_minimum no eps cf (beta ^ 2 * gamma * rho) (beta * (gamma / 2)) xs (g_x s) ls (g_x s').
Proof. exact @min_converges. Qed.
Print Assumptions C96_gauss_newton.

(** The criterion is met after at most [n] corrections, and the state returned is as close to the solution as
    the tolerance asks. *)
Theorem C96_gauss_newton_finds :
  forall (eps : R) (V Rs J H L W : Type) (no : nlops R V Rs J H) (ro : vops R Rs)
    (apJ : J -> V -> Rs) (apH : H -> V -> V), nl_laws eps no ro apJ apH ->
  forall (xt : exts V Rs J H L) (rj : V -> Rs -> option J -> W -> outcome unit * (Rs * option J * W))
    (F : V -> Rs) (DF : V -> J), computes rj F DF ->
  linear_ok xt (if_solvable (normal_exact apH)) (if_solvable (qr_exact no apJ)) (if_solvable (newton_exact apJ)) nothing ->
  forall (xs : V) (rad beta gamma rho : R), regular_minimum no ro apJ F DF xs rad beta gamma rho ->
  forall (wr : Rs -> Rs) (wj : J -> J), weights_ok xt wr wj nothing ->
  forall tag : lstag,
  (forall x, apart no x xs <= rad -> forall r, exists d,
     match tag with
     | GaussNewtonQr => qr_exact no apJ (DF x) r d
     | _ => normal_exact apH (n_jtj no (DF x) (DF x)) (n_jtr no (DF x) r) d
     end) ->
  forall (cf : config R) (s : reg R V Rs J H L) (w : W) (r : outcome unit) (s' : reg R V Rs J H L) (w' : W),
  ls_object (Rops eps) s -> tag = GaussNewton \/ tag = GaussNewtonQr -> f_update cf = UStandard ->
  (0 <= f_max cf < int32_max)%Z -> apart no (g_x s) xs <= rad ->
  exec rj (ls_solve (Rops eps) no xt tag cf) (s, w) = (r, (s', w')) ->
  forall (M near far : R) (n : nat), judged_minimum (f_stop cf) (beta ^ 2 * gamma * rho + beta * (gamma / 2) * rad) beta M near far ->
  (f_stop cf = WhenAbsGradient -> forall x, apart no x xs <= rad -> forall v, n_rnorm no (apJ (DF x) v) <= M * n_norm no v) ->
  near * shrunk (beta ^ 2 * gamma * rho) (beta * (gamma / 2)) (apart no (g_x s) xs) n < f_tol cf -> (Z.of_nat n < f_max cf)%Z ->
  exists a l, g_log s' = g_log s ++ a ++ [l] /\ l_state l = g_x s' /\ line_met (Rops eps) cf l /\ (length a <= n)%nat /\
    apart no (g_x s') xs <= far * f_tol cf.
Proof. exact @min_finds. Qed.
Print Assumptions C96_gauss_newton_finds.

(** Such an [n] exists for every tolerance; the distances shrink at least geometrically. *)
Theorem C96_every_tolerance :
  forall sigma kappa rad e near tol : R, 0 <= sigma -> 0 <= kappa -> 0 <= e <= rad -> sigma + kappa * rad < 1 ->
  0 < tol -> 0 <= near -> exists n, near * shrunk sigma kappa e n < tol.
Proof. exact shrunk_vanishes. Qed.
Print Assumptions C96_every_tolerance.

Theorem C96_geometric :
  forall sigma kappa rad e : R, 0 <= sigma -> 0 <= kappa -> 0 <= e <= rad -> sigma + kappa * rad < 1 ->
  forall n, 0 <= shrunk sigma kappa e n <= rad /\ shrunk sigma kappa e n <= (sigma + kappa * rad) ^ n * e.
Proof. exact shrunk_geometric. Qed.
Print Assumptions C96_geometric.

(** A Lipschitz derivative satisfies the bounds asked for. *)
Theorem C96_lipschitz :
  forall (eps : R) (V Rs J H : Type) (no : nlops R V Rs J H) (ro : vops R Rs)
    (apJ : J -> V -> Rs) (apH : H -> V -> V), nl_laws eps no ro apJ apH ->
  forall (F : V -> Rs) (DF : V -> J) (xs : V) (rad beta gamma rho : R),
  (forall v, n_rdot no (F xs) (apJ (DF xs) v) = 0) -> n_rnorm no (F xs) <= rho ->
  0 <= beta -> 0 <= gamma -> 0 <= rad ->
  (forall x, apart no x xs <= rad -> forall v, n_norm no v <= beta * n_rnorm no (apJ (DF x) v)) ->
  derivative_near no apJ F DF xs rad -> lipschitz_near no ro apJ DF xs rad gamma ->
  beta ^ 2 * gamma * rho + beta * (gamma / 2) * rad < 1 ->
  regular_minimum no ro apJ F DF xs rad beta gamma rho.
Proof. exact @lipschitz_minimum. Qed.
Print Assumptions C96_lipschitz.

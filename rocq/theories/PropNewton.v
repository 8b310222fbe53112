(** Property C90: statements only. Spec: [NewtonSpec.v], and [NonlinSpec.v] and [NonlinLaws.v]. *)
From Coq Require Import Reals ZArith List.
From Verif Require Import Base RInst Laws NonlinDiag NonlinModel NonlinWp NonlinSpec NonlinLaws NewtonSpec NewtonProofs NewtonClaims.
Import ListNotations.
Local Open Scope R_scope.

Theorem C90_newton :
  forall (eps : R) (V Rs J H L W : Type) (no : nlops R V Rs J H) (ro : vops R Rs)
    (apJ : J -> V -> Rs) (apH : H -> V -> V), nl_laws eps no ro apJ apH ->
  forall (xt : exts V Rs J H L) (rj : V -> Rs -> option J -> W -> outcome unit * (Rs * option J * W))
    (F : V -> Rs) (DF : V -> J), computes rj F DF ->
  linear_ok xt (if_solvable (normal_exact apH)) (if_solvable (qr_exact no apJ)) (if_solvable (newton_exact apJ)) nothing ->
  forall (xs : V) (rad beta gamma : R), regular_near no ro apJ F DF xs rad beta gamma ->
  (forall x, apart no x xs <= rad -> forall r, exists d, apJ (DF x) d = r) ->
  forall (cf : config R) (s : reg R V Rs J H L) (w : W) (r : outcome unit) (s' : reg R V Rs J H L) (w' : W),
  root_object (Rops eps) s -> root_supported cf -> f_update cf = UStandard -> (0 <= f_max cf < int32_max)%Z ->
  apart no (g_x s) xs <= rad ->
  exec rj (root_solve (Rops eps) no xt cf) (s, w) = (r, (s', w')) ->
  exists ls, g_log s' = g_log s ++ ls /\ r = Ok tt /\ apart no (g_x s') xs <= rad /\
    approaches no eps cf (beta * (gamma / 2)) xs (g_x s) ls (g_x s').
Proof. exact @newton_quadratic. Qed.
Print Assumptions C90_newton.

(** The criterion is met after at most [n] corrections, and the state returned is as close to the root as the
    tolerance asks. *)
Theorem C90_newton_finds :
  forall (eps : R) (V Rs J H L W : Type) (no : nlops R V Rs J H) (ro : vops R Rs)
    (apJ : J -> V -> Rs) (apH : H -> V -> V), nl_laws eps no ro apJ apH ->
  forall (xt : exts V Rs J H L) (rj : V -> Rs -> option J -> W -> outcome unit * (Rs * option J * W))
    (F : V -> Rs) (DF : V -> J), computes rj F DF ->
  linear_ok xt (if_solvable (normal_exact apH)) (if_solvable (qr_exact no apJ)) (if_solvable (newton_exact apJ)) nothing ->
  forall (xs : V) (rad beta gamma : R), regular_near no ro apJ F DF xs rad beta gamma ->
  (forall x, apart no x xs <= rad -> forall r, exists d, apJ (DF x) d = r) ->
  forall (cf : config R) (s : reg R V Rs J H L) (w : W) (r : outcome unit) (s' : reg R V Rs J H L) (w' : W),
  root_object (Rops eps) s -> root_supported cf -> f_update cf = UStandard -> (0 <= f_max cf < int32_max)%Z ->
  apart no (g_x s) xs <= rad ->
  exec rj (root_solve (Rops eps) no xt cf) (s, w) = (r, (s', w')) ->
  forall (M near far : R) (n : nat), judged (f_stop cf) rad beta gamma M near far ->
  (f_stop cf = WhenAbsResidual -> forall x, apart no x xs <= rad -> forall v, n_rnorm no (apJ (DF x) v) <= M * n_norm no v) ->
  near * quadratic (beta * (gamma / 2)) (apart no (g_x s) xs) n < f_tol cf -> (Z.of_nat n < f_max cf)%Z ->
  exists a l, g_log s' = g_log s ++ a ++ [l] /\ l_state l = g_x s' /\ line_met (Rops eps) cf l /\ (length a <= n)%nat /\
    apart no (g_x s') xs <= far * f_tol cf.
Proof. exact @newton_finds. Qed.
Print Assumptions C90_newton_finds.

Theorem C90_gauss_newton :
  forall (eps : R) (V Rs J H L W : Type) (no : nlops R V Rs J H) (ro : vops R Rs)
    (apJ : J -> V -> Rs) (apH : H -> V -> V), nl_laws eps no ro apJ apH ->
  forall (xt : exts V Rs J H L) (rj : V -> Rs -> option J -> W -> outcome unit * (Rs * option J * W))
    (F : V -> Rs) (DF : V -> J), computes rj F DF ->
  linear_ok xt (if_solvable (normal_exact apH)) (if_solvable (qr_exact no apJ)) (if_solvable (newton_exact apJ)) nothing ->
  forall (xs : V) (rad beta gamma : R), regular_near no ro apJ F DF xs rad beta gamma ->
  forall (wr : Rs -> Rs) (wj : J -> J), weights_ok xt wr wj nothing ->
  forall tag : lstag,
  (forall x, apart no x xs <= rad -> forall r, exists d,
     match tag with
     | GaussNewtonQr => qr_exact no apJ (DF x) r d
     | _ => normal_exact apH (n_jtj no (DF x) (DF x)) (n_jtr no (DF x) r) d
     end) ->
  forall (cf : config R) (s : reg R V Rs J H L) (w : W) (r : outcome unit) (s' : reg R V Rs J H L) (w' : W),
  ls_object (Rops eps) s -> tag = GaussNewton \/ tag = GaussNewtonQr -> f_update cf = UStandard ->
  (0 <= f_max cf < int32_max)%Z -> apart no (g_x s) xs <= rad ->
  exec rj (ls_solve (Rops eps) no xt tag cf) (s, w) = (r, (s', w')) ->
  exists ls, g_log s' = g_log s ++ ls /\ r = Ok tt /\ apart no (g_x s') xs <= rad /\
    approaches no eps cf (beta * (gamma / 2)) xs (g_x s) ls (g_x s').
Proof. exact @gn_quadratic. Qed.
Print Assumptions C90_gauss_newton.

Theorem C90_gauss_newton_finds :
  forall (eps : R) (V Rs J H L W : Type) (no : nlops R V Rs J H) (ro : vops R Rs)
    (apJ : J -> V -> Rs) (apH : H -> V -> V), nl_laws eps no ro apJ apH ->
  forall (xt : exts V Rs J H L) (rj : V -> Rs -> option J -> W -> outcome unit * (Rs * option J * W))
    (F : V -> Rs) (DF : V -> J), computes rj F DF ->
  linear_ok xt (if_solvable (normal_exact apH)) (if_solvable (qr_exact no apJ)) (if_solvable (newton_exact apJ)) nothing ->
  forall (xs : V) (rad beta gamma : R), regular_near no ro apJ F DF xs rad beta gamma ->
  forall (wr : Rs -> Rs) (wj : J -> J), weights_ok xt wr wj nothing ->
  forall tag : lstag,
  (forall x, apart no x xs <= rad -> forall r, exists d,
     match tag with
     | GaussNewtonQr => qr_exact no apJ (DF x) r d
     | _ => normal_exact apH (n_jtj no (DF x) (DF x)) (n_jtr no (DF x) r) d
     end) ->
  forall (cf : config R) (s : reg R V Rs J H L) (w : W) (r : outcome unit) (s' : reg R V Rs J H L) (w' : W),
  ls_object (Rops eps) s -> tag = GaussNewton \/ tag = GaussNewtonQr -> f_update cf = UStandard ->
  (0 <= f_max cf < int32_max)%Z -> apart no (g_x s) xs <= rad ->
  exec rj (ls_solve (Rops eps) no xt tag cf) (s, w) = (r, (s', w')) ->
  forall (M near far : R) (n : nat), judged (f_stop cf) rad beta gamma M near far ->
  (f_stop cf = WhenAbsResidual -> forall x, apart no x xs <= rad -> forall v, n_rnorm no (apJ (DF x) v) <= M * n_norm no v) ->
  near * quadratic (beta * (gamma / 2)) (apart no (g_x s) xs) n < f_tol cf -> (Z.of_nat n < f_max cf)%Z ->
  exists a l, g_log s' = g_log s ++ a ++ [l] /\ l_state l = g_x s' /\ line_met (Rops eps) cf l /\ (length a <= n)%nat /\
    apart no (g_x s') xs <= far * f_tol cf.
Proof. exact @gn_finds. Qed.
Print Assumptions C90_gauss_newton_finds.

(** Such an [n] exists for every tolerance. *)
Theorem C90_every_tolerance :
  forall kappa e near tol : R, 0 <= kappa -> 0 <= e -> kappa * e < 1 -> 0 < tol -> 0 <= near ->
  exists n, near * quadratic kappa e n < tol.
Proof. exact quadratic_vanishes. Qed.
Print Assumptions C90_every_tolerance.

(** A Lipschitz derivative is linearised with a quadratic error. *)
Theorem C90_lipschitz :
  forall (eps : R) (V Rs J H : Type) (no : nlops R V Rs J H) (ro : vops R Rs)
    (apJ : J -> V -> Rs) (apH : H -> V -> V), nl_laws eps no ro apJ apH ->
  forall (F : V -> Rs) (DF : V -> J) (xs : V) (rad gamma : R),
  F xs = vzero ro -> 0 <= gamma -> derivative_near no apJ F DF xs rad -> lipschitz_near no ro apJ DF xs rad gamma ->
  forall beta : R, 0 <= beta ->
  (forall x, apart no x xs <= rad -> forall v, n_norm no v <= beta * n_rnorm no (apJ (DF x) v)) ->
  beta * (gamma / 2) * rad < 1 ->
  regular_near no ro apJ F DF xs rad beta gamma.
Proof. exact @lipschitz_regular. Qed.
Print Assumptions C90_lipschitz.

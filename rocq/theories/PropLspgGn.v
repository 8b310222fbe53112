(** C97: LSPG of nonlinear FOMs solved by the library's Gauss-Newton. Spec: [LspgGnSpec.v], [GaussSpec.v], [NewtonSpec.v], [RomRunSpec.v]. *)
From Coq Require Import Reals ZArith List.
From Verif Require Import Base RInst Laws AdvanceModel AdvanceSpec AdvanceProofs TargetProofs Track ExplicitModel ImplicitModel ImplicitSpec
  NonlinDiag NonlinModel NonlinSpec NonlinLaws NewtonSpec GaussSpec GaussProofs LspgModel LspgSpec RomRunSpec RomLsSpec LspgGnSpec LspgGnClaims.
Import ListNotations.
Local Open Scope R_scope.

(** The FOM is y' = f(y,t), the reconstruction any function. The integration ends, and in every step the new state is as near to the
    least-squares solution of the residual of that step, formed with the states found before it, as C96 says. *)
Theorem C97_n_steps :
  forall (eps : R) (X Y J H L W U : Type) (no : nlops R X Y J H) (yo : vops R Y) (jo : vops R J) (ap : J -> X -> Y) (apH : H -> X -> X),
  nl_laws eps no yo ap apH -> vspace (Rops eps) jo ->
  forall (recon : X -> Y) (phi : J) (fom : sfom (S:=R) (Y:=Y) (R:=Y) (J:=J) (B:=J) (W:=W)) (f : Y -> R -> Y) (df : Y -> J -> R -> J),
  smooth_fom fom phi f df ->
  forall xt : exts X Y J H L,
  linear_ok xt (if_solvable (normal_exact apH)) (if_solvable (qr_exact no ap)) (if_solvable (newton_exact ap)) nothing ->
  forall wr wj, weights_ok xt wr wj nothing ->
  forall tag cf, gauss_newton tag cf ->
  forall (obs : Z -> R -> X -> U -> outcome unit * U) w0 name cs cr zero x0 ws g0,
  ls_object (Rops eps) ws -> lspg_create (Rops eps) name cs cr zero (fresh_policy w0) x0 ws = Ok g0 ->
  let o := Rops eps in
  let step := implicit_step o (default_policy o yo jo recon fom phi) (as_solver (ls_solve o no xt tag cf)) name in
  let near_best := lands_each no yo ap apH tag cf (lspg_res o yo recon f name) (lspg_jacobian o jo recon df phi name) in
  forall pol num start y0 w, (Z.of_nat num < int32_max)%Z ->
  (forall k t y u, fst (obs k t y u) = Ok tt) -> (forall k t d u, exists dt, fst (pol k t d u) = Ok dt) ->
  exists y' g' w' tr l,
    advance_n_steps o (mk_user (split_obs obs) (pol3 (split_pol pol)) noop_guess (split_step (implicit_fn step)))
      (Z.of_nat num) start (y0, (g0, w), []) = (Ok tt, (y', (g', w'), tr)) /\
    length l = S num /\ reports tr = numbered l /\ hd y0 (map snd l) = y' /\ linked_from Rplus near_best start y0 l.
Proof. exact @lspg_gn_n_steps. Qed.
Print Assumptions C97_n_steps.

(** The same of integrations to a target; step sizes of at least h: at most n steps *)
Theorem C97_to_target :
  forall (eps : R) (X Y J H L W U : Type) (no : nlops R X Y J H) (yo : vops R Y) (jo : vops R J) (ap : J -> X -> Y) (apH : H -> X -> X),
  nl_laws eps no yo ap apH -> vspace (Rops eps) jo ->
  forall (recon : X -> Y) (phi : J) (fom : sfom (S:=R) (Y:=Y) (R:=Y) (J:=J) (B:=J) (W:=W)) (f : Y -> R -> Y) (df : Y -> J -> R -> J),
  smooth_fom fom phi f df ->
  forall xt : exts X Y J H L,
  linear_ok xt (if_solvable (normal_exact apH)) (if_solvable (qr_exact no ap)) (if_solvable (newton_exact ap)) nothing ->
  forall wr wj, weights_ok xt wr wj nothing ->
  forall tag cf, gauss_newton tag cf ->
  forall (obs : Z -> R -> X -> U -> outcome unit * U) w0 name cs cr zero x0 ws g0,
  ls_object (Rops eps) ws -> lspg_create (Rops eps) name cs cr zero (fresh_policy w0) x0 ws = Ok g0 ->
  let o := Rops eps in
  let step := implicit_step o (default_policy o yo jo recon fom phi) (as_solver (ls_solve o no xt tag cf)) name in
  let near_best := lands_each no yo ap apH tag cf (lspg_res o yo recon f name) (lspg_jacobian o jo recon df phi name) in
  forall pol recovery h n fuel start final y0 w,
  0 <= eps -> (forall k t y u, fst (obs k t y u) = Ok tt) ->
  (forall k t x u, exists dt m c, fst (pol k t x u) = Ok (dt, m, c) /\ h <= dt /\ m <= dt /\ (recovery = true -> 1 < c)) ->
  start < final -> final - start <= INR n * h -> (n < fuel)%nat -> (Z.of_nat n < int32_max)%Z ->
  exists y' g' w' tr l,
    to_target o (mk_user (split_obs obs) (split_pol pol) noop_guess (split_step (implicit_fn step))) recovery fuel
      start final (y0, (g0, w), []) = (Ok tt, (y', (g', w'), tr)) /\
    reports tr = numbered l /\ hd y0 (map snd l) = y' /\ linked_from Rplus near_best start y0 l.
Proof. exact @lspg_gn_target. Qed.
Print Assumptions C97_to_target.

(** Where the FOM's own step stays in the trial space, it is such a least-squares solution: with no residual, the steps converge quadratically to it. *)
Theorem C97_fom_step :
  forall (eps : R) (X Y J H : Type) (no : nlops R X Y J H) (yo : vops R Y) (jo : vops R J) (ap : J -> X -> Y) (apH : H -> X -> X),
  nl_laws eps no yo ap apH ->
  forall (recon : X -> Y) (phi : J) (f : Y -> R -> Y) (df : Y -> J -> R -> J) name past t dt z rad beta gamma,
  name = BDF1 \/ name = BDF2 -> fom_step (Rops eps) yo f name (map recon past) t dt (recon z) ->
  let F := lspg_res (Rops eps) yo recon f name past t dt in
  let DF := lspg_jacobian (Rops eps) jo recon df phi name past t dt in
  0 <= beta -> 0 <= gamma -> 0 <= rad ->
  (forall x, apart no x z <= rad -> forall v, n_norm no v <= beta * n_rnorm no (ap (DF x) v)) ->
  derivative_near no ap F DF z rad -> lipschitz_near no yo ap DF z rad gamma -> beta * (gamma / 2) * rad < 1 ->
  regular_minimum no yo ap F DF z rad beta gamma 0.
Proof. exact @lspg_gn_fom. Qed.
Print Assumptions C97_fom_step.

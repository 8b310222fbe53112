(** C98: Gauss-Newton for the other LSPG problems, Newton for fully discrete Galerkin. Spec: [RomVarSpec.v], [LspgGnSpec.v], [RomRunSpec.v].
    All end, and report num states after the initial one. *)
From Coq Require Import Reals ZArith List.
From Verif Require Import Base RInst Laws LawInst AdvanceModel AdvanceSpec AdvanceProofs TargetProofs Track ExplicitModel ImplicitModel ImplicitSpec
  NonlinDiag NonlinModel NonlinSpec NonlinLaws NewtonSpec NewtonRunSpec GaussSpec GaussProofs LspgModel RomSpec LspgSpec GalerkinModel GalerkinSpec RomRunSpec LspgGnSpec RomVarSpec RomVarClaims.
Import ListNotations.
Local Open Scope R_scope.

(** LSPG with the user's scaling: the least-squares solution is that of the scaled residual of each step. *)
Theorem C98_scaled_n_steps :
  forall (eps : R) (X Y J H L W U : Type),
  forall (yo : vops R Y) (jo : vops R J), vspace (Rops eps) yo -> vspace (Rops eps) jo ->
  forall (recon : X -> Y) (fom : sfom (S:=R) (Y:=Y) (R:=Y) (J:=J) (B:=J) (W:=W)) (phi : J) (f : Y -> R -> Y) (df : Y -> J -> R -> J), fom_is fom f df -> fom_returns fom phi ->
  forall scaler (Sc : Y -> R -> Y -> Y) (ScJ : Y -> R -> J -> J), scaler_is scaler Sc ScJ -> scaler_returns scaler ->
  forall (no : nlops R X Y J H) (ro : vops R Y) (ap : J -> X -> Y) (apH : H -> X -> X), nl_laws eps no ro ap apH ->
  forall xt : exts X Y J H L,
  linear_ok xt (if_solvable (normal_exact apH)) (if_solvable (qr_exact no ap)) (if_solvable (newton_exact ap)) nothing ->
  forall wr wj, weights_ok xt wr wj nothing ->
  forall tag cf, gauss_newton tag cf ->
  forall (obs : Z -> R -> X -> U -> outcome unit * U) w0 name cs cr zero x0 ws g0,
  ls_object (Rops eps) ws -> lspg_create (Rops eps) name cs cr zero (fresh_policy w0) x0 ws = Ok g0 ->
  let o := Rops eps in
  let step := implicit_step o (scaled_policy (default_policy o yo jo recon fom phi) scaler) (as_solver (ls_solve o no xt tag cf)) name in
  let near_best := lands_each no ro ap apH tag cf (scaled_at o recon Sc (lspg_res o yo recon f name)) (scaled_at o recon ScJ (lspg_jacobian o jo recon df phi name)) in
  forall pol num start y0 w, (Z.of_nat num < int32_max)%Z ->
  (forall k t y u, fst (obs k t y u) = Ok tt) -> (forall k t d u, exists dt, fst (pol k t d u) = Ok dt) ->
  exists y' g' w' tr l,
    advance_n_steps o (mk_user (split_obs obs) (pol3 (split_pol pol)) noop_guess (split_step (implicit_fn step)))
      (Z.of_nat num) start (y0, (g0, w), []) = (Ok tt, (y', (g', w'), tr)) /\
    length l = S num /\ reports tr = numbered l /\ hd y0 (map snd l) = y' /\ linked_from Rplus near_best start y0 l.
Proof. exact @scaled_each_n_steps. Qed.
Print Assumptions C98_scaled_n_steps.

Theorem C98_scaled_to_target :
  forall (eps : R) (X Y J H L W U : Type),
  forall (yo : vops R Y) (jo : vops R J), vspace (Rops eps) yo -> vspace (Rops eps) jo ->
  forall (recon : X -> Y) (fom : sfom (S:=R) (Y:=Y) (R:=Y) (J:=J) (B:=J) (W:=W)) (phi : J) (f : Y -> R -> Y) (df : Y -> J -> R -> J), fom_is fom f df -> fom_returns fom phi ->
  forall scaler (Sc : Y -> R -> Y -> Y) (ScJ : Y -> R -> J -> J), scaler_is scaler Sc ScJ -> scaler_returns scaler ->
  forall (no : nlops R X Y J H) (ro : vops R Y) (ap : J -> X -> Y) (apH : H -> X -> X), nl_laws eps no ro ap apH ->
  forall xt : exts X Y J H L,
  linear_ok xt (if_solvable (normal_exact apH)) (if_solvable (qr_exact no ap)) (if_solvable (newton_exact ap)) nothing ->
  forall wr wj, weights_ok xt wr wj nothing ->
  forall tag cf, gauss_newton tag cf ->
  forall (obs : Z -> R -> X -> U -> outcome unit * U) w0 name cs cr zero x0 ws g0,
  ls_object (Rops eps) ws -> lspg_create (Rops eps) name cs cr zero (fresh_policy w0) x0 ws = Ok g0 ->
  let o := Rops eps in
  let step := implicit_step o (scaled_policy (default_policy o yo jo recon fom phi) scaler) (as_solver (ls_solve o no xt tag cf)) name in
  let near_best := lands_each no ro ap apH tag cf (scaled_at o recon Sc (lspg_res o yo recon f name)) (scaled_at o recon ScJ (lspg_jacobian o jo recon df phi name)) in
  forall pol recovery h n fuel start final y0 w,
  0 <= eps -> (forall k t y u, fst (obs k t y u) = Ok tt) ->
  (forall k t x u, exists dt m c, fst (pol k t x u) = Ok (dt, m, c) /\ h <= dt /\ m <= dt /\ (recovery = true -> 1 < c)) ->
  start < final -> final - start <= INR n * h -> (n < fuel)%nat -> (Z.of_nat n < int32_max)%Z ->
  exists y' g' w' tr l,
    to_target o (mk_user (split_obs obs) (split_pol pol) noop_guess (split_step (implicit_fn step))) recovery fuel
      start final (y0, (g0, w), []) = (Ok tt, (y', (g', w'), tr)) /\
    reports tr = numbered l /\ hd y0 (map snd l) = y' /\ linked_from Rplus near_best start y0 l.
Proof. exact @scaled_each_target. Qed.
Print Assumptions C98_scaled_to_target.

(** Behind the user's mask: of the masked residual. *)
Theorem C98_masked_n_steps :
  forall (eps : R) (X Y J Rs Jm H L W U : Type),
  forall (yo : vops R Y) (jo : vops R J), vspace (Rops eps) yo -> vspace (Rops eps) jo ->
  forall (recon : X -> Y) (fom : sfom (S:=R) (Y:=Y) (R:=Y) (J:=J) (B:=J) (W:=W)) (phi : J) (f : Y -> R -> Y) (df : Y -> J -> R -> J), fom_is fom f df -> fom_returns fom phi ->
  forall (m : masker (Ru:=Y) (Ju:=J) (R:=Rs) (J:=Jm) (W:=W)) (K : Y -> Rs) (KJ : J -> Jm), mask_is m K KJ -> mask_returns m ->
  forall (no : nlops R X Rs Jm H) (ro : vops R Rs) (ap : Jm -> X -> Rs) (apH : H -> X -> X), nl_laws eps no ro ap apH ->
  forall xt : exts X Rs Jm H L,
  linear_ok xt (if_solvable (normal_exact apH)) (if_solvable (qr_exact no ap)) (if_solvable (newton_exact ap)) nothing ->
  forall wr wj, weights_ok xt wr wj nothing ->
  forall tag cf, gauss_newton tag cf ->
  forall (obs : Z -> R -> X -> U -> outcome unit * U) ru ju w0 name cs cr zero x0 ws g0,
  ls_object (Rops eps) ws -> lspg_create (Rops eps) name cs cr zero (fresh_masked ru ju w0) x0 ws = Ok g0 ->
  let o := Rops eps in
  let step := implicit_step o (masked_policy (default_policy o yo jo recon fom phi) m) (as_solver (ls_solve o no xt tag cf)) name in
  let near_best := lands_each no ro ap apH tag cf (masked_at K (lspg_res o yo recon f name)) (masked_at KJ (lspg_jacobian o jo recon df phi name)) in
  forall pol num start y0 w, (Z.of_nat num < int32_max)%Z ->
  (forall k t y u, fst (obs k t y u) = Ok tt) -> (forall k t d u, exists dt, fst (pol k t d u) = Ok dt) ->
  exists y' g' w' tr l,
    advance_n_steps o (mk_user (split_obs obs) (pol3 (split_pol pol)) noop_guess (split_step (implicit_fn step)))
      (Z.of_nat num) start (y0, (g0, w), []) = (Ok tt, (y', (g', w'), tr)) /\
    length l = S num /\ reports tr = numbered l /\ hd y0 (map snd l) = y' /\ linked_from Rplus near_best start y0 l.
Proof. exact @masked_each_n_steps. Qed.
Print Assumptions C98_masked_n_steps.

Theorem C98_masked_to_target :
  forall (eps : R) (X Y J Rs Jm H L W U : Type),
  forall (yo : vops R Y) (jo : vops R J), vspace (Rops eps) yo -> vspace (Rops eps) jo ->
  forall (recon : X -> Y) (fom : sfom (S:=R) (Y:=Y) (R:=Y) (J:=J) (B:=J) (W:=W)) (phi : J) (f : Y -> R -> Y) (df : Y -> J -> R -> J), fom_is fom f df -> fom_returns fom phi ->
  forall (m : masker (Ru:=Y) (Ju:=J) (R:=Rs) (J:=Jm) (W:=W)) (K : Y -> Rs) (KJ : J -> Jm), mask_is m K KJ -> mask_returns m ->
  forall (no : nlops R X Rs Jm H) (ro : vops R Rs) (ap : Jm -> X -> Rs) (apH : H -> X -> X), nl_laws eps no ro ap apH ->
  forall xt : exts X Rs Jm H L,
  linear_ok xt (if_solvable (normal_exact apH)) (if_solvable (qr_exact no ap)) (if_solvable (newton_exact ap)) nothing ->
  forall wr wj, weights_ok xt wr wj nothing ->
  forall tag cf, gauss_newton tag cf ->
  forall (obs : Z -> R -> X -> U -> outcome unit * U) ru ju w0 name cs cr zero x0 ws g0,
  ls_object (Rops eps) ws -> lspg_create (Rops eps) name cs cr zero (fresh_masked ru ju w0) x0 ws = Ok g0 ->
  let o := Rops eps in
  let step := implicit_step o (masked_policy (default_policy o yo jo recon fom phi) m) (as_solver (ls_solve o no xt tag cf)) name in
  let near_best := lands_each no ro ap apH tag cf (masked_at K (lspg_res o yo recon f name)) (masked_at KJ (lspg_jacobian o jo recon df phi name)) in
  forall pol recovery h n fuel start final y0 w,
  0 <= eps -> (forall k t y u, fst (obs k t y u) = Ok tt) ->
  (forall k t x u, exists dt m c, fst (pol k t x u) = Ok (dt, m, c) /\ h <= dt /\ m <= dt /\ (recovery = true -> 1 < c)) ->
  start < final -> final - start <= INR n * h -> (n < fuel)%nat -> (Z.of_nat n < int32_max)%Z ->
  exists y' g' w' tr l,
    to_target o (mk_user (split_obs obs) (split_pol pol) noop_guess (split_step (implicit_fn step))) recovery fuel
      start final (y0, (g0, w), []) = (Ok tt, (y', (g', w'), tr)) /\
    reports tr = numbered l /\ hd y0 (map snd l) = y' /\ linked_from Rplus near_best start y0 l.
Proof. exact @masked_each_target. Qed.
Print Assumptions C98_masked_to_target.

(** Hyper-reduced, with the user's updater. *)
Theorem C98_hyper_reduced_n_steps :
  forall (eps : R) (X Y Rs J B H L W U : Type),
  forall (yo : vops R Y), vspace (Rops eps) yo ->
  forall (recon : X -> Y) (fom : sfom (S:=R) (Y:=Y) (R:=Rs) (J:=J) (B:=B) (W:=W)) (phi : B) (f : Y -> R -> Rs) (df : Y -> B -> R -> J), fom_is fom f df -> fom_returns fom phi ->
  forall up (Up : Rs -> R -> Y -> R -> Rs) (UpJ : J -> R -> B -> R -> J), updater_is up Up UpJ -> updater_returns up ->
  forall (no : nlops R X Rs J H) (ro : vops R Rs) (ap : J -> X -> Rs) (apH : H -> X -> X), nl_laws eps no ro ap apH ->
  forall xt : exts X Rs J H L,
  linear_ok xt (if_solvable (normal_exact apH)) (if_solvable (qr_exact no ap)) (if_solvable (newton_exact ap)) nothing ->
  forall wr wj, weights_ok xt wr wj nothing ->
  forall tag cf, gauss_newton tag cf ->
  forall (obs : Z -> R -> X -> U -> outcome unit * U) w0 name cs cr zero x0 ws g0,
  ls_object (Rops eps) ws -> lspg_create (Rops eps) name cs cr zero (fresh_policy w0) x0 ws = Ok g0 ->
  let o := Rops eps in
  let step := implicit_step o (hypred_policy o yo recon fom phi up) (as_solver (ls_solve o no xt tag cf)) name in
  let near_best := lands_each no ro ap apH tag cf (hypred_res o yo recon f Up name) (hypred_jacobian o recon df phi UpJ name) in
  forall pol num start y0 w, (Z.of_nat num < int32_max)%Z ->
  (forall k t y u, fst (obs k t y u) = Ok tt) -> (forall k t d u, exists dt, fst (pol k t d u) = Ok dt) ->
  exists y' g' w' tr l,
    advance_n_steps o (mk_user (split_obs obs) (pol3 (split_pol pol)) noop_guess (split_step (implicit_fn step)))
      (Z.of_nat num) start (y0, (g0, w), []) = (Ok tt, (y', (g', w'), tr)) /\
    length l = S num /\ reports tr = numbered l /\ hd y0 (map snd l) = y' /\ linked_from Rplus near_best start y0 l.
Proof. exact @hyper_reduced_each_n_steps. Qed.
Print Assumptions C98_hyper_reduced_n_steps.

Theorem C98_hyper_reduced_to_target :
  forall (eps : R) (X Y Rs J B H L W U : Type),
  forall (yo : vops R Y), vspace (Rops eps) yo ->
  forall (recon : X -> Y) (fom : sfom (S:=R) (Y:=Y) (R:=Rs) (J:=J) (B:=B) (W:=W)) (phi : B) (f : Y -> R -> Rs) (df : Y -> B -> R -> J), fom_is fom f df -> fom_returns fom phi ->
  forall up (Up : Rs -> R -> Y -> R -> Rs) (UpJ : J -> R -> B -> R -> J), updater_is up Up UpJ -> updater_returns up ->
  forall (no : nlops R X Rs J H) (ro : vops R Rs) (ap : J -> X -> Rs) (apH : H -> X -> X), nl_laws eps no ro ap apH ->
  forall xt : exts X Rs J H L,
  linear_ok xt (if_solvable (normal_exact apH)) (if_solvable (qr_exact no ap)) (if_solvable (newton_exact ap)) nothing ->
  forall wr wj, weights_ok xt wr wj nothing ->
  forall tag cf, gauss_newton tag cf ->
  forall (obs : Z -> R -> X -> U -> outcome unit * U) w0 name cs cr zero x0 ws g0,
  ls_object (Rops eps) ws -> lspg_create (Rops eps) name cs cr zero (fresh_policy w0) x0 ws = Ok g0 ->
  let o := Rops eps in
  let step := implicit_step o (hypred_policy o yo recon fom phi up) (as_solver (ls_solve o no xt tag cf)) name in
  let near_best := lands_each no ro ap apH tag cf (hypred_res o yo recon f Up name) (hypred_jacobian o recon df phi UpJ name) in
  forall pol recovery h n fuel start final y0 w,
  0 <= eps -> (forall k t y u, fst (obs k t y u) = Ok tt) ->
  (forall k t x u, exists dt m c, fst (pol k t x u) = Ok (dt, m, c) /\ h <= dt /\ m <= dt /\ (recovery = true -> 1 < c)) ->
  start < final -> final - start <= INR n * h -> (n < fuel)%nat -> (Z.of_nat n < int32_max)%Z ->
  exists y' g' w' tr l,
    to_target o (mk_user (split_obs obs) (split_pol pol) noop_guess (split_step (implicit_fn step))) recovery fuel
      start final (y0, (g0, w), []) = (Ok tt, (y', (g', w'), tr)) /\
    reports tr = numbered l /\ hd y0 (map snd l) = y' /\ linked_from Rplus near_best start y0 l.
Proof. exact @hyper_reduced_each_target. Qed.
Print Assumptions C98_hyper_reduced_to_target.

(** Hyper-reduced and scaled. *)
Theorem C98_scaled_hyper_reduced_n_steps :
  forall (eps : R) (X Y Rs J B H L W U : Type),
  forall (yo : vops R Y), vspace (Rops eps) yo ->
  forall (recon : X -> Y) (fom : sfom (S:=R) (Y:=Y) (R:=Rs) (J:=J) (B:=B) (W:=W)) (phi : B) (f : Y -> R -> Rs) (df : Y -> B -> R -> J), fom_is fom f df -> fom_returns fom phi ->
  forall up (Up : Rs -> R -> Y -> R -> Rs) (UpJ : J -> R -> B -> R -> J), updater_is up Up UpJ -> updater_returns up ->
  forall scaler (Sc : Y -> R -> Rs -> Rs) (ScJ : Y -> R -> J -> J), scaler_is scaler Sc ScJ -> scaler_returns scaler ->
  forall (no : nlops R X Rs J H) (ro : vops R Rs) (ap : J -> X -> Rs) (apH : H -> X -> X), nl_laws eps no ro ap apH ->
  forall xt : exts X Rs J H L,
  linear_ok xt (if_solvable (normal_exact apH)) (if_solvable (qr_exact no ap)) (if_solvable (newton_exact ap)) nothing ->
  forall wr wj, weights_ok xt wr wj nothing ->
  forall tag cf, gauss_newton tag cf ->
  forall (obs : Z -> R -> X -> U -> outcome unit * U) w0 name cs cr zero x0 ws g0,
  ls_object (Rops eps) ws -> lspg_create (Rops eps) name cs cr zero (fresh_policy w0) x0 ws = Ok g0 ->
  let o := Rops eps in
  let step := implicit_step o (scaled_policy (hypred_policy o yo recon fom phi up) scaler) (as_solver (ls_solve o no xt tag cf)) name in
  let near_best := lands_each no ro ap apH tag cf (scaled_at o recon Sc (hypred_res o yo recon f Up name)) (scaled_at o recon ScJ (hypred_jacobian o recon df phi UpJ name)) in
  forall pol num start y0 w, (Z.of_nat num < int32_max)%Z ->
  (forall k t y u, fst (obs k t y u) = Ok tt) -> (forall k t d u, exists dt, fst (pol k t d u) = Ok dt) ->
  exists y' g' w' tr l,
    advance_n_steps o (mk_user (split_obs obs) (pol3 (split_pol pol)) noop_guess (split_step (implicit_fn step)))
      (Z.of_nat num) start (y0, (g0, w), []) = (Ok tt, (y', (g', w'), tr)) /\
    length l = S num /\ reports tr = numbered l /\ hd y0 (map snd l) = y' /\ linked_from Rplus near_best start y0 l.
Proof. exact @scaled_hyper_reduced_each_n_steps. Qed.
Print Assumptions C98_scaled_hyper_reduced_n_steps.

Theorem C98_scaled_hyper_reduced_to_target :
  forall (eps : R) (X Y Rs J B H L W U : Type),
  forall (yo : vops R Y), vspace (Rops eps) yo ->
  forall (recon : X -> Y) (fom : sfom (S:=R) (Y:=Y) (R:=Rs) (J:=J) (B:=B) (W:=W)) (phi : B) (f : Y -> R -> Rs) (df : Y -> B -> R -> J), fom_is fom f df -> fom_returns fom phi ->
  forall up (Up : Rs -> R -> Y -> R -> Rs) (UpJ : J -> R -> B -> R -> J), updater_is up Up UpJ -> updater_returns up ->
  forall scaler (Sc : Y -> R -> Rs -> Rs) (ScJ : Y -> R -> J -> J), scaler_is scaler Sc ScJ -> scaler_returns scaler ->
  forall (no : nlops R X Rs J H) (ro : vops R Rs) (ap : J -> X -> Rs) (apH : H -> X -> X), nl_laws eps no ro ap apH ->
  forall xt : exts X Rs J H L,
  linear_ok xt (if_solvable (normal_exact apH)) (if_solvable (qr_exact no ap)) (if_solvable (newton_exact ap)) nothing ->
  forall wr wj, weights_ok xt wr wj nothing ->
  forall tag cf, gauss_newton tag cf ->
  forall (obs : Z -> R -> X -> U -> outcome unit * U) w0 name cs cr zero x0 ws g0,
  ls_object (Rops eps) ws -> lspg_create (Rops eps) name cs cr zero (fresh_policy w0) x0 ws = Ok g0 ->
  let o := Rops eps in
  let step := implicit_step o (scaled_policy (hypred_policy o yo recon fom phi up) scaler) (as_solver (ls_solve o no xt tag cf)) name in
  let near_best := lands_each no ro ap apH tag cf (scaled_at o recon Sc (hypred_res o yo recon f Up name)) (scaled_at o recon ScJ (hypred_jacobian o recon df phi UpJ name)) in
  forall pol recovery h n fuel start final y0 w,
  0 <= eps -> (forall k t y u, fst (obs k t y u) = Ok tt) ->
  (forall k t x u, exists dt m c, fst (pol k t x u) = Ok (dt, m, c) /\ h <= dt /\ m <= dt /\ (recovery = true -> 1 < c)) ->
  start < final -> final - start <= INR n * h -> (n < fuel)%nat -> (Z.of_nat n < int32_max)%Z ->
  exists y' g' w' tr l,
    to_target o (mk_user (split_obs obs) (split_pol pol) noop_guess (split_step (implicit_fn step))) recovery fuel
      start final (y0, (g0, w), []) = (Ok tt, (y', (g', w'), tr)) /\
    reports tr = numbered l /\ hd y0 (map snd l) = y' /\ linked_from Rplus near_best start y0 l.
Proof. exact @scaled_hyper_reduced_each_target. Qed.
Print Assumptions C98_scaled_hyper_reduced_to_target.

(** Fully discrete: the user's own residual, at the reconstructed states. *)
Theorem C98_fully_discrete_n_steps :
  forall (eps : R) (X Y Rs J B H L W U : Type),
  forall (recon : X -> Y) (dfom : Z -> R -> R -> Rs -> B -> option J -> Y -> list Y -> W -> outcome unit * (Rs * option J * W)) (phi : B)
    (Rd : Z -> R -> R -> Y -> list Y -> Rs) (Jd : Z -> R -> R -> Y -> list Y -> J), dfom_is dfom phi Rd Jd -> dfom_returns dfom phi ->
  forall (no : nlops R X Rs J H) (ro : vops R Rs) (ap : J -> X -> Rs) (apH : H -> X -> X), nl_laws eps no ro ap apH ->
  forall xt : exts X Rs J H L,
  linear_ok xt (if_solvable (normal_exact apH)) (if_solvable (qr_exact no ap)) (if_solvable (newton_exact ap)) nothing ->
  forall wr wj, weights_ok xt wr wj nothing ->
  forall tag cf, gauss_newton tag cf ->
  forall (obs : Z -> R -> X -> U -> outcome unit * U) three cs (zero : Y) (q0 : W) x0 ws g0,
  ls_object (Rops eps) ws -> discrete_create (Rops eps) (total three) cs zero q0 x0 ws = Ok g0 ->
  let o := Rops eps in
  let step := arb_step o (fd_system recon (total three) (lspg_discrete dfom phi)) (as_solver (ls_solve o no xt tag cf)) (total three - 1) in
  let near_best := lands_each no ro ap apH tag cf (discrete_at o recon zero three Rd) (discrete_at o recon zero three Jd) in
  forall pol num start y0 w, (Z.of_nat num < int32_max)%Z ->
  (forall k t y u, fst (obs k t y u) = Ok tt) -> (forall k t d u, exists dt, fst (pol k t d u) = Ok dt) ->
  exists y' g' w' tr l,
    advance_n_steps o (mk_user (split_obs obs) (pol3 (split_pol pol)) noop_guess (split_step (arb_fn step)))
      (Z.of_nat num) start (y0, (g0, w), []) = (Ok tt, (y', (g', w'), tr)) /\
    length l = S num /\ reports tr = numbered l /\ hd y0 (map snd l) = y' /\ linked_from Rplus near_best start y0 l.
Proof. exact @fully_discrete_each_n_steps. Qed.
Print Assumptions C98_fully_discrete_n_steps.

Theorem C98_fully_discrete_to_target :
  forall (eps : R) (X Y Rs J B H L W U : Type),
  forall (recon : X -> Y) (dfom : Z -> R -> R -> Rs -> B -> option J -> Y -> list Y -> W -> outcome unit * (Rs * option J * W)) (phi : B)
    (Rd : Z -> R -> R -> Y -> list Y -> Rs) (Jd : Z -> R -> R -> Y -> list Y -> J), dfom_is dfom phi Rd Jd -> dfom_returns dfom phi ->
  forall (no : nlops R X Rs J H) (ro : vops R Rs) (ap : J -> X -> Rs) (apH : H -> X -> X), nl_laws eps no ro ap apH ->
  forall xt : exts X Rs J H L,
  linear_ok xt (if_solvable (normal_exact apH)) (if_solvable (qr_exact no ap)) (if_solvable (newton_exact ap)) nothing ->
  forall wr wj, weights_ok xt wr wj nothing ->
  forall tag cf, gauss_newton tag cf ->
  forall (obs : Z -> R -> X -> U -> outcome unit * U) three cs (zero : Y) (q0 : W) x0 ws g0,
  ls_object (Rops eps) ws -> discrete_create (Rops eps) (total three) cs zero q0 x0 ws = Ok g0 ->
  let o := Rops eps in
  let step := arb_step o (fd_system recon (total three) (lspg_discrete dfom phi)) (as_solver (ls_solve o no xt tag cf)) (total three - 1) in
  let near_best := lands_each no ro ap apH tag cf (discrete_at o recon zero three Rd) (discrete_at o recon zero three Jd) in
  forall pol recovery h n fuel start final y0 w,
  0 <= eps -> (forall k t y u, fst (obs k t y u) = Ok tt) ->
  (forall k t x u, exists dt m c, fst (pol k t x u) = Ok (dt, m, c) /\ h <= dt /\ m <= dt /\ (recovery = true -> 1 < c)) ->
  start < final -> final - start <= INR n * h -> (n < fuel)%nat -> (Z.of_nat n < int32_max)%Z ->
  exists y' g' w' tr l,
    to_target o (mk_user (split_obs obs) (split_pol pol) noop_guess (split_step (arb_fn step))) recovery fuel
      start final (y0, (g0, w), []) = (Ok tt, (y', (g', w'), tr)) /\
    reports tr = numbered l /\ hd y0 (map snd l) = y' /\ linked_from Rplus near_best start y0 l.
Proof. exact @fully_discrete_each_target. Qed.
Print Assumptions C98_fully_discrete_to_target.

(** Fully discrete Galerkin with the library's Newton: each step that starts well ends where the projected residual is small. *)
Theorem C98_galerkin_fully_discrete_n_steps :
  forall (eps : R) (X Y Rf Jf J B H L W U : Type),
  forall (xo : vops R X) (jo : vops R J), vspace (Rops eps) xo -> vspace (Rops eps) jo ->
  forall (recon : X -> Y) (dfom : Z -> R -> R -> Rf -> B -> option Jf -> Y -> list Y -> W -> outcome unit * (Rf * option Jf * W)) (phi : B)
    (Rd : Z -> R -> R -> Y -> list Y -> Rf) (Jd : Z -> R -> R -> Y -> list Y -> Jf), dfom_is dfom phi Rd Jd -> dfom_returns dfom phi ->
  forall proj_R proj_J (P : R -> Rf -> X) (PJ : R -> Jf -> J), projections (Rops eps) xo jo phi proj_R proj_J P PJ -> proj_returns proj_R -> proj_returns proj_J ->
  forall (no : nlops R X X J H) (ap : J -> X -> X) (apH : H -> X -> X), nl_laws eps no (n_vo no) ap apH ->
  forall xt : exts X X J H L,
  linear_ok xt (if_solvable (normal_exact apH)) (if_solvable (qr_exact no ap)) (if_solvable (newton_exact ap)) nothing ->
  forall cf, newton_absolute cf -> (1 <= f_max cf)%Z ->
  forall (obs : Z -> R -> X -> U -> outcome unit * U) three cs (zero : Y) (q0 : Rf * Jf * W) x0 ws g0,
  root_object (Rops eps) ws -> discrete_create (Rops eps) (total three) cs zero q0 x0 ws = Ok g0 ->
  let o := Rops eps in
  let step := arb_step o (fd_system recon (total three) (galerkin_discrete dfom phi proj_R proj_J)) (as_solver (root_solve o no xt cf)) (total three - 1) in
  let met := solved_each no ap cf (projected_at o recon zero three P Rd) (projected_at o recon zero three PJ Jd) in
  forall pol num start y0 w, (Z.of_nat num < int32_max)%Z ->
  (forall k t y u, fst (obs k t y u) = Ok tt) -> (forall k t d u, exists dt, fst (pol k t d u) = Ok dt) ->
  exists y' g' w' tr l,
    advance_n_steps o (mk_user (split_obs obs) (pol3 (split_pol pol)) noop_guess (split_step (arb_fn step)))
      (Z.of_nat num) start (y0, (g0, w), []) = (Ok tt, (y', (g', w'), tr)) /\
    length l = S num /\ reports tr = numbered l /\ hd y0 (map snd l) = y' /\ linked_from Rplus met start y0 l.
Proof. exact @galerkin_fully_discrete_each_n_steps. Qed.
Print Assumptions C98_galerkin_fully_discrete_n_steps.

Theorem C98_galerkin_fully_discrete_to_target :
  forall (eps : R) (X Y Rf Jf J B H L W U : Type),
  forall (xo : vops R X) (jo : vops R J), vspace (Rops eps) xo -> vspace (Rops eps) jo ->
  forall (recon : X -> Y) (dfom : Z -> R -> R -> Rf -> B -> option Jf -> Y -> list Y -> W -> outcome unit * (Rf * option Jf * W)) (phi : B)
    (Rd : Z -> R -> R -> Y -> list Y -> Rf) (Jd : Z -> R -> R -> Y -> list Y -> Jf), dfom_is dfom phi Rd Jd -> dfom_returns dfom phi ->
  forall proj_R proj_J (P : R -> Rf -> X) (PJ : R -> Jf -> J), projections (Rops eps) xo jo phi proj_R proj_J P PJ -> proj_returns proj_R -> proj_returns proj_J ->
  forall (no : nlops R X X J H) (ap : J -> X -> X) (apH : H -> X -> X), nl_laws eps no (n_vo no) ap apH ->
  forall xt : exts X X J H L,
  linear_ok xt (if_solvable (normal_exact apH)) (if_solvable (qr_exact no ap)) (if_solvable (newton_exact ap)) nothing ->
  forall cf, newton_absolute cf -> (1 <= f_max cf)%Z ->
  forall (obs : Z -> R -> X -> U -> outcome unit * U) three cs (zero : Y) (q0 : Rf * Jf * W) x0 ws g0,
  root_object (Rops eps) ws -> discrete_create (Rops eps) (total three) cs zero q0 x0 ws = Ok g0 ->
  let o := Rops eps in
  let step := arb_step o (fd_system recon (total three) (galerkin_discrete dfom phi proj_R proj_J)) (as_solver (root_solve o no xt cf)) (total three - 1) in
  let met := solved_each no ap cf (projected_at o recon zero three P Rd) (projected_at o recon zero three PJ Jd) in
  forall pol recovery h n fuel start final y0 w,
  0 <= eps -> (forall k t y u, fst (obs k t y u) = Ok tt) ->
  (forall k t x u, exists dt m c, fst (pol k t x u) = Ok (dt, m, c) /\ h <= dt /\ m <= dt /\ (recovery = true -> 1 < c)) ->
  start < final -> final - start <= INR n * h -> (n < fuel)%nat -> (Z.of_nat n < int32_max)%Z ->
  exists y' g' w' tr l,
    to_target o (mk_user (split_obs obs) (split_pol pol) noop_guess (split_step (arb_fn step))) recovery fuel
      start final (y0, (g0, w), []) = (Ok tt, (y', (g', w'), tr)) /\
    reports tr = numbered l /\ hd y0 (map snd l) = y' /\ linked_from Rplus met start y0 l.
Proof. exact @galerkin_fully_discrete_each_target. Qed.
Print Assumptions C98_galerkin_fully_discrete_to_target.


(** C79, C80: fully discrete ROMs and LSPG: what one evaluation gives, and trajectories. *)
From Coq Require Import ZArith List Bool Reals.
From Verif Require Import Base RInst Laws LawInst AdvanceModel AdvanceSpec AdvanceProofs TargetProofs Track ExplicitModel ImplicitModel ImplicitSpec
  LspgModel RomSpec LspgSpec GalerkinModel GalerkinSpec RomRunSpec RomRunProofs RomRunClaims.
Import ListNotations.
Local Open Scope Z_scope.

(** C79. [Rd], [Jd]: residual and Jacobian action of the fully discrete FOM. *)
(** An LSPG evaluation that returns gives the FOM's residual, and its Jacobian action exactly if requested, at the
    reconstructed states the manager holds. *)
Theorem C79_lspg_values :
  forall (S X Y R J B W : Type) (recon : X -> Y)
    (dfom : Z -> S -> S -> R -> B -> option J -> Y -> list Y -> W -> outcome unit * (R * option J * W)) (phi : B) Rd Jd,
  dfom_is dfom phi Rd Jd ->
  forall n step t dt r Jo x st p r' j' p',
  fd_system recon n (lspg_discrete dfom phi) step t dt r Jo x st p = (Ok tt, (r', j', p')) ->
  exists older, fh_data (fst p') = recon x :: older /\ (n - 1 <= length older)%nat /\
    let y_older := firstn (n - 1) older in
    r' = Rd step t dt (recon x) y_older /\ j' = option_map (fun _ => Jd step t dt (recon x) y_older) Jo.
Proof. exact @lspg_values. Qed.
Print Assumptions C79_lspg_values.

(** A Galerkin evaluation that returns gives their projections. *)
Theorem C79_galerkin_values :
  forall (S X Y Rf Jf J B W : Type) (o : sops S) (xo : vops S X) (jo : vops S J) (recon : X -> Y)
    (dfom : Z -> S -> S -> Rf -> B -> option Jf -> Y -> list Y -> W -> outcome unit * (Rf * option Jf * W)) (phi : B) Rd Jd proj_R proj_J P PJ,
  vspace o xo -> vspace o jo -> dfom_is dfom phi Rd Jd -> projections o xo jo phi proj_R proj_J P PJ ->
  forall n step t dt r Jo x st p r' j' p',
  fd_system recon n (galerkin_discrete dfom phi proj_R proj_J) step t dt r Jo x st p = (Ok tt, (r', j', p')) ->
  exists older, fh_data (fst p') = recon x :: older /\ (n - 1 <= length older)%nat /\
    let y_older := firstn (n - 1) older in
    r' = P t (Rd step t dt (recon x) y_older) /\ j' = option_map (fun _ => PJ t (Jd step t dt (recon x) y_older)) Jo.
Proof. exact @galerkin_values. Qed.
Print Assumptions C79_galerkin_values.

(** What the FOM does not return from: the failure of the residual reaches the solver as ResidualEvaluationFailureUnrecoverable,
    anything else as it is. *)
Theorem C79_lspg_failures :
  forall (S X Y R J B W : Type) (recon : X -> Y)
    (dfom : Z -> S -> S -> R -> B -> option J -> Y -> list Y -> W -> outcome unit * (R * option J * W)) (phi : B) n step t dt r Jo x st h w h' older e r1 j1 w1,
  reconstruct recon x st step h = (Ok tt, h') -> fh_data h' = recon x :: older -> (n - 1 <= length older)%nat ->
  dfom step t dt r phi Jo (recon x) (firstn (n - 1) older) w = (e, (r1, j1, w1)) ->
  exists r' j', fd_system recon n (lspg_discrete dfom phi) step t dt r Jo x st (h, w)
    = (as_residual_failure e, (r', j', (h', w1))).
Proof. exact @lspg_failures. Qed.
Print Assumptions C79_lspg_failures.

(** Then Galerkin projects nothing: the solver's residual and Jacobian stay as they are and only the FOM has run. *)
Theorem C79_galerkin_failures :
  forall (S X Y Rf Jf R J B W : Type) (recon : X -> Y)
    (dfom : Z -> S -> S -> Rf -> B -> option Jf -> Y -> list Y -> W -> outcome unit * (Rf * option Jf * W)) (phi : B)
    (proj_R : S -> Rf -> R -> W -> outcome unit * (R * W)) (proj_J : S -> Jf -> J -> W -> outcome unit * (J * W))
    n step t dt r Jo x st h fr fj w h' older e fr1 j1 w1,
  reconstruct recon x st step h = (Ok tt, h') -> fh_data h' = recon x :: older -> (n - 1 <= length older)%nat ->
  dfom step t dt fr phi (option_map (fun _ => fj) Jo) (recon x) (firstn (n - 1) older) w = (e, (fr1, j1, w1)) -> e <> Ok tt ->
  exists fj1, fd_system recon n (galerkin_discrete dfom phi proj_R proj_J) step t dt r Jo x st (h, (fr, fj, w))
    = (as_residual_failure e, (r, Jo, (h', (fr1, fj1, w1)))).
Proof. exact @galerkin_failures. Qed.
Print Assumptions C79_galerkin_failures.

(** With an affine trial map, [bapp] the basis and [fapp] the application of matrices, the LSPG Jacobian is the derivative of the
    residual with respect to the reduced state, if the FOM's Jacobian action is that of the derivative [Df] of its residual. *)
Theorem C79_lspg_jacobian_is_derivative :
  forall (X Y Rf J B W : Type) eps0 (xo : vops R X) (yo : vops R Y) (ro : vops R Rf) (nx : X -> R) (ny : Y -> R) (nr : Rf -> R)
    (recon bapp : X -> Y) (fapp : J -> X -> Rf), vspace (Rops eps0) xo -> (forall d, 0 <= nx d)%R ->
  (forall x d, recon (vadd xo x d) = vadd yo (recon x) (bapp d)) -> (exists K, forall d, ny (bapp d) <= K * nx d)%R ->
  forall (dfom : Z -> R -> R -> Rf -> B -> option J -> Y -> list Y -> W -> outcome unit * (Rf * option J * W)) (phi : B) Rd Jd Df,
  dfom_is dfom phi Rd Jd ->
  (forall step t dt y older, derivative2 yo ny ro nr (fun y => Rd step t dt y older) y (Df step t dt y older)) ->
  (forall step t dt y older d, fapp (Jd step t dt y older) d = Df step t dt y older (bapp d)) ->
  forall n step t dt r j x st p r' j' p',
  fd_system recon n (lspg_discrete dfom phi) step t dt r (Some j) x st p = (Ok tt, (r', Some j', p')) ->
  exists older, fh_data (fst p') = recon x :: older /\
    let F := fun x => Rd step t dt (recon x) (firstn (n - 1) older) in
    r' = F x /\ derivative2 xo nx ro nr F x (fapp j').
Proof. exact @lspg_jacobian_is_derivative. Qed.
Print Assumptions C79_lspg_jacobian_is_derivative.

(** Likewise for Galerkin; [xapp] applies reduced matrices. *)
Theorem C79_galerkin_jacobian_is_derivative :
  forall (X Y Rf Jf J B W : Type) eps0 (xo : vops R X) (jo : vops R J) (yo : vops R Y) (ro : vops R Rf) (nx : X -> R) (ny : Y -> R)
    (nr : Rf -> R) (recon bapp : X -> Y) (fapp : Jf -> X -> Rf) (xapp : J -> X -> X),
  vspace (Rops eps0) xo -> vspace (Rops eps0) jo -> (forall d, 0 <= nx d)%R -> (forall d, 0 <= nr d)%R ->
  (forall x d, recon (vadd xo x d) = vadd yo (recon x) (bapp d)) -> (exists K, forall d, ny (bapp d) <= K * nx d)%R ->
  forall (dfom : Z -> R -> R -> Rf -> B -> option Jf -> Y -> list Y -> W -> outcome unit * (Rf * option Jf * W)) (phi : B) Rd Jd Df
    proj_R proj_J P PJ,
  dfom_is dfom phi Rd Jd -> projections (Rops eps0) xo jo phi proj_R proj_J P PJ ->
  (forall step t dt y older, derivative2 yo ny ro nr (fun y => Rd step t dt y older) y (Df step t dt y older)) ->
  (forall step t dt y older d, fapp (Jd step t dt y older) d = Df step t dt y older (bapp d)) ->
  (forall t, bounded ro nr xo nx (P t)) -> (forall t A d, xapp (PJ t A) d = P t (fapp A d)) ->
  forall n step t dt r j x st p r' j' p',
  fd_system recon n (galerkin_discrete dfom phi proj_R proj_J) step t dt r (Some j) x st p = (Ok tt, (r', Some j', p')) ->
  exists older, fh_data (fst p') = recon x :: older /\
    let F := fun x => P t (Rd step t dt (recon x) (firstn (n - 1) older)) in
    r' = F x /\ derivative2 xo nx xo nx F x (xapp j').
Proof. exact @galerkin_jacobian_is_derivative. Qed.
Print Assumptions C79_galerkin_jacobian_is_derivative.

(** C80. A run of a fresh problem under the advancers, with any failures and retries, that ends well reports a chain of
    reduced states each of which the solver accepted for the residual and Jacobian belonging to the states before it. [Acc]: what
    the solver accepts. *)
Theorem C80_n_steps_lspg :
  forall (S X Y J W Ws U : Type) (o : sops S) (yo : vops S Y) (jo : vops S J) (recon : X -> Y)
    (fom : sfom) (phi : J) (f : Y -> S -> Y) (df : Y -> J -> S -> J)
    (solver : Ws -> X -> sol X Y J Ws) (Acc : Y -> option J -> Prop) (w0 : W) name cs cr (zero : Y) (x0 : X) (ws : Ws) g0
    (obs : Z -> S -> X -> U -> outcome unit * U),
  sfield o -> schar0 o -> vspace o yo -> vspace o jo -> fom_is fom f df ->
  asks solver -> (forall ws y, certified_rj Acc (fun _ => False) (solver ws y)) ->
  lspg_create o name cs cr zero (fresh_policy w0) x0 ws = Ok g0 ->
  forall pl num start y0 w y' g' w' tr, Z.of_nat num < int32_max ->
  advance_n_steps o (mk_user (split_obs obs) (pol3 (split_pol pl)) noop_guess (split_step (implicit_fn (implicit_step o (default_policy o yo jo recon fom phi) solver name))))
    (Z.of_nat num) start (y0, (g0, w), []) = (Ok tt, (y', (g', w'), tr)) ->
  exists t' d' l, length l = num /\
    linked_from (sadd o) (accepted_rj Acc (lspg_res o yo recon f name) (lspg_jacobian o jo recon df phi name)) start y0 ((t', d', y') :: l) /\
    reports tr = numbered ((t', d', y') :: l).
Proof. exact @n_steps_lspg. Qed.
Print Assumptions C80_n_steps_lspg.

Theorem C80_to_target_lspg :
  forall (S X Y J W Ws U : Type) (o : sops S) (yo : vops S Y) (jo : vops S J) (recon : X -> Y)
    (fom : sfom) (phi : J) (f : Y -> S -> Y) (df : Y -> J -> S -> J)
    (solver : Ws -> X -> sol X Y J Ws) (Acc : Y -> option J -> Prop) (w0 : W) name cs cr (zero : Y) (x0 : X) (ws : Ws) g0
    (obs : Z -> S -> X -> U -> outcome unit * U),
  sfield o -> schar0 o -> vspace o yo -> vspace o jo -> fom_is fom f df ->
  asks solver -> (forall ws y, certified_rj Acc (fun _ => False) (solver ws y)) ->
  lspg_create o name cs cr zero (fresh_policy w0) x0 ws = Ok g0 ->
  (forall ws y, ends (fun r => r <> Throw ETimeStep) (solver ws y)) ->
  forall pl recovery fuel start final y0 w y' g' w' tr,
  to_target o (mk_user (split_obs obs) (split_pol pl) noop_guess (split_step (implicit_fn (implicit_step o (default_policy o yo jo recon fom phi) solver name)))) recovery fuel
    start final (y0, (g0, w), []) = (Ok tt, (y', (g', w'), tr)) ->
  seqb o final start = false ->
  exists t' d' l, linked_from (sadd o) (accepted_rj Acc (lspg_res o yo recon f name) (lspg_jacobian o jo recon df phi name)) start y0 ((t', d', y') :: l) /\
    reports tr = numbered ((t', d', y') :: l).
Proof. exact @to_target_lspg. Qed.
Print Assumptions C80_to_target_lspg.

Theorem C80_n_steps_scaled :
  forall (S X Y J W Ws U : Type) (o : sops S) (yo : vops S Y) (jo : vops S J) (recon : X -> Y)
    (fom : sfom) (phi : J) (f : Y -> S -> Y) (df : Y -> J -> S -> J) scaler (Sc : Y -> S -> Y -> Y) (ScJ : Y -> S -> J -> J)
    (solver : Ws -> X -> sol X Y J Ws) (Acc : Y -> option J -> Prop) (w0 : W) name cs cr (zero : Y) (x0 : X) (ws : Ws) g0
    (obs : Z -> S -> X -> U -> outcome unit * U),
  sfield o -> schar0 o -> vspace o yo -> vspace o jo -> fom_is fom f df -> scaler_is scaler Sc ScJ ->
  asks solver -> (forall ws y, certified_rj Acc (fun _ => False) (solver ws y)) ->
  lspg_create o name cs cr zero (fresh_policy w0) x0 ws = Ok g0 ->
  forall pl num start y0 w y' g' w' tr, Z.of_nat num < int32_max ->
  advance_n_steps o (mk_user (split_obs obs) (pol3 (split_pol pl)) noop_guess (split_step (implicit_fn (implicit_step o (scaled_policy (default_policy o yo jo recon fom phi) scaler) solver name))))
    (Z.of_nat num) start (y0, (g0, w), []) = (Ok tt, (y', (g', w'), tr)) ->
  exists t' d' l, length l = num /\
    linked_from (sadd o) (accepted_rj Acc (scaled_at o recon Sc (lspg_res o yo recon f name)) (scaled_at o recon ScJ (lspg_jacobian o jo recon df phi name))) start y0 ((t', d', y') :: l) /\
    reports tr = numbered ((t', d', y') :: l).
Proof. exact @n_steps_scaled. Qed.
Print Assumptions C80_n_steps_scaled.

Theorem C80_to_target_scaled :
  forall (S X Y J W Ws U : Type) (o : sops S) (yo : vops S Y) (jo : vops S J) (recon : X -> Y)
    (fom : sfom) (phi : J) (f : Y -> S -> Y) (df : Y -> J -> S -> J) scaler (Sc : Y -> S -> Y -> Y) (ScJ : Y -> S -> J -> J)
    (solver : Ws -> X -> sol X Y J Ws) (Acc : Y -> option J -> Prop) (w0 : W) name cs cr (zero : Y) (x0 : X) (ws : Ws) g0
    (obs : Z -> S -> X -> U -> outcome unit * U),
  sfield o -> schar0 o -> vspace o yo -> vspace o jo -> fom_is fom f df -> scaler_is scaler Sc ScJ ->
  asks solver -> (forall ws y, certified_rj Acc (fun _ => False) (solver ws y)) ->
  lspg_create o name cs cr zero (fresh_policy w0) x0 ws = Ok g0 ->
  (forall ws y, ends (fun r => r <> Throw ETimeStep) (solver ws y)) ->
  forall pl recovery fuel start final y0 w y' g' w' tr,
  to_target o (mk_user (split_obs obs) (split_pol pl) noop_guess (split_step (implicit_fn (implicit_step o (scaled_policy (default_policy o yo jo recon fom phi) scaler) solver name)))) recovery fuel
    start final (y0, (g0, w), []) = (Ok tt, (y', (g', w'), tr)) ->
  seqb o final start = false ->
  exists t' d' l, linked_from (sadd o) (accepted_rj Acc (scaled_at o recon Sc (lspg_res o yo recon f name)) (scaled_at o recon ScJ (lspg_jacobian o jo recon df phi name))) start y0 ((t', d', y') :: l) /\
    reports tr = numbered ((t', d', y') :: l).
Proof. exact @to_target_scaled. Qed.
Print Assumptions C80_to_target_scaled.

Theorem C80_n_steps_masked :
  forall (S X Y J R Jm W Ws U : Type) (o : sops S) (yo : vops S Y) (jo : vops S J) (recon : X -> Y)
    (fom : sfom) (phi : J) (f : Y -> S -> Y) (df : Y -> J -> S -> J) (m : masker) (K : Y -> R) (KJ : J -> Jm) ru ju
    (solver : Ws -> X -> sol X R Jm Ws) (Acc : R -> option Jm -> Prop) (w0 : W) name cs cr (zero : Y) (x0 : X) (ws : Ws) g0
    (obs : Z -> S -> X -> U -> outcome unit * U),
  sfield o -> schar0 o -> vspace o yo -> vspace o jo -> fom_is fom f df -> mask_is m K KJ ->
  asks solver -> (forall ws y, certified_rj Acc (fun _ => False) (solver ws y)) ->
  lspg_create o name cs cr zero (fresh_masked ru ju w0) x0 ws = Ok g0 ->
  forall pl num start y0 w y' g' w' tr, Z.of_nat num < int32_max ->
  advance_n_steps o (mk_user (split_obs obs) (pol3 (split_pol pl)) noop_guess (split_step (implicit_fn (implicit_step o (masked_policy (default_policy o yo jo recon fom phi) m) solver name))))
    (Z.of_nat num) start (y0, (g0, w), []) = (Ok tt, (y', (g', w'), tr)) ->
  exists t' d' l, length l = num /\
    linked_from (sadd o) (accepted_rj Acc (masked_at K (lspg_res o yo recon f name)) (masked_at KJ (lspg_jacobian o jo recon df phi name))) start y0 ((t', d', y') :: l) /\
    reports tr = numbered ((t', d', y') :: l).
Proof. exact @n_steps_masked. Qed.
Print Assumptions C80_n_steps_masked.

Theorem C80_to_target_masked :
  forall (S X Y J R Jm W Ws U : Type) (o : sops S) (yo : vops S Y) (jo : vops S J) (recon : X -> Y)
    (fom : sfom) (phi : J) (f : Y -> S -> Y) (df : Y -> J -> S -> J) (m : masker) (K : Y -> R) (KJ : J -> Jm) ru ju
    (solver : Ws -> X -> sol X R Jm Ws) (Acc : R -> option Jm -> Prop) (w0 : W) name cs cr (zero : Y) (x0 : X) (ws : Ws) g0
    (obs : Z -> S -> X -> U -> outcome unit * U),
  sfield o -> schar0 o -> vspace o yo -> vspace o jo -> fom_is fom f df -> mask_is m K KJ ->
  asks solver -> (forall ws y, certified_rj Acc (fun _ => False) (solver ws y)) ->
  lspg_create o name cs cr zero (fresh_masked ru ju w0) x0 ws = Ok g0 ->
  (forall ws y, ends (fun r => r <> Throw ETimeStep) (solver ws y)) ->
  forall pl recovery fuel start final y0 w y' g' w' tr,
  to_target o (mk_user (split_obs obs) (split_pol pl) noop_guess (split_step (implicit_fn (implicit_step o (masked_policy (default_policy o yo jo recon fom phi) m) solver name)))) recovery fuel
    start final (y0, (g0, w), []) = (Ok tt, (y', (g', w'), tr)) ->
  seqb o final start = false ->
  exists t' d' l, linked_from (sadd o) (accepted_rj Acc (masked_at K (lspg_res o yo recon f name)) (masked_at KJ (lspg_jacobian o jo recon df phi name))) start y0 ((t', d', y') :: l) /\
    reports tr = numbered ((t', d', y') :: l).
Proof. exact @to_target_masked. Qed.
Print Assumptions C80_to_target_masked.

Theorem C80_n_steps_hyper_reduced :
  forall (S X Y R J B W Ws U : Type) (o : sops S) (yo : vops S Y) (recon : X -> Y)
    (fom : sfom) (phi : B) (f : Y -> S -> R) (df : Y -> B -> S -> J) (up : updater) (Up : R -> S -> Y -> S -> R) (UpJ : J -> S -> B -> S -> J)
    (solver : Ws -> X -> sol X R J Ws) (Acc : R -> option J -> Prop) (w0 : W) name cs cr (zero : Y) (x0 : X) (ws : Ws) g0
    (obs : Z -> S -> X -> U -> outcome unit * U),
  sfield o -> schar0 o -> vspace o yo -> fom_is fom f df -> updater_is up Up UpJ ->
  asks solver -> (forall ws y, certified_rj Acc (fun _ => False) (solver ws y)) ->
  lspg_create o name cs cr zero (fresh_policy w0) x0 ws = Ok g0 ->
  forall pl num start y0 w y' g' w' tr, Z.of_nat num < int32_max ->
  advance_n_steps o (mk_user (split_obs obs) (pol3 (split_pol pl)) noop_guess (split_step (implicit_fn (implicit_step o (hypred_policy o yo recon fom phi up) solver name))))
    (Z.of_nat num) start (y0, (g0, w), []) = (Ok tt, (y', (g', w'), tr)) ->
  exists t' d' l, length l = num /\
    linked_from (sadd o) (accepted_rj Acc (hypred_res o yo recon f Up name) (hypred_jacobian o recon df phi UpJ name)) start y0 ((t', d', y') :: l) /\
    reports tr = numbered ((t', d', y') :: l).
Proof. exact @n_steps_hyper_reduced. Qed.
Print Assumptions C80_n_steps_hyper_reduced.

Theorem C80_to_target_hyper_reduced :
  forall (S X Y R J B W Ws U : Type) (o : sops S) (yo : vops S Y) (recon : X -> Y)
    (fom : sfom) (phi : B) (f : Y -> S -> R) (df : Y -> B -> S -> J) (up : updater) (Up : R -> S -> Y -> S -> R) (UpJ : J -> S -> B -> S -> J)
    (solver : Ws -> X -> sol X R J Ws) (Acc : R -> option J -> Prop) (w0 : W) name cs cr (zero : Y) (x0 : X) (ws : Ws) g0
    (obs : Z -> S -> X -> U -> outcome unit * U),
  sfield o -> schar0 o -> vspace o yo -> fom_is fom f df -> updater_is up Up UpJ ->
  asks solver -> (forall ws y, certified_rj Acc (fun _ => False) (solver ws y)) ->
  lspg_create o name cs cr zero (fresh_policy w0) x0 ws = Ok g0 ->
  (forall ws y, ends (fun r => r <> Throw ETimeStep) (solver ws y)) ->
  forall pl recovery fuel start final y0 w y' g' w' tr,
  to_target o (mk_user (split_obs obs) (split_pol pl) noop_guess (split_step (implicit_fn (implicit_step o (hypred_policy o yo recon fom phi up) solver name)))) recovery fuel
    start final (y0, (g0, w), []) = (Ok tt, (y', (g', w'), tr)) ->
  seqb o final start = false ->
  exists t' d' l, linked_from (sadd o) (accepted_rj Acc (hypred_res o yo recon f Up name) (hypred_jacobian o recon df phi UpJ name)) start y0 ((t', d', y') :: l) /\
    reports tr = numbered ((t', d', y') :: l).
Proof. exact @to_target_hyper_reduced. Qed.
Print Assumptions C80_to_target_hyper_reduced.

Theorem C80_n_steps_scaled_hyper_reduced :
  forall (S X Y R J B W Ws U : Type) (o : sops S) (yo : vops S Y) (recon : X -> Y)
    (fom : sfom) (phi : B) (f : Y -> S -> R) (df : Y -> B -> S -> J) (up : updater) (Up : R -> S -> Y -> S -> R) (UpJ : J -> S -> B -> S -> J)
    scaler (Sc : Y -> S -> R -> R) (ScJ : Y -> S -> J -> J)
    (solver : Ws -> X -> sol X R J Ws) (Acc : R -> option J -> Prop) (w0 : W) name cs cr (zero : Y) (x0 : X) (ws : Ws) g0
    (obs : Z -> S -> X -> U -> outcome unit * U),
  sfield o -> schar0 o -> vspace o yo -> fom_is fom f df -> updater_is up Up UpJ -> scaler_is scaler Sc ScJ ->
  asks solver -> (forall ws y, certified_rj Acc (fun _ => False) (solver ws y)) ->
  lspg_create o name cs cr zero (fresh_policy w0) x0 ws = Ok g0 ->
  forall pl num start y0 w y' g' w' tr, Z.of_nat num < int32_max ->
  advance_n_steps o (mk_user (split_obs obs) (pol3 (split_pol pl)) noop_guess (split_step (implicit_fn (implicit_step o (scaled_policy (hypred_policy o yo recon fom phi up) scaler) solver name))))
    (Z.of_nat num) start (y0, (g0, w), []) = (Ok tt, (y', (g', w'), tr)) ->
  exists t' d' l, length l = num /\
    linked_from (sadd o) (accepted_rj Acc (scaled_at o recon Sc (hypred_res o yo recon f Up name)) (scaled_at o recon ScJ (hypred_jacobian o recon df phi UpJ name))) start y0 ((t', d', y') :: l) /\
    reports tr = numbered ((t', d', y') :: l).
Proof. exact @n_steps_scaled_hyper_reduced. Qed.
Print Assumptions C80_n_steps_scaled_hyper_reduced.

Theorem C80_to_target_scaled_hyper_reduced :
  forall (S X Y R J B W Ws U : Type) (o : sops S) (yo : vops S Y) (recon : X -> Y)
    (fom : sfom) (phi : B) (f : Y -> S -> R) (df : Y -> B -> S -> J) (up : updater) (Up : R -> S -> Y -> S -> R) (UpJ : J -> S -> B -> S -> J)
    scaler (Sc : Y -> S -> R -> R) (ScJ : Y -> S -> J -> J)
    (solver : Ws -> X -> sol X R J Ws) (Acc : R -> option J -> Prop) (w0 : W) name cs cr (zero : Y) (x0 : X) (ws : Ws) g0
    (obs : Z -> S -> X -> U -> outcome unit * U),
  sfield o -> schar0 o -> vspace o yo -> fom_is fom f df -> updater_is up Up UpJ -> scaler_is scaler Sc ScJ ->
  asks solver -> (forall ws y, certified_rj Acc (fun _ => False) (solver ws y)) ->
  lspg_create o name cs cr zero (fresh_policy w0) x0 ws = Ok g0 ->
  (forall ws y, ends (fun r => r <> Throw ETimeStep) (solver ws y)) ->
  forall pl recovery fuel start final y0 w y' g' w' tr,
  to_target o (mk_user (split_obs obs) (split_pol pl) noop_guess (split_step (implicit_fn (implicit_step o (scaled_policy (hypred_policy o yo recon fom phi up) scaler) solver name)))) recovery fuel
    start final (y0, (g0, w), []) = (Ok tt, (y', (g', w'), tr)) ->
  seqb o final start = false ->
  exists t' d' l, linked_from (sadd o) (accepted_rj Acc (scaled_at o recon Sc (hypred_res o yo recon f Up name)) (scaled_at o recon ScJ (hypred_jacobian o recon df phi UpJ name))) start y0 ((t', d', y') :: l) /\
    reports tr = numbered ((t', d', y') :: l).
Proof. exact @to_target_scaled_hyper_reduced. Qed.
Print Assumptions C80_to_target_scaled_hyper_reduced.

Theorem C80_n_steps_fully_discrete :
  forall (S X Y R J B W Ws U : Type) (o : sops S) (recon : X -> Y)
    (dfom : Z -> S -> S -> R -> B -> option J -> Y -> list Y -> W -> outcome unit * (R * option J * W)) (phi : B)
    (Rd : Z -> S -> S -> Y -> list Y -> R) (Jd : Z -> S -> S -> Y -> list Y -> J)
    (solver : Ws -> X -> sol X R J Ws) (Acc : R -> option J -> Prop) (three : bool) cs (zero : Y) (q0 : W) (x0 : X) (ws : Ws) g0
    (obs : Z -> S -> X -> U -> outcome unit * U),
  dfom_is dfom phi Rd Jd ->
  asks solver -> (forall ws y, certified_rj Acc (fun _ => False) (solver ws y)) ->
  discrete_create o (total three) cs zero q0 x0 ws = Ok g0 ->
  forall pl num start y0 w y' g' w' tr, Z.of_nat num < int32_max ->
  advance_n_steps o (mk_user (split_obs obs) (pol3 (split_pol pl)) noop_guess (split_step (arb_fn (arb_step o (fd_system recon (total three) (lspg_discrete dfom phi)) solver (total three - 1)))))
    (Z.of_nat num) start (y0, (g0, w), []) = (Ok tt, (y', (g', w'), tr)) ->
  exists t' d' l, length l = num /\
    linked_from (sadd o) (accepted_rj Acc (discrete_at o recon zero three Rd) (discrete_at o recon zero three Jd)) start y0 ((t', d', y') :: l) /\
    reports tr = numbered ((t', d', y') :: l).
Proof. exact @n_steps_fully_discrete. Qed.
Print Assumptions C80_n_steps_fully_discrete.

Theorem C80_to_target_fully_discrete :
  forall (S X Y R J B W Ws U : Type) (o : sops S) (recon : X -> Y)
    (dfom : Z -> S -> S -> R -> B -> option J -> Y -> list Y -> W -> outcome unit * (R * option J * W)) (phi : B)
    (Rd : Z -> S -> S -> Y -> list Y -> R) (Jd : Z -> S -> S -> Y -> list Y -> J)
    (solver : Ws -> X -> sol X R J Ws) (Acc : R -> option J -> Prop) (three : bool) cs (zero : Y) (q0 : W) (x0 : X) (ws : Ws) g0
    (obs : Z -> S -> X -> U -> outcome unit * U),
  dfom_is dfom phi Rd Jd ->
  asks solver -> (forall ws y, certified_rj Acc (fun _ => False) (solver ws y)) ->
  discrete_create o (total three) cs zero q0 x0 ws = Ok g0 ->
  (forall ws y, ends (fun r => r <> Throw ETimeStep) (solver ws y)) ->
  forall pl recovery fuel start final y0 w y' g' w' tr,
  to_target o (mk_user (split_obs obs) (split_pol pl) noop_guess (split_step (arb_fn (arb_step o (fd_system recon (total three) (lspg_discrete dfom phi)) solver (total three - 1))))) recovery fuel
    start final (y0, (g0, w), []) = (Ok tt, (y', (g', w'), tr)) ->
  seqb o final start = false ->
  exists t' d' l, linked_from (sadd o) (accepted_rj Acc (discrete_at o recon zero three Rd) (discrete_at o recon zero three Jd)) start y0 ((t', d', y') :: l) /\
    reports tr = numbered ((t', d', y') :: l).
Proof. exact @to_target_fully_discrete. Qed.
Print Assumptions C80_to_target_fully_discrete.

Theorem C80_n_steps_galerkin_fully_discrete :
  forall (S X Y Rf Jf J B W Ws U : Type) (o : sops S) (xo : vops S X) (jo : vops S J) (recon : X -> Y)
    (dfom : Z -> S -> S -> Rf -> B -> option Jf -> Y -> list Y -> W -> outcome unit * (Rf * option Jf * W)) (phi : B)
    (Rd : Z -> S -> S -> Y -> list Y -> Rf) (Jd : Z -> S -> S -> Y -> list Y -> Jf) proj_R proj_J (P : S -> Rf -> X) (PJ : S -> Jf -> J)
    (solver : Ws -> X -> sol X X J Ws) (Acc : X -> option J -> Prop) (three : bool) cs (zero : Y) (q0 : Rf * Jf * W) (x0 : X) (ws : Ws) g0
    (obs : Z -> S -> X -> U -> outcome unit * U),
  vspace o xo -> vspace o jo -> dfom_is dfom phi Rd Jd -> projections o xo jo phi proj_R proj_J P PJ ->
  asks solver -> (forall ws y, certified_rj Acc (fun _ => False) (solver ws y)) ->
  discrete_create o (total three) cs zero q0 x0 ws = Ok g0 ->
  forall pl num start y0 w y' g' w' tr, Z.of_nat num < int32_max ->
  advance_n_steps o (mk_user (split_obs obs) (pol3 (split_pol pl)) noop_guess (split_step (arb_fn (arb_step o (fd_system recon (total three) (galerkin_discrete dfom phi proj_R proj_J)) solver (total three - 1)))))
    (Z.of_nat num) start (y0, (g0, w), []) = (Ok tt, (y', (g', w'), tr)) ->
  exists t' d' l, length l = num /\
    linked_from (sadd o) (accepted_rj Acc (projected_at o recon zero three P Rd) (projected_at o recon zero three PJ Jd)) start y0 ((t', d', y') :: l) /\
    reports tr = numbered ((t', d', y') :: l).
Proof. exact @n_steps_galerkin_fully_discrete. Qed.
Print Assumptions C80_n_steps_galerkin_fully_discrete.

Theorem C80_to_target_galerkin_fully_discrete :
  forall (S X Y Rf Jf J B W Ws U : Type) (o : sops S) (xo : vops S X) (jo : vops S J) (recon : X -> Y)
    (dfom : Z -> S -> S -> Rf -> B -> option Jf -> Y -> list Y -> W -> outcome unit * (Rf * option Jf * W)) (phi : B)
    (Rd : Z -> S -> S -> Y -> list Y -> Rf) (Jd : Z -> S -> S -> Y -> list Y -> Jf) proj_R proj_J (P : S -> Rf -> X) (PJ : S -> Jf -> J)
    (solver : Ws -> X -> sol X X J Ws) (Acc : X -> option J -> Prop) (three : bool) cs (zero : Y) (q0 : Rf * Jf * W) (x0 : X) (ws : Ws) g0
    (obs : Z -> S -> X -> U -> outcome unit * U),
  vspace o xo -> vspace o jo -> dfom_is dfom phi Rd Jd -> projections o xo jo phi proj_R proj_J P PJ ->
  asks solver -> (forall ws y, certified_rj Acc (fun _ => False) (solver ws y)) ->
  discrete_create o (total three) cs zero q0 x0 ws = Ok g0 ->
  (forall ws y, ends (fun r => r <> Throw ETimeStep) (solver ws y)) ->
  forall pl recovery fuel start final y0 w y' g' w' tr,
  to_target o (mk_user (split_obs obs) (split_pol pl) noop_guess (split_step (arb_fn (arb_step o (fd_system recon (total three) (galerkin_discrete dfom phi proj_R proj_J)) solver (total three - 1))))) recovery fuel
    start final (y0, (g0, w), []) = (Ok tt, (y', (g', w'), tr)) ->
  seqb o final start = false ->
  exists t' d' l, linked_from (sadd o) (accepted_rj Acc (projected_at o recon zero three P Rd) (projected_at o recon zero three PJ Jd)) start y0 ((t', d', y') :: l) /\
    reports tr = numbered ((t', d', y') :: l).
Proof. exact @to_target_galerkin_fully_discrete. Qed.
Print Assumptions C80_to_target_galerkin_fully_discrete.


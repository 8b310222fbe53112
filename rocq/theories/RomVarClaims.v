(** C98. *)
From Coq Require Import Reals ZArith List.
From Verif Require Import Base RInst Laws LawInst AdvanceModel AdvanceSpec AdvanceProofs TargetProofs Track ExplicitModel ImplicitModel ImplicitSpec
  NonlinDiag NonlinModel NonlinSpec NonlinLaws NewtonSpec NewtonRunSpec NewtonRunProofs NewtonRunSteps GaussSpec GaussProofs LspgModel RomSpec LspgSpec GalerkinModel GalerkinSpec RomRunSpec LspgGnSpec RomVarSpec LspgProofs LspgInst LspgClaims LspgAsks GalerkinProofs RomRunProofs LspgGnProofs RomVarProofs.
Import ListNotations.
Local Open Scope R_scope.

Lemma scaled_each_n_steps :
  forall (eps : R) (X Y J H L W U : Type),
  forall (yo : vops R Y) (jo : vops R J), vspace (Rops eps) yo -> vspace (Rops eps) jo ->
  forall (recon : X -> Y) (fom : sfom (S:=R) (Y:=Y) (R:=Y) (J:=J) (B:=J) (W:=W)) (phi : J) (f : Y -> R -> Y) (df : Y -> J -> R -> J), fom_is fom f df -> fom_returns fom phi ->
  forall scaler (Sc : Y -> R -> Y -> Y) (ScJ : Y -> R -> J -> J), scaler_is scaler Sc ScJ -> scaler_returns scaler ->
  forall (no : nlops R X Y J H) (ro : vops R Y) (ap : J -> X -> Y) (apH : H -> X -> X), nl_laws eps no ro ap apH ->
  forall xt : exts X Y J H L,
  linear_ok xt (if_solvable (normal_exact apH)) (if_solvable (qr_exact no ap)) (if_solvable (newton_exact ap)) nothing ->
  forall wr wj, weights_ok xt wr wj nothing ->
  forall tag cf, gauss_newton tag cf ->
  forall (obs : Z -> R -> X -> U -> outcome unit * U) w0 name cs cr zero x0 ws g0,
  ls_object (Rops eps) ws -> lspg_create (Rops eps) name cs cr zero (fresh_policy w0) x0 ws = Ok g0 ->
  let o := Rops eps in
  let step := implicit_step o (scaled_policy (default_policy o yo jo recon fom phi) scaler) (as_solver (ls_solve o no xt tag cf)) name in
  let near_best := lands_each no ro ap apH tag cf (scaled_at o recon Sc (lspg_res o yo recon f name)) (scaled_at o recon ScJ (lspg_jacobian o jo recon df phi name)) in
  forall pol num start y0 w, (Z.of_nat num < int32_max)%Z ->
  (forall k t y u, fst (obs k t y u) = Ok tt) -> (forall k t d u, exists dt, fst (pol k t d u) = Ok dt) ->
  exists y' g' w' tr l,
    advance_n_steps o (mk_user (split_obs obs) (pol3 (split_pol pol)) noop_guess (split_step (implicit_fn step)))
      (Z.of_nat num) start (y0, (g0, w), []) = (Ok tt, (y', (g', w'), tr)) /\
    length l = S num /\ reports tr = numbered l /\ hd y0 (map snd l) = y' /\ linked_from Rplus near_best start y0 l.
Proof.
  intros eps X Y J H L W U yo jo HY HJ recon fom phi f df Hf Hft scaler Sc ScJ Hs Hst no ro ap apH HL xt Hlin wr wj Hw tag cf Hcf obs w0 name cs cr zero x0 ws g0 Hws HE o step near_best pol num start y0 w Hn Ho Hp.
  refine (@semi_each_n_steps eps _ _ _ _ _ (as_solver (ls_solve (Rops eps) no xt tag cf)) (gn_asks' no xt tag cf Hcf) (ls_object (Rops eps)) (lands no ro ap apH tag cf)
    (fun Q rj F DF ws y w => gn_lands no ro ap apH HL xt Hlin wr wj Hw tag cf Hcf rj F DF ws y w) obs Ho _ _ _ recon lp_h lp_w (scaled_policy (default_policy o yo jo recon fom phi) scaler)
    (scaled_problem o recon (problem_one o recon (lspg_one o yo jo fom phi)) scaler) (scaled_problem o recon (problem_two o recon (lspg_one o yo jo fom phi) (lspg_two o yo jo fom phi)) scaler)
    (fresh_policy w0) w0 _ _ _ (fun nm => (scaled_at o recon Sc (lspg_res o yo recon f nm))) (fun nm => (scaled_at o recon ScJ (lspg_jacobian o jo recon df phi nm))) _ _ _ _ name cs cr zero x0 ws g0 Hws HE pol num start y0 w Hn Hp).
  - intros d. split; reflexivity.
  - (apply through_scaled, T_default1; first [assumption|apply R_field|apply R_char0]).
  - (apply through_scaled, T_default2; first [assumption|apply R_field|apply R_char0]).
  - (apply scaled_gives; [assumption|apply default_gives1; assumption]).
  - (apply scaled_gives; [assumption|apply default_gives2; assumption]).
  - (apply scaled_never; [assumption|apply default_never1; assumption]).
  - (apply scaled_never; [assumption|apply default_never2; assumption]).
Qed.
Lemma scaled_each_target :
  forall (eps : R) (X Y J H L W U : Type),
  forall (yo : vops R Y) (jo : vops R J), vspace (Rops eps) yo -> vspace (Rops eps) jo ->
  forall (recon : X -> Y) (fom : sfom (S:=R) (Y:=Y) (R:=Y) (J:=J) (B:=J) (W:=W)) (phi : J) (f : Y -> R -> Y) (df : Y -> J -> R -> J), fom_is fom f df -> fom_returns fom phi ->
  forall scaler (Sc : Y -> R -> Y -> Y) (ScJ : Y -> R -> J -> J), scaler_is scaler Sc ScJ -> scaler_returns scaler ->
  forall (no : nlops R X Y J H) (ro : vops R Y) (ap : J -> X -> Y) (apH : H -> X -> X), nl_laws eps no ro ap apH ->
  forall xt : exts X Y J H L,
  linear_ok xt (if_solvable (normal_exact apH)) (if_solvable (qr_exact no ap)) (if_solvable (newton_exact ap)) nothing ->
  forall wr wj, weights_ok xt wr wj nothing ->
  forall tag cf, gauss_newton tag cf ->
  forall (obs : Z -> R -> X -> U -> outcome unit * U) w0 name cs cr zero x0 ws g0,
  ls_object (Rops eps) ws -> lspg_create (Rops eps) name cs cr zero (fresh_policy w0) x0 ws = Ok g0 ->
  let o := Rops eps in
  let step := implicit_step o (scaled_policy (default_policy o yo jo recon fom phi) scaler) (as_solver (ls_solve o no xt tag cf)) name in
  let near_best := lands_each no ro ap apH tag cf (scaled_at o recon Sc (lspg_res o yo recon f name)) (scaled_at o recon ScJ (lspg_jacobian o jo recon df phi name)) in
  forall pol recovery h n fuel start final y0 w,
  0 <= eps -> (forall k t y u, fst (obs k t y u) = Ok tt) ->
  (forall k t x u, exists dt m c, fst (pol k t x u) = Ok (dt, m, c) /\ h <= dt /\ m <= dt /\ (recovery = true -> 1 < c)) ->
  start < final -> final - start <= INR n * h -> (n < fuel)%nat -> (Z.of_nat n < int32_max)%Z ->
  exists y' g' w' tr l,
    to_target o (mk_user (split_obs obs) (split_pol pol) noop_guess (split_step (implicit_fn step))) recovery fuel
      start final (y0, (g0, w), []) = (Ok tt, (y', (g', w'), tr)) /\
    reports tr = numbered l /\ hd y0 (map snd l) = y' /\ linked_from Rplus near_best start y0 l.
Proof.
  intros eps X Y J H L W U yo jo HY HJ recon fom phi f df Hf Hft scaler Sc ScJ Hs Hst no ro ap apH HL xt Hlin wr wj Hw tag cf Hcf obs w0 name cs cr zero x0 ws g0 Hws HE o step near_best pol recovery h n fuel start final y0 w He Ho Hp Hlt Hn Hf' Hm'.
  refine (@semi_each_target eps _ _ _ _ _ (as_solver (ls_solve (Rops eps) no xt tag cf)) (gn_asks' no xt tag cf Hcf) (ls_object (Rops eps)) (lands no ro ap apH tag cf)
    (fun Q rj F DF ws y w => gn_lands no ro ap apH HL xt Hlin wr wj Hw tag cf Hcf rj F DF ws y w) obs Ho _ _ _ recon lp_h lp_w (scaled_policy (default_policy o yo jo recon fom phi) scaler)
    (scaled_problem o recon (problem_one o recon (lspg_one o yo jo fom phi)) scaler) (scaled_problem o recon (problem_two o recon (lspg_one o yo jo fom phi) (lspg_two o yo jo fom phi)) scaler)
    (fresh_policy w0) w0 _ _ _ (fun nm => (scaled_at o recon Sc (lspg_res o yo recon f nm))) (fun nm => (scaled_at o recon ScJ (lspg_jacobian o jo recon df phi nm))) _ _ _ _ name cs cr zero x0 ws g0 Hws HE pol recovery h n fuel start final y0 w He Hp Hlt Hn Hf' Hm').
  - intros d. split; reflexivity.
  - (apply through_scaled, T_default1; first [assumption|apply R_field|apply R_char0]).
  - (apply through_scaled, T_default2; first [assumption|apply R_field|apply R_char0]).
  - (apply scaled_gives; [assumption|apply default_gives1; assumption]).
  - (apply scaled_gives; [assumption|apply default_gives2; assumption]).
  - (apply scaled_never; [assumption|apply default_never1; assumption]).
  - (apply scaled_never; [assumption|apply default_never2; assumption]).
Qed.
Lemma masked_each_n_steps :
  forall (eps : R) (X Y J Rs Jm H L W U : Type),
  forall (yo : vops R Y) (jo : vops R J), vspace (Rops eps) yo -> vspace (Rops eps) jo ->
  forall (recon : X -> Y) (fom : sfom (S:=R) (Y:=Y) (R:=Y) (J:=J) (B:=J) (W:=W)) (phi : J) (f : Y -> R -> Y) (df : Y -> J -> R -> J), fom_is fom f df -> fom_returns fom phi ->
  forall (m : masker (Ru:=Y) (Ju:=J) (R:=Rs) (J:=Jm) (W:=W)) (K : Y -> Rs) (KJ : J -> Jm), mask_is m K KJ -> mask_returns m ->
  forall (no : nlops R X Rs Jm H) (ro : vops R Rs) (ap : Jm -> X -> Rs) (apH : H -> X -> X), nl_laws eps no ro ap apH ->
  forall xt : exts X Rs Jm H L,
  linear_ok xt (if_solvable (normal_exact apH)) (if_solvable (qr_exact no ap)) (if_solvable (newton_exact ap)) nothing ->
  forall wr wj, weights_ok xt wr wj nothing ->
  forall tag cf, gauss_newton tag cf ->
  forall (obs : Z -> R -> X -> U -> outcome unit * U) ru ju w0 name cs cr zero x0 ws g0,
  ls_object (Rops eps) ws -> lspg_create (Rops eps) name cs cr zero (fresh_masked ru ju w0) x0 ws = Ok g0 ->
  let o := Rops eps in
  let step := implicit_step o (masked_policy (default_policy o yo jo recon fom phi) m) (as_solver (ls_solve o no xt tag cf)) name in
  let near_best := lands_each no ro ap apH tag cf (masked_at K (lspg_res o yo recon f name)) (masked_at KJ (lspg_jacobian o jo recon df phi name)) in
  forall pol num start y0 w, (Z.of_nat num < int32_max)%Z ->
  (forall k t y u, fst (obs k t y u) = Ok tt) -> (forall k t d u, exists dt, fst (pol k t d u) = Ok dt) ->
  exists y' g' w' tr l,
    advance_n_steps o (mk_user (split_obs obs) (pol3 (split_pol pol)) noop_guess (split_step (implicit_fn step)))
      (Z.of_nat num) start (y0, (g0, w), []) = (Ok tt, (y', (g', w'), tr)) /\
    length l = S num /\ reports tr = numbered l /\ hd y0 (map snd l) = y' /\ linked_from Rplus near_best start y0 l.
Proof.
  intros eps X Y J Rs Jm H L W U yo jo HY HJ recon fom phi f df Hf Hft m K KJ Hm Hmt no ro ap apH HL xt Hlin wr wj Hw tag cf Hcf obs ru ju w0 name cs cr zero x0 ws g0 Hws HE o step near_best pol num start y0 w Hn Ho Hp.
  refine (@semi_each_n_steps eps _ _ _ _ _ (as_solver (ls_solve (Rops eps) no xt tag cf)) (gn_asks' no xt tag cf Hcf) (ls_object (Rops eps)) (lands no ro ap apH tag cf)
    (fun Q rj F DF ws y w => gn_lands no ro ap apH HL xt Hlin wr wj Hw tag cf Hcf rj F DF ws y w) obs Ho _ _ _ recon mk_hist mk_rest (masked_policy (default_policy o yo jo recon fom phi) m)
    (masked_problem (problem_one o recon (lspg_one o yo jo fom phi)) m) (masked_problem (problem_two o recon (lspg_one o yo jo fom phi) (lspg_two o yo jo fom phi)) m)
    (fresh_masked ru ju w0) (ru, ju, w0) _ _ _ (fun nm => (masked_at K (lspg_res o yo recon f nm))) (fun nm => (masked_at KJ (lspg_jacobian o jo recon df phi nm))) _ _ _ _ name cs cr zero x0 ws g0 Hws HE pol num start y0 w Hn Hp).
  - intros d. split; reflexivity.
  - (apply through_masked, T_default1; first [assumption|apply R_field|apply R_char0]).
  - (apply through_masked, T_default2; first [assumption|apply R_field|apply R_char0]).
  - (apply masked_gives; [assumption|apply default_gives1; assumption]).
  - (apply masked_gives; [assumption|apply default_gives2; assumption]).
  - (apply masked_never; [assumption|apply default_never1; assumption]).
  - (apply masked_never; [assumption|apply default_never2; assumption]).
Qed.
Lemma masked_each_target :
  forall (eps : R) (X Y J Rs Jm H L W U : Type),
  forall (yo : vops R Y) (jo : vops R J), vspace (Rops eps) yo -> vspace (Rops eps) jo ->
  forall (recon : X -> Y) (fom : sfom (S:=R) (Y:=Y) (R:=Y) (J:=J) (B:=J) (W:=W)) (phi : J) (f : Y -> R -> Y) (df : Y -> J -> R -> J), fom_is fom f df -> fom_returns fom phi ->
  forall (m : masker (Ru:=Y) (Ju:=J) (R:=Rs) (J:=Jm) (W:=W)) (K : Y -> Rs) (KJ : J -> Jm), mask_is m K KJ -> mask_returns m ->
  forall (no : nlops R X Rs Jm H) (ro : vops R Rs) (ap : Jm -> X -> Rs) (apH : H -> X -> X), nl_laws eps no ro ap apH ->
  forall xt : exts X Rs Jm H L,
  linear_ok xt (if_solvable (normal_exact apH)) (if_solvable (qr_exact no ap)) (if_solvable (newton_exact ap)) nothing ->
  forall wr wj, weights_ok xt wr wj nothing ->
  forall tag cf, gauss_newton tag cf ->
  forall (obs : Z -> R -> X -> U -> outcome unit * U) ru ju w0 name cs cr zero x0 ws g0,
  ls_object (Rops eps) ws -> lspg_create (Rops eps) name cs cr zero (fresh_masked ru ju w0) x0 ws = Ok g0 ->
  let o := Rops eps in
  let step := implicit_step o (masked_policy (default_policy o yo jo recon fom phi) m) (as_solver (ls_solve o no xt tag cf)) name in
  let near_best := lands_each no ro ap apH tag cf (masked_at K (lspg_res o yo recon f name)) (masked_at KJ (lspg_jacobian o jo recon df phi name)) in
  forall pol recovery h n fuel start final y0 w,
  0 <= eps -> (forall k t y u, fst (obs k t y u) = Ok tt) ->
  (forall k t x u, exists dt m c, fst (pol k t x u) = Ok (dt, m, c) /\ h <= dt /\ m <= dt /\ (recovery = true -> 1 < c)) ->
  start < final -> final - start <= INR n * h -> (n < fuel)%nat -> (Z.of_nat n < int32_max)%Z ->
  exists y' g' w' tr l,
    to_target o (mk_user (split_obs obs) (split_pol pol) noop_guess (split_step (implicit_fn step))) recovery fuel
      start final (y0, (g0, w), []) = (Ok tt, (y', (g', w'), tr)) /\
    reports tr = numbered l /\ hd y0 (map snd l) = y' /\ linked_from Rplus near_best start y0 l.
Proof.
  intros eps X Y J Rs Jm H L W U yo jo HY HJ recon fom phi f df Hf Hft m K KJ Hm Hmt no ro ap apH HL xt Hlin wr wj Hw tag cf Hcf obs ru ju w0 name cs cr zero x0 ws g0 Hws HE o step near_best pol recovery h n fuel start final y0 w He Ho Hp Hlt Hn Hf' Hm'.
  refine (@semi_each_target eps _ _ _ _ _ (as_solver (ls_solve (Rops eps) no xt tag cf)) (gn_asks' no xt tag cf Hcf) (ls_object (Rops eps)) (lands no ro ap apH tag cf)
    (fun Q rj F DF ws y w => gn_lands no ro ap apH HL xt Hlin wr wj Hw tag cf Hcf rj F DF ws y w) obs Ho _ _ _ recon mk_hist mk_rest (masked_policy (default_policy o yo jo recon fom phi) m)
    (masked_problem (problem_one o recon (lspg_one o yo jo fom phi)) m) (masked_problem (problem_two o recon (lspg_one o yo jo fom phi) (lspg_two o yo jo fom phi)) m)
    (fresh_masked ru ju w0) (ru, ju, w0) _ _ _ (fun nm => (masked_at K (lspg_res o yo recon f nm))) (fun nm => (masked_at KJ (lspg_jacobian o jo recon df phi nm))) _ _ _ _ name cs cr zero x0 ws g0 Hws HE pol recovery h n fuel start final y0 w He Hp Hlt Hn Hf' Hm').
  - intros d. split; reflexivity.
  - (apply through_masked, T_default1; first [assumption|apply R_field|apply R_char0]).
  - (apply through_masked, T_default2; first [assumption|apply R_field|apply R_char0]).
  - (apply masked_gives; [assumption|apply default_gives1; assumption]).
  - (apply masked_gives; [assumption|apply default_gives2; assumption]).
  - (apply masked_never; [assumption|apply default_never1; assumption]).
  - (apply masked_never; [assumption|apply default_never2; assumption]).
Qed.
Lemma hyper_reduced_each_n_steps :
  forall (eps : R) (X Y Rs J B H L W U : Type),
  forall (yo : vops R Y), vspace (Rops eps) yo ->
  forall (recon : X -> Y) (fom : sfom (S:=R) (Y:=Y) (R:=Rs) (J:=J) (B:=B) (W:=W)) (phi : B) (f : Y -> R -> Rs) (df : Y -> B -> R -> J), fom_is fom f df -> fom_returns fom phi ->
  forall up (Up : Rs -> R -> Y -> R -> Rs) (UpJ : J -> R -> B -> R -> J), updater_is up Up UpJ -> updater_returns up ->
  forall (no : nlops R X Rs J H) (ro : vops R Rs) (ap : J -> X -> Rs) (apH : H -> X -> X), nl_laws eps no ro ap apH ->
  forall xt : exts X Rs J H L,
  linear_ok xt (if_solvable (normal_exact apH)) (if_solvable (qr_exact no ap)) (if_solvable (newton_exact ap)) nothing ->
  forall wr wj, weights_ok xt wr wj nothing ->
  forall tag cf, gauss_newton tag cf ->
  forall (obs : Z -> R -> X -> U -> outcome unit * U) w0 name cs cr zero x0 ws g0,
  ls_object (Rops eps) ws -> lspg_create (Rops eps) name cs cr zero (fresh_policy w0) x0 ws = Ok g0 ->
  let o := Rops eps in
  let step := implicit_step o (hypred_policy o yo recon fom phi up) (as_solver (ls_solve o no xt tag cf)) name in
  let near_best := lands_each no ro ap apH tag cf (hypred_res o yo recon f Up name) (hypred_jacobian o recon df phi UpJ name) in
  forall pol num start y0 w, (Z.of_nat num < int32_max)%Z ->
  (forall k t y u, fst (obs k t y u) = Ok tt) -> (forall k t d u, exists dt, fst (pol k t d u) = Ok dt) ->
  exists y' g' w' tr l,
    advance_n_steps o (mk_user (split_obs obs) (pol3 (split_pol pol)) noop_guess (split_step (implicit_fn step)))
      (Z.of_nat num) start (y0, (g0, w), []) = (Ok tt, (y', (g', w'), tr)) /\
    length l = S num /\ reports tr = numbered l /\ hd y0 (map snd l) = y' /\ linked_from Rplus near_best start y0 l.
Proof.
  intros eps X Y Rs J B H L W U yo HY recon fom phi f df Hf Hft up Up UpJ Hu Hut no ro ap apH HL xt Hlin wr wj Hw tag cf Hcf obs w0 name cs cr zero x0 ws g0 Hws HE o step near_best pol num start y0 w Hn Ho Hp.
  refine (@semi_each_n_steps eps _ _ _ _ _ (as_solver (ls_solve (Rops eps) no xt tag cf)) (gn_asks' no xt tag cf Hcf) (ls_object (Rops eps)) (lands no ro ap apH tag cf)
    (fun Q rj F DF ws y w => gn_lands no ro ap apH HL xt Hlin wr wj Hw tag cf Hcf rj F DF ws y w) obs Ho _ _ _ recon lp_h lp_w (hypred_policy o yo recon fom phi up)
    (problem_one o recon (hypred_one o yo fom phi up)) (problem_two o recon (hypred_one o yo fom phi up) (hypred_two o yo fom phi up))
    (fresh_policy w0) w0 _ _ _ (fun nm => (hypred_res o yo recon f Up nm)) (fun nm => (hypred_jacobian o recon df phi UpJ nm)) _ _ _ _ name cs cr zero x0 ws g0 Hws HE pol num start y0 w Hn Hp).
  - intros d. split; reflexivity.
  - (apply T_hypred1; first [assumption|apply R_field|apply R_char0]).
  - (apply T_hypred2; first [assumption|apply R_field|apply R_char0]).
  - (apply hypred_gives1; assumption).
  - (apply hypred_gives2; assumption).
  - (apply hypred_never1; assumption).
  - (apply hypred_never2; assumption).
Qed.
Lemma hyper_reduced_each_target :
  forall (eps : R) (X Y Rs J B H L W U : Type),
  forall (yo : vops R Y), vspace (Rops eps) yo ->
  forall (recon : X -> Y) (fom : sfom (S:=R) (Y:=Y) (R:=Rs) (J:=J) (B:=B) (W:=W)) (phi : B) (f : Y -> R -> Rs) (df : Y -> B -> R -> J), fom_is fom f df -> fom_returns fom phi ->
  forall up (Up : Rs -> R -> Y -> R -> Rs) (UpJ : J -> R -> B -> R -> J), updater_is up Up UpJ -> updater_returns up ->
  forall (no : nlops R X Rs J H) (ro : vops R Rs) (ap : J -> X -> Rs) (apH : H -> X -> X), nl_laws eps no ro ap apH ->
  forall xt : exts X Rs J H L,
  linear_ok xt (if_solvable (normal_exact apH)) (if_solvable (qr_exact no ap)) (if_solvable (newton_exact ap)) nothing ->
  forall wr wj, weights_ok xt wr wj nothing ->
  forall tag cf, gauss_newton tag cf ->
  forall (obs : Z -> R -> X -> U -> outcome unit * U) w0 name cs cr zero x0 ws g0,
  ls_object (Rops eps) ws -> lspg_create (Rops eps) name cs cr zero (fresh_policy w0) x0 ws = Ok g0 ->
  let o := Rops eps in
  let step := implicit_step o (hypred_policy o yo recon fom phi up) (as_solver (ls_solve o no xt tag cf)) name in
  let near_best := lands_each no ro ap apH tag cf (hypred_res o yo recon f Up name) (hypred_jacobian o recon df phi UpJ name) in
  forall pol recovery h n fuel start final y0 w,
  0 <= eps -> (forall k t y u, fst (obs k t y u) = Ok tt) ->
  (forall k t x u, exists dt m c, fst (pol k t x u) = Ok (dt, m, c) /\ h <= dt /\ m <= dt /\ (recovery = true -> 1 < c)) ->
  start < final -> final - start <= INR n * h -> (n < fuel)%nat -> (Z.of_nat n < int32_max)%Z ->
  exists y' g' w' tr l,
    to_target o (mk_user (split_obs obs) (split_pol pol) noop_guess (split_step (implicit_fn step))) recovery fuel
      start final (y0, (g0, w), []) = (Ok tt, (y', (g', w'), tr)) /\
    reports tr = numbered l /\ hd y0 (map snd l) = y' /\ linked_from Rplus near_best start y0 l.
Proof.
  intros eps X Y Rs J B H L W U yo HY recon fom phi f df Hf Hft up Up UpJ Hu Hut no ro ap apH HL xt Hlin wr wj Hw tag cf Hcf obs w0 name cs cr zero x0 ws g0 Hws HE o step near_best pol recovery h n fuel start final y0 w He Ho Hp Hlt Hn Hf' Hm'.
  refine (@semi_each_target eps _ _ _ _ _ (as_solver (ls_solve (Rops eps) no xt tag cf)) (gn_asks' no xt tag cf Hcf) (ls_object (Rops eps)) (lands no ro ap apH tag cf)
    (fun Q rj F DF ws y w => gn_lands no ro ap apH HL xt Hlin wr wj Hw tag cf Hcf rj F DF ws y w) obs Ho _ _ _ recon lp_h lp_w (hypred_policy o yo recon fom phi up)
    (problem_one o recon (hypred_one o yo fom phi up)) (problem_two o recon (hypred_one o yo fom phi up) (hypred_two o yo fom phi up))
    (fresh_policy w0) w0 _ _ _ (fun nm => (hypred_res o yo recon f Up nm)) (fun nm => (hypred_jacobian o recon df phi UpJ nm)) _ _ _ _ name cs cr zero x0 ws g0 Hws HE pol recovery h n fuel start final y0 w He Hp Hlt Hn Hf' Hm').
  - intros d. split; reflexivity.
  - (apply T_hypred1; first [assumption|apply R_field|apply R_char0]).
  - (apply T_hypred2; first [assumption|apply R_field|apply R_char0]).
  - (apply hypred_gives1; assumption).
  - (apply hypred_gives2; assumption).
  - (apply hypred_never1; assumption).
  - (apply hypred_never2; assumption).
Qed.
Lemma scaled_hyper_reduced_each_n_steps :
  forall (eps : R) (X Y Rs J B H L W U : Type),
  forall (yo : vops R Y), vspace (Rops eps) yo ->
  forall (recon : X -> Y) (fom : sfom (S:=R) (Y:=Y) (R:=Rs) (J:=J) (B:=B) (W:=W)) (phi : B) (f : Y -> R -> Rs) (df : Y -> B -> R -> J), fom_is fom f df -> fom_returns fom phi ->
  forall up (Up : Rs -> R -> Y -> R -> Rs) (UpJ : J -> R -> B -> R -> J), updater_is up Up UpJ -> updater_returns up ->
  forall scaler (Sc : Y -> R -> Rs -> Rs) (ScJ : Y -> R -> J -> J), scaler_is scaler Sc ScJ -> scaler_returns scaler ->
  forall (no : nlops R X Rs J H) (ro : vops R Rs) (ap : J -> X -> Rs) (apH : H -> X -> X), nl_laws eps no ro ap apH ->
  forall xt : exts X Rs J H L,
  linear_ok xt (if_solvable (normal_exact apH)) (if_solvable (qr_exact no ap)) (if_solvable (newton_exact ap)) nothing ->
  forall wr wj, weights_ok xt wr wj nothing ->
  forall tag cf, gauss_newton tag cf ->
  forall (obs : Z -> R -> X -> U -> outcome unit * U) w0 name cs cr zero x0 ws g0,
  ls_object (Rops eps) ws -> lspg_create (Rops eps) name cs cr zero (fresh_policy w0) x0 ws = Ok g0 ->
  let o := Rops eps in
  let step := implicit_step o (scaled_policy (hypred_policy o yo recon fom phi up) scaler) (as_solver (ls_solve o no xt tag cf)) name in
  let near_best := lands_each no ro ap apH tag cf (scaled_at o recon Sc (hypred_res o yo recon f Up name)) (scaled_at o recon ScJ (hypred_jacobian o recon df phi UpJ name)) in
  forall pol num start y0 w, (Z.of_nat num < int32_max)%Z ->
  (forall k t y u, fst (obs k t y u) = Ok tt) -> (forall k t d u, exists dt, fst (pol k t d u) = Ok dt) ->
  exists y' g' w' tr l,
    advance_n_steps o (mk_user (split_obs obs) (pol3 (split_pol pol)) noop_guess (split_step (implicit_fn step)))
      (Z.of_nat num) start (y0, (g0, w), []) = (Ok tt, (y', (g', w'), tr)) /\
    length l = S num /\ reports tr = numbered l /\ hd y0 (map snd l) = y' /\ linked_from Rplus near_best start y0 l.
Proof.
  intros eps X Y Rs J B H L W U yo HY recon fom phi f df Hf Hft up Up UpJ Hu Hut scaler Sc ScJ Hs Hst no ro ap apH HL xt Hlin wr wj Hw tag cf Hcf obs w0 name cs cr zero x0 ws g0 Hws HE o step near_best pol num start y0 w Hn Ho Hp.
  refine (@semi_each_n_steps eps _ _ _ _ _ (as_solver (ls_solve (Rops eps) no xt tag cf)) (gn_asks' no xt tag cf Hcf) (ls_object (Rops eps)) (lands no ro ap apH tag cf)
    (fun Q rj F DF ws y w => gn_lands no ro ap apH HL xt Hlin wr wj Hw tag cf Hcf rj F DF ws y w) obs Ho _ _ _ recon lp_h lp_w (scaled_policy (hypred_policy o yo recon fom phi up) scaler)
    (scaled_problem o recon (problem_one o recon (hypred_one o yo fom phi up)) scaler) (scaled_problem o recon (problem_two o recon (hypred_one o yo fom phi up) (hypred_two o yo fom phi up)) scaler)
    (fresh_policy w0) w0 _ _ _ (fun nm => (scaled_at o recon Sc (hypred_res o yo recon f Up nm))) (fun nm => (scaled_at o recon ScJ (hypred_jacobian o recon df phi UpJ nm))) _ _ _ _ name cs cr zero x0 ws g0 Hws HE pol num start y0 w Hn Hp).
  - intros d. split; reflexivity.
  - (apply through_scaled, T_hypred1; first [assumption|apply R_field|apply R_char0]).
  - (apply through_scaled, T_hypred2; first [assumption|apply R_field|apply R_char0]).
  - (apply scaled_gives; [assumption|apply hypred_gives1; assumption]).
  - (apply scaled_gives; [assumption|apply hypred_gives2; assumption]).
  - (apply scaled_never; [assumption|apply hypred_never1; assumption]).
  - (apply scaled_never; [assumption|apply hypred_never2; assumption]).
Qed.
Lemma scaled_hyper_reduced_each_target :
  forall (eps : R) (X Y Rs J B H L W U : Type),
  forall (yo : vops R Y), vspace (Rops eps) yo ->
  forall (recon : X -> Y) (fom : sfom (S:=R) (Y:=Y) (R:=Rs) (J:=J) (B:=B) (W:=W)) (phi : B) (f : Y -> R -> Rs) (df : Y -> B -> R -> J), fom_is fom f df -> fom_returns fom phi ->
  forall up (Up : Rs -> R -> Y -> R -> Rs) (UpJ : J -> R -> B -> R -> J), updater_is up Up UpJ -> updater_returns up ->
  forall scaler (Sc : Y -> R -> Rs -> Rs) (ScJ : Y -> R -> J -> J), scaler_is scaler Sc ScJ -> scaler_returns scaler ->
  forall (no : nlops R X Rs J H) (ro : vops R Rs) (ap : J -> X -> Rs) (apH : H -> X -> X), nl_laws eps no ro ap apH ->
  forall xt : exts X Rs J H L,
  linear_ok xt (if_solvable (normal_exact apH)) (if_solvable (qr_exact no ap)) (if_solvable (newton_exact ap)) nothing ->
  forall wr wj, weights_ok xt wr wj nothing ->
  forall tag cf, gauss_newton tag cf ->
  forall (obs : Z -> R -> X -> U -> outcome unit * U) w0 name cs cr zero x0 ws g0,
  ls_object (Rops eps) ws -> lspg_create (Rops eps) name cs cr zero (fresh_policy w0) x0 ws = Ok g0 ->
  let o := Rops eps in
  let step := implicit_step o (scaled_policy (hypred_policy o yo recon fom phi up) scaler) (as_solver (ls_solve o no xt tag cf)) name in
  let near_best := lands_each no ro ap apH tag cf (scaled_at o recon Sc (hypred_res o yo recon f Up name)) (scaled_at o recon ScJ (hypred_jacobian o recon df phi UpJ name)) in
  forall pol recovery h n fuel start final y0 w,
  0 <= eps -> (forall k t y u, fst (obs k t y u) = Ok tt) ->
  (forall k t x u, exists dt m c, fst (pol k t x u) = Ok (dt, m, c) /\ h <= dt /\ m <= dt /\ (recovery = true -> 1 < c)) ->
  start < final -> final - start <= INR n * h -> (n < fuel)%nat -> (Z.of_nat n < int32_max)%Z ->
  exists y' g' w' tr l,
    to_target o (mk_user (split_obs obs) (split_pol pol) noop_guess (split_step (implicit_fn step))) recovery fuel
      start final (y0, (g0, w), []) = (Ok tt, (y', (g', w'), tr)) /\
    reports tr = numbered l /\ hd y0 (map snd l) = y' /\ linked_from Rplus near_best start y0 l.
Proof.
  intros eps X Y Rs J B H L W U yo HY recon fom phi f df Hf Hft up Up UpJ Hu Hut scaler Sc ScJ Hs Hst no ro ap apH HL xt Hlin wr wj Hw tag cf Hcf obs w0 name cs cr zero x0 ws g0 Hws HE o step near_best pol recovery h n fuel start final y0 w He Ho Hp Hlt Hn Hf' Hm'.
  refine (@semi_each_target eps _ _ _ _ _ (as_solver (ls_solve (Rops eps) no xt tag cf)) (gn_asks' no xt tag cf Hcf) (ls_object (Rops eps)) (lands no ro ap apH tag cf)
    (fun Q rj F DF ws y w => gn_lands no ro ap apH HL xt Hlin wr wj Hw tag cf Hcf rj F DF ws y w) obs Ho _ _ _ recon lp_h lp_w (scaled_policy (hypred_policy o yo recon fom phi up) scaler)
    (scaled_problem o recon (problem_one o recon (hypred_one o yo fom phi up)) scaler) (scaled_problem o recon (problem_two o recon (hypred_one o yo fom phi up) (hypred_two o yo fom phi up)) scaler)
    (fresh_policy w0) w0 _ _ _ (fun nm => (scaled_at o recon Sc (hypred_res o yo recon f Up nm))) (fun nm => (scaled_at o recon ScJ (hypred_jacobian o recon df phi UpJ nm))) _ _ _ _ name cs cr zero x0 ws g0 Hws HE pol recovery h n fuel start final y0 w He Hp Hlt Hn Hf' Hm').
  - intros d. split; reflexivity.
  - (apply through_scaled, T_hypred1; first [assumption|apply R_field|apply R_char0]).
  - (apply through_scaled, T_hypred2; first [assumption|apply R_field|apply R_char0]).
  - (apply scaled_gives; [assumption|apply hypred_gives1; assumption]).
  - (apply scaled_gives; [assumption|apply hypred_gives2; assumption]).
  - (apply scaled_never; [assumption|apply hypred_never1; assumption]).
  - (apply scaled_never; [assumption|apply hypred_never2; assumption]).
Qed.
Lemma fully_discrete_each_n_steps :
  forall (eps : R) (X Y Rs J B H L W U : Type),
  forall (recon : X -> Y) (dfom : Z -> R -> R -> Rs -> B -> option J -> Y -> list Y -> W -> outcome unit * (Rs * option J * W)) (phi : B)
    (Rd : Z -> R -> R -> Y -> list Y -> Rs) (Jd : Z -> R -> R -> Y -> list Y -> J), dfom_is dfom phi Rd Jd -> dfom_returns dfom phi ->
  forall (no : nlops R X Rs J H) (ro : vops R Rs) (ap : J -> X -> Rs) (apH : H -> X -> X), nl_laws eps no ro ap apH ->
  forall xt : exts X Rs J H L,
  linear_ok xt (if_solvable (normal_exact apH)) (if_solvable (qr_exact no ap)) (if_solvable (newton_exact ap)) nothing ->
  forall wr wj, weights_ok xt wr wj nothing ->
  forall tag cf, gauss_newton tag cf ->
  forall (obs : Z -> R -> X -> U -> outcome unit * U) three cs (zero : Y) (q0 : W) x0 ws g0,
  ls_object (Rops eps) ws -> discrete_create (Rops eps) (total three) cs zero q0 x0 ws = Ok g0 ->
  let o := Rops eps in
  let step := arb_step o (fd_system recon (total three) (lspg_discrete dfom phi)) (as_solver (ls_solve o no xt tag cf)) (total three - 1) in
  let near_best := lands_each no ro ap apH tag cf (discrete_at o recon zero three Rd) (discrete_at o recon zero three Jd) in
  forall pol num start y0 w, (Z.of_nat num < int32_max)%Z ->
  (forall k t y u, fst (obs k t y u) = Ok tt) -> (forall k t d u, exists dt, fst (pol k t d u) = Ok dt) ->
  exists y' g' w' tr l,
    advance_n_steps o (mk_user (split_obs obs) (pol3 (split_pol pol)) noop_guess (split_step (arb_fn step)))
      (Z.of_nat num) start (y0, (g0, w), []) = (Ok tt, (y', (g', w'), tr)) /\
    length l = S num /\ reports tr = numbered l /\ hd y0 (map snd l) = y' /\ linked_from Rplus near_best start y0 l.
Proof.
  intros eps X Y Rs J B H L W U recon dfom phi Rd Jd Hd Hdt no ro ap apH HL xt Hlin wr wj Hw tag cf Hcf obs three cs zero q0 x0 ws g0 Hws HE o step near_best pol num start y0 w Hn Ho Hp.
  refine (@discrete_each_n_steps eps _ _ _ _ _ (as_solver (ls_solve (Rops eps) no xt tag cf)) (gn_asks' no xt tag cf Hcf) (ls_object (Rops eps)) (lands no ro ap apH tag cf)
    (fun Q rj F DF ws y w => gn_lands no ro ap apH HL xt Hlin wr wj Hw tag cf Hcf rj F DF ws y w) obs Ho _ _ recon (lspg_discrete dfom phi) Rd Jd (fun step t dt r Jo y older q r1 j1 q1 E => lspg_discrete_values dfom phi Rd Jd Hd step t dt r Jo y older q r1 j1 q1 E) (lspg_discrete_never dfom phi Hdt)
    three cs zero q0 x0 ws g0 Hws HE pol num start y0 w Hn Hp).
Qed.
Lemma fully_discrete_each_target :
  forall (eps : R) (X Y Rs J B H L W U : Type),
  forall (recon : X -> Y) (dfom : Z -> R -> R -> Rs -> B -> option J -> Y -> list Y -> W -> outcome unit * (Rs * option J * W)) (phi : B)
    (Rd : Z -> R -> R -> Y -> list Y -> Rs) (Jd : Z -> R -> R -> Y -> list Y -> J), dfom_is dfom phi Rd Jd -> dfom_returns dfom phi ->
  forall (no : nlops R X Rs J H) (ro : vops R Rs) (ap : J -> X -> Rs) (apH : H -> X -> X), nl_laws eps no ro ap apH ->
  forall xt : exts X Rs J H L,
  linear_ok xt (if_solvable (normal_exact apH)) (if_solvable (qr_exact no ap)) (if_solvable (newton_exact ap)) nothing ->
  forall wr wj, weights_ok xt wr wj nothing ->
  forall tag cf, gauss_newton tag cf ->
  forall (obs : Z -> R -> X -> U -> outcome unit * U) three cs (zero : Y) (q0 : W) x0 ws g0,
  ls_object (Rops eps) ws -> discrete_create (Rops eps) (total three) cs zero q0 x0 ws = Ok g0 ->
  let o := Rops eps in
  let step := arb_step o (fd_system recon (total three) (lspg_discrete dfom phi)) (as_solver (ls_solve o no xt tag cf)) (total three - 1) in
  let near_best := lands_each no ro ap apH tag cf (discrete_at o recon zero three Rd) (discrete_at o recon zero three Jd) in
  forall pol recovery h n fuel start final y0 w,
  0 <= eps -> (forall k t y u, fst (obs k t y u) = Ok tt) ->
  (forall k t x u, exists dt m c, fst (pol k t x u) = Ok (dt, m, c) /\ h <= dt /\ m <= dt /\ (recovery = true -> 1 < c)) ->
  start < final -> final - start <= INR n * h -> (n < fuel)%nat -> (Z.of_nat n < int32_max)%Z ->
  exists y' g' w' tr l,
    to_target o (mk_user (split_obs obs) (split_pol pol) noop_guess (split_step (arb_fn step))) recovery fuel
      start final (y0, (g0, w), []) = (Ok tt, (y', (g', w'), tr)) /\
    reports tr = numbered l /\ hd y0 (map snd l) = y' /\ linked_from Rplus near_best start y0 l.
Proof.
  intros eps X Y Rs J B H L W U recon dfom phi Rd Jd Hd Hdt no ro ap apH HL xt Hlin wr wj Hw tag cf Hcf obs three cs zero q0 x0 ws g0 Hws HE o step near_best pol recovery h n fuel start final y0 w He Ho Hp Hlt Hn Hf' Hm'.
  refine (@discrete_each_target eps _ _ _ _ _ (as_solver (ls_solve (Rops eps) no xt tag cf)) (gn_asks' no xt tag cf Hcf) (ls_object (Rops eps)) (lands no ro ap apH tag cf)
    (fun Q rj F DF ws y w => gn_lands no ro ap apH HL xt Hlin wr wj Hw tag cf Hcf rj F DF ws y w) obs Ho _ _ recon (lspg_discrete dfom phi) Rd Jd (fun step t dt r Jo y older q r1 j1 q1 E => lspg_discrete_values dfom phi Rd Jd Hd step t dt r Jo y older q r1 j1 q1 E) (lspg_discrete_never dfom phi Hdt)
    three cs zero q0 x0 ws g0 Hws HE pol recovery h n fuel start final y0 w He Hp Hlt Hn Hf' Hm').
Qed.
Lemma galerkin_fully_discrete_each_n_steps :
  forall (eps : R) (X Y Rf Jf J B H L W U : Type),
  forall (xo : vops R X) (jo : vops R J), vspace (Rops eps) xo -> vspace (Rops eps) jo ->
  forall (recon : X -> Y) (dfom : Z -> R -> R -> Rf -> B -> option Jf -> Y -> list Y -> W -> outcome unit * (Rf * option Jf * W)) (phi : B)
    (Rd : Z -> R -> R -> Y -> list Y -> Rf) (Jd : Z -> R -> R -> Y -> list Y -> Jf), dfom_is dfom phi Rd Jd -> dfom_returns dfom phi ->
  forall proj_R proj_J (P : R -> Rf -> X) (PJ : R -> Jf -> J), projections (Rops eps) xo jo phi proj_R proj_J P PJ -> proj_returns proj_R -> proj_returns proj_J ->
  forall (no : nlops R X X J H) (ap : J -> X -> X) (apH : H -> X -> X), nl_laws eps no (n_vo no) ap apH ->
  forall xt : exts X X J H L,
  linear_ok xt (if_solvable (normal_exact apH)) (if_solvable (qr_exact no ap)) (if_solvable (newton_exact ap)) nothing ->
  forall cf, newton_absolute cf -> (1 <= f_max cf)%Z ->
  forall (obs : Z -> R -> X -> U -> outcome unit * U) three cs (zero : Y) (q0 : Rf * Jf * W) x0 ws g0,
  root_object (Rops eps) ws -> discrete_create (Rops eps) (total three) cs zero q0 x0 ws = Ok g0 ->
  let o := Rops eps in
  let step := arb_step o (fd_system recon (total three) (galerkin_discrete dfom phi proj_R proj_J)) (as_solver (root_solve o no xt cf)) (total three - 1) in
  let met := solved_each no ap cf (projected_at o recon zero three P Rd) (projected_at o recon zero three PJ Jd) in
  forall pol num start y0 w, (Z.of_nat num < int32_max)%Z ->
  (forall k t y u, fst (obs k t y u) = Ok tt) -> (forall k t d u, exists dt, fst (pol k t d u) = Ok dt) ->
  exists y' g' w' tr l,
    advance_n_steps o (mk_user (split_obs obs) (pol3 (split_pol pol)) noop_guess (split_step (arb_fn step)))
      (Z.of_nat num) start (y0, (g0, w), []) = (Ok tt, (y', (g', w'), tr)) /\
    length l = S num /\ reports tr = numbered l /\ hd y0 (map snd l) = y' /\ linked_from Rplus met start y0 l.
Proof.
  intros eps X Y Rf Jf J B H L W U xo jo HX HJ recon dfom phi Rd Jd Hd Hdt proj_R proj_J P PJ HP HPt HPJt no ap apH HL xt Hlin cf Hcf Hmx obs three cs zero q0 x0 ws g0 Hws HE o step met pol num start y0 w Hn Ho Hp.
  refine (@discrete_each_n_steps eps _ _ _ _ _ (as_solver (root_solve (Rops eps) no xt cf)) (newton_asks (Rops eps) no xt cf (absolute_supported cf Hcf) Hmx) (root_object (Rops eps))
    (fun F DF y y' => forall far, starts_well no (n_vo no) ap cf F DF y far -> n_rnorm no (F y') <= far * f_tol cf)
    (fun Q rj F DF ws y w => absolute_run no ap apH HL xt Hlin cf Hcf rj F DF ws y w) obs Ho _ _ recon (galerkin_discrete dfom phi proj_R proj_J) (fun step t dt y older => P t (Rd step t dt y older)) (fun step t dt y older => PJ t (Jd step t dt y older)) _ (galerkin_discrete_never dfom phi proj_R proj_J Hdt HPt HPJt)
    three cs zero q0 x0 ws g0 Hws HE pol num start y0 w Hn Hp).
  intros; destruct (projections_are o xo jo phi HX HJ proj_R proj_J P PJ HP) as [HP1 HP2]; eapply galerkin_discrete_values; eassumption.
Qed.
Lemma galerkin_fully_discrete_each_target :
  forall (eps : R) (X Y Rf Jf J B H L W U : Type),
  forall (xo : vops R X) (jo : vops R J), vspace (Rops eps) xo -> vspace (Rops eps) jo ->
  forall (recon : X -> Y) (dfom : Z -> R -> R -> Rf -> B -> option Jf -> Y -> list Y -> W -> outcome unit * (Rf * option Jf * W)) (phi : B)
    (Rd : Z -> R -> R -> Y -> list Y -> Rf) (Jd : Z -> R -> R -> Y -> list Y -> Jf), dfom_is dfom phi Rd Jd -> dfom_returns dfom phi ->
  forall proj_R proj_J (P : R -> Rf -> X) (PJ : R -> Jf -> J), projections (Rops eps) xo jo phi proj_R proj_J P PJ -> proj_returns proj_R -> proj_returns proj_J ->
  forall (no : nlops R X X J H) (ap : J -> X -> X) (apH : H -> X -> X), nl_laws eps no (n_vo no) ap apH ->
  forall xt : exts X X J H L,
  linear_ok xt (if_solvable (normal_exact apH)) (if_solvable (qr_exact no ap)) (if_solvable (newton_exact ap)) nothing ->
  forall cf, newton_absolute cf -> (1 <= f_max cf)%Z ->
  forall (obs : Z -> R -> X -> U -> outcome unit * U) three cs (zero : Y) (q0 : Rf * Jf * W) x0 ws g0,
  root_object (Rops eps) ws -> discrete_create (Rops eps) (total three) cs zero q0 x0 ws = Ok g0 ->
  let o := Rops eps in
  let step := arb_step o (fd_system recon (total three) (galerkin_discrete dfom phi proj_R proj_J)) (as_solver (root_solve o no xt cf)) (total three - 1) in
  let met := solved_each no ap cf (projected_at o recon zero three P Rd) (projected_at o recon zero three PJ Jd) in
  forall pol recovery h n fuel start final y0 w,
  0 <= eps -> (forall k t y u, fst (obs k t y u) = Ok tt) ->
  (forall k t x u, exists dt m c, fst (pol k t x u) = Ok (dt, m, c) /\ h <= dt /\ m <= dt /\ (recovery = true -> 1 < c)) ->
  start < final -> final - start <= INR n * h -> (n < fuel)%nat -> (Z.of_nat n < int32_max)%Z ->
  exists y' g' w' tr l,
    to_target o (mk_user (split_obs obs) (split_pol pol) noop_guess (split_step (arb_fn step))) recovery fuel
      start final (y0, (g0, w), []) = (Ok tt, (y', (g', w'), tr)) /\
    reports tr = numbered l /\ hd y0 (map snd l) = y' /\ linked_from Rplus met start y0 l.
Proof.
  intros eps X Y Rf Jf J B H L W U xo jo HX HJ recon dfom phi Rd Jd Hd Hdt proj_R proj_J P PJ HP HPt HPJt no ap apH HL xt Hlin cf Hcf Hmx obs three cs zero q0 x0 ws g0 Hws HE o step met pol recovery h n fuel start final y0 w He Ho Hp Hlt Hn Hf' Hm'.
  refine (@discrete_each_target eps _ _ _ _ _ (as_solver (root_solve (Rops eps) no xt cf)) (newton_asks (Rops eps) no xt cf (absolute_supported cf Hcf) Hmx) (root_object (Rops eps))
    (fun F DF y y' => forall far, starts_well no (n_vo no) ap cf F DF y far -> n_rnorm no (F y') <= far * f_tol cf)
    (fun Q rj F DF ws y w => absolute_run no ap apH HL xt Hlin cf Hcf rj F DF ws y w) obs Ho _ _ recon (galerkin_discrete dfom phi proj_R proj_J) (fun step t dt y older => P t (Rd step t dt y older)) (fun step t dt y older => PJ t (Jd step t dt y older)) _ (galerkin_discrete_never dfom phi proj_R proj_J Hdt HPt HPJt)
    three cs zero q0 x0 ws g0 Hws HE pol recovery h n fuel start final y0 w He Hp Hlt Hn Hf' Hm').
  intros; destruct (projections_are o xo jo phi HX HJ proj_R proj_J P PJ HP) as [HP1 HP2]; eapply galerkin_discrete_values; eassumption.
Qed.

(** Concrete cases meeting the hypotheses of the theorems in [PropRomVar.v]. The FOMs, scalings, masks and updaters are such that the residual of
    one step of size 1/4 from 3/2 is that of [ExLspgGn.v], (x, (x^2 - 1)/4); for Galerkin x^2 - 2. *)
From Coq Require Import Reals ZArith List Bool Lia Lra FunctionalExtensionality.
From Verif Require Import Base RInst Laws LawInst AdvanceModel AdvanceSpec AdvanceProofs TargetProofs Track ExplicitModel ImplicitModel ImplicitSpec
  NonlinDiag NonlinModel NonlinWp NonlinSpec NonlinRuns NonlinLaws NonlinExact NonlinReal NonlinTheory Tuples QrModel QrSpec QrProofs QrSolve QrExts QrEnd
  ExNonlin NewtonSpec NewtonProofs NewtonClaims NewtonRunSpec GaussSpec GaussProofs GaussClaims ExNewton ExGauss ExNewtonRun
  LspgModel RomSpec LspgSpec GalerkinModel GalerkinSpec RomRunSpec RomLsSpec CompleteRun LspgGnSpec LspgGnClaims ExLspgGn RomVarSpec RomVarClaims PropRomVar.
Import ListNotations.
Local Open Scope R_scope.

Section Ex.
  Variable eps : R.
  Notation o := (Rops eps).
  Notation V1 := (tup R 1).
  Notation Y2 := (tup R 2).
  Notation Y3 := (tup R 3).
  Notation J21 := (mat (S:=R) 2 1).
  Notation J31 := (mat (S:=R) 3 1).
  Notation no := (tuple_ops o sqrt 2 1).
  Notation xt := (mgs_exts eps 2 1 (fun r => r) (fun j => j) false).
  (** one step of size 1/4 from 3/2 at time 0 *)
  Lemma one_step {G} (stp : V1 -> R -> Z -> R -> G -> outcome unit * (V1 * G)) g0 y' g' u' tr l (P : list V1 -> R -> R -> V1 -> Prop) :
    advance_n_steps o (mk_user (split_obs (fun _ _ _ w => (Ok tt, w))) (pol3 (split_pol (fun _ _ _ w => (Ok (1 / 4), w)))) noop_guess
        (split_step stp)) (Z.of_nat 1) 0 ((3 / 2, tt), (g0, tt), []) = (Ok tt, (y', (g', u'), tr)) ->
    length l = 2%nat -> reports tr = numbered l -> hd (3 / 2, tt) (map snd l) = y' -> linked_from Rplus P 0 (3 / 2, tt) l ->
    P [(3 / 2, tt)] 0 (1 / 4) y'.
  Proof.
    intros E El HR Hy (Hl & d0 & l0 & Ee).
    pose proof E as Er. eapply (n_steps_fixed o _ _ _ _ (1 / 4)) in Er; [|intros k t d w dt w' Ep; cbv [split_pol] in Ep; injection Ep as <- _; reflexivity|reflexivity].
    rewrite HR in Er.
    destruct l as [|[[t1 d1] y1] [|[[t2 d2] y2] [|? ?]]]; try discriminate El.
    destruct l0 as [|? [|? [|? ?]]]; try discriminate Ee. cbn [app] in Ee.
    pose proof (f_equal (fun q => nth 1 q (0, 0, (0, tt))) Ee) as Ee2. cbn [nth] in Ee2. injection Ee2 as E2t _ E2y.
    cbn [linked map snd fst] in Hl. destruct Hl as (Hd & HP & _). rewrite E2t in Hd, HP. rewrite E2y in HP. cbn [hd map snd] in Hy. subst y1.
    cbn in Er. injection Er as _ Et. rewrite Hd in Et. assert (Ed : d1 = 1 / 4) by lra. rewrite Ed in HP. exact HP.
  Qed.
  Lemma lands_close F DF x : (forall z, F z = Fq z) -> (forall z, DF z = DFq z) ->
    lands no (tvec o 2) (tapply o) (tapply o) GaussNewton gcf F DF (3 / 2, tt) x -> apart no x best <= 2 / 75.
  Proof.
    intros HF HD HL. apply gn_within. cbn [lands_each].
    replace (lspg_res o (tvec o 2) grecon gf BDF1 [(3 / 2, tt)] 0 (1 / 4)) with F by (extensionality z; rewrite gn_res; apply HF).
    replace (lspg_jacobian o (mat_ops eps 2 1) grecon gdf gphi BDF1 [(3 / 2, tt)] 0 (1 / 4)) with DF by (extensionality z; rewrite gn_jac; apply HD).
    exact HL.
  Qed.
  Ltac three := apply f_equal2; [field|apply f_equal2; [field|reflexivity]].
  Notation obs := (fun _ _ _ w => (Ok tt, w)).
  Notation quarter := (fun _ _ _ w => (Ok (1 / 4), w)).
  Notation to_one := (fun _ _ _ w => (Ok (1 / 4, 1 / 10, 2), w)).
  Lemma steps_one recovery : forall (k : Z) (t : R) (x : R * R * R) (u : unit), exists dt m c,
    fst ((fun _ _ _ w => (Ok (1 / 4, 1 / 10, 2), w)) k t x u : outcome (R * R * R) * unit) = Ok (dt, m, c) /\ 1 / 4 <= dt /\ m <= dt /\ (recovery = true -> 1 < c).
  Proof. intros k t x u. exists (1 / 4), (1 / 10), 2. split; [reflexivity|]. repeat split; lra. Qed.
  (** twice the residual and the Jacobian *)
  Definition twice {n} (v : tup R n) : tup R n := vscale (tvec o n) 2 v.
  Definition vscaler {Y} (y : Y) (t : R) (r : Y2) (Jo : option J21) (w : nat) : outcome unit * (Y2 * option J21 * nat) :=
    (Ok tt, (twice r, option_map (vscale (mat_ops eps 2 1) 2) Jo, w)).
  Example ex_rv_scaler Y : scaler_is (vscaler (Y:=Y)) (fun _ _ => twice) (fun _ _ => vscale (mat_ops eps 2 1) 2) /\ scaler_returns (vscaler (Y:=Y)).
  Proof. split; [|intros y t r Jo w; reflexivity]. intros y t r Jo w r' j' w' E. injection E as <- <- _. split; [reflexivity|]. intros j ->. reflexivity. Qed.
  Lemma fom_parts {Y Rs J B} f df (phi : B) : let fom := mk_sfom (fun y t r w => (Ok tt, (f y t, Datatypes.S w))) (fun y p t j w => (Ok tt, (df y p t, w)))
    : sfom (S:=R) (Y:=Y) (R:=Rs) (J:=J) (B:=B) (W:=nat) in fom_is fom f df /\ fom_returns fom phi.
  Proof.
    split; [split|split].
    - intros y t r w f' w' E. injection E as <- _. reflexivity.
    - intros y p t j w j' w' E. injection E as <- _. reflexivity.
    - intros y t r w. reflexivity.
    - intros y t j w. reflexivity.
  Qed.
  Definition vfom {Y Rs J B} f df : sfom (S:=R) (Y:=Y) (R:=Rs) (J:=J) (B:=B) (W:=nat) :=
    mk_sfom (fun y t r w => (Ok tt, (f y t, Datatypes.S w))) (fun y p t j w => (Ok tt, (df y p t, w))).
  Notation gn := (as_solver (ls_solve o no xt GaussNewton gcf)).

  (** Scaled: y1' = 2 y1 - 6, y2' = (1 - y1^2)/2 *)
  Definition sf (y : Y2) (t : R) : Y2 := (2 * fst y - 6, ((1 - fst y * fst y) / 2, tt)).
  Definition sdf (y : Y2) (p : J21) (t : R) : J21 := ((2 * fst (fst p), (- fst y * fst (fst p), tt)), tt).
  Lemma sc_res x : scaled_at o grecon (fun _ _ => twice) (lspg_res o (tvec o 2) grecon sf BDF1) [(3 / 2, tt)] 0 (1 / 4) x = Fq x.
  Proof. destruct x as [x []]. cbn. unfold Fq. cbn [fst]. three. Qed.
  Lemma sc_jac x : scaled_at o grecon (fun _ _ => vscale (mat_ops eps 2 1) 2) (lspg_jacobian o (mat_ops eps 2 1) grecon sdf gphi BDF1) [(3 / 2, tt)] 0 (1 / 4) x = DFq x.
  Proof. destruct x as [x []]. cbn. unfold DFq. cbn [fst]. apply f_equal2; [three|reflexivity]. Qed.
  Definition s_g0 := lspg_create o BDF1 ((0, tt) : V1) (tconst 0 2 : Y2) (tconst 0 2) (fresh_policy (Y:=Y2) 0%nat) (0, tt) (reg0 eps 2 ls_diags).
  Notation s_g0_step := (implicit_step o (scaled_policy (default_policy o (tvec o 2) (mat_ops eps 2 1) grecon (vfom sf sdf) gphi) vscaler) gn BDF1).
  Example ex_scaled : exists g0 y' g' tr, s_g0 = Ok g0 /\
      advance_n_steps o (mk_user (split_obs obs) (pol3 (split_pol quarter)) noop_guess (split_step (implicit_fn s_g0_step))) (Z.of_nat 1) 0 ((3 / 2, tt), (g0, tt), [])
        = (Ok tt, (y', (g', tt), tr)) /\ apart no y' best <= 2 / 75.
  Proof.
    assert (K : exists g0, s_g0 = Ok g0) by (eexists; reflexivity). destruct K as [g0 K].
    destruct (C98_scaled_n_steps eps _ _ _ _ _ nat unit (tvec o 2) (mat_ops eps 2 1) (tvec_space o (R_field eps) 2) (mat_space eps 2 1) grecon (vfom sf sdf) gphi sf sdf (proj1 (fom_parts sf sdf gphi)) (proj2 (fom_parts sf sdf gphi)) vscaler _ _ (proj1 (ex_rv_scaler Y2)) (proj2 (ex_rv_scaler Y2))
                no (tvec o 2) (tapply o) (tapply o) (tuple_laws eps 2 1) xt (ex_linear eps 2) _ _ (ex_weights eps 2 nothing) GaussNewton gcf ex_gn_settings
                obs 0%nat BDF1 _ _ _ _ (reg0 eps 2 ls_diags) g0 (proj1 (ex_objects eps 2)) K quarter 1%nat 0 (3 / 2, tt) tt eq_refl (fun _ _ _ _ => eq_refl) (fun _ _ _ _ => ex_intro _ (1 / 4) eq_refl))
      as (y' & g' & [] & tr & l & E & El & HR & Hy & Hl).
    exists g0, y', g', tr. split; [exact K|]. split; [exact E|]. apply (one_step _ _ _ _ _ _ _ _ E El HR Hy) in Hl.
    refine (lands_close _ _ _ _ _ Hl); [exact sc_res|exact sc_jac].
  Qed.
  Example ex_scaled_target : forall recovery fuel, 0 <= eps -> (4 < fuel)%nat -> exists g0 y' g' tr, s_g0 = Ok g0 /\
      to_target o (mk_user (split_obs obs) (split_pol to_one) noop_guess (split_step (implicit_fn s_g0_step))) recovery fuel 0 1 ((3 / 2, tt), (g0, tt), [])
        = (Ok tt, (y', (g', tt), tr)).
  Proof.
    intros recovery fuel He Hf.
    assert (K : exists g0, s_g0 = Ok g0) by (eexists; reflexivity). destruct K as [g0 K].
    destruct (C98_scaled_to_target eps _ _ _ _ _ nat unit (tvec o 2) (mat_ops eps 2 1) (tvec_space o (R_field eps) 2) (mat_space eps 2 1) grecon (vfom sf sdf) gphi sf sdf (proj1 (fom_parts sf sdf gphi)) (proj2 (fom_parts sf sdf gphi)) vscaler _ _ (proj1 (ex_rv_scaler Y2)) (proj2 (ex_rv_scaler Y2))
                no (tvec o 2) (tapply o) (tapply o) (tuple_laws eps 2 1) xt (ex_linear eps 2) _ _ (ex_weights eps 2 nothing) GaussNewton gcf ex_gn_settings
                obs 0%nat BDF1 _ _ _ _ (reg0 eps 2 ls_diags) g0 (proj1 (ex_objects eps 2)) K to_one recovery (1 / 4) 4%nat fuel 0 1 (3 / 2, tt) tt He (fun _ _ _ _ => eq_refl) (steps_one recovery))
      as (y' & g' & [] & tr & l & E & _); [lra|cbn; lra|exact Hf|reflexivity|exists g0, y', g', tr; split; [exact K|exact E]].
  Qed.

  (** Masked: three components, the mask drops the first *)
  Definition recon3 (v : V1) : Y3 := (7, (fst v, (0, tt))).
  Definition phi3 : J31 := ((0, (1, (0, tt))), tt).
  Definition mf (y : Y3) (t : R) : Y3 := (5, (- (6), (1 - fst (snd y) * fst (snd y), tt))).
  Definition mdf (y : Y3) (p : J31) (t : R) : J31 := ((0, (0, (- (2) * fst (snd y) * fst (snd (fst p)), tt))), tt).
  Definition vmask : masker (Ru:=Y3) (Ju:=J31) (R:=Y2) (J:=J21) (W:=nat) :=
    mk_masker (fun a r w => (Ok tt, (snd a, w))) (fun a j w => (Ok tt, ((snd (fst a), tt), w))).
  Example ex_rv_mask : mask_is vmask (fun a : Y3 => snd a : Y2) (fun a : J31 => (snd (fst a), tt) : J21) /\ mask_returns vmask.
  Proof. split; split; intros; try reflexivity; match goal with H : _ = _ |- _ => injection H as <- _; reflexivity end. Qed.
  Lemma mk_res x : masked_at (fun a : Y3 => snd a : Y2) (lspg_res o (tvec o 3) recon3 mf BDF1) [(3 / 2, tt)] 0 (1 / 4) x = Fq x.
  Proof. destruct x as [x []]. cbv [masked_at]. cbn. unfold Fq. cbn [fst]. three. Qed.
  Lemma mk_jac x : masked_at (fun a : J31 => (snd (fst a), tt) : J21) (lspg_jacobian o (mat_ops eps 3 1) recon3 mdf phi3 BDF1) [(3 / 2, tt)] 0 (1 / 4) x = DFq x.
  Proof. destruct x as [x []]. cbv [masked_at]. cbn. unfold DFq. cbn [fst]. apply (f_equal (fun c : Y2 => (c, tt) : J21)); three. Qed.
  Definition m_g0 := lspg_create o BDF1 ((0, tt) : V1) (tconst 0 2 : Y2) (tconst 0 3) (fresh_masked (Y:=Y3) (tconst 0 3 : Y3) (tconst (tconst 0 3) 1 : J31) 0%nat) (0, tt) (reg0 eps 2 ls_diags).
  Notation m_g0_step := (implicit_step o (masked_policy (default_policy o (tvec o 3) (mat_ops eps 3 1) recon3 (vfom mf mdf) phi3) vmask) gn BDF1).
  Example ex_masked : exists g0 y' g' tr, m_g0 = Ok g0 /\
      advance_n_steps o (mk_user (split_obs obs) (pol3 (split_pol quarter)) noop_guess (split_step (implicit_fn m_g0_step))) (Z.of_nat 1) 0 ((3 / 2, tt), (g0, tt), [])
        = (Ok tt, (y', (g', tt), tr)) /\ apart no y' best <= 2 / 75.
  Proof.
    assert (K : exists g0, m_g0 = Ok g0) by (eexists; reflexivity). destruct K as [g0 K].
    destruct (C98_masked_n_steps eps _ _ _ _ _ _ _ nat unit (tvec o 3) (mat_ops eps 3 1) (tvec_space o (R_field eps) 3) (mat_space eps 3 1) recon3 (vfom mf mdf) phi3 mf mdf (proj1 (fom_parts mf mdf phi3)) (proj2 (fom_parts mf mdf phi3)) vmask _ _ (proj1 ex_rv_mask) (proj2 ex_rv_mask)
                no (tvec o 2) (tapply o) (tapply o) (tuple_laws eps 2 1) xt (ex_linear eps 2) _ _ (ex_weights eps 2 nothing) GaussNewton gcf ex_gn_settings
                obs _ _ 0%nat BDF1 _ _ _ _ (reg0 eps 2 ls_diags) g0 (proj1 (ex_objects eps 2)) K quarter 1%nat 0 (3 / 2, tt) tt eq_refl (fun _ _ _ _ => eq_refl) (fun _ _ _ _ => ex_intro _ (1 / 4) eq_refl))
      as (y' & g' & [] & tr & l & E & El & HR & Hy & Hl).
    exists g0, y', g', tr. split; [exact K|]. split; [exact E|]. apply (one_step _ _ _ _ _ _ _ _ E El HR Hy) in Hl.
    refine (lands_close _ _ _ _ _ Hl); [exact mk_res|exact mk_jac].
  Qed.
  Example ex_masked_target : forall recovery fuel, 0 <= eps -> (4 < fuel)%nat -> exists g0 y' g' tr, m_g0 = Ok g0 /\
      to_target o (mk_user (split_obs obs) (split_pol to_one) noop_guess (split_step (implicit_fn m_g0_step))) recovery fuel 0 1 ((3 / 2, tt), (g0, tt), [])
        = (Ok tt, (y', (g', tt), tr)).
  Proof.
    intros recovery fuel He Hf.
    assert (K : exists g0, m_g0 = Ok g0) by (eexists; reflexivity). destruct K as [g0 K].
    destruct (C98_masked_to_target eps _ _ _ _ _ _ _ nat unit (tvec o 3) (mat_ops eps 3 1) (tvec_space o (R_field eps) 3) (mat_space eps 3 1) recon3 (vfom mf mdf) phi3 mf mdf (proj1 (fom_parts mf mdf phi3)) (proj2 (fom_parts mf mdf phi3)) vmask _ _ (proj1 ex_rv_mask) (proj2 ex_rv_mask)
                no (tvec o 2) (tapply o) (tapply o) (tuple_laws eps 2 1) xt (ex_linear eps 2) _ _ (ex_weights eps 2 nothing) GaussNewton gcf ex_gn_settings
                obs _ _ 0%nat BDF1 _ _ _ _ (reg0 eps 2 ls_diags) g0 (proj1 (ex_objects eps 2)) K to_one recovery (1 / 4) 4%nat fuel 0 1 (3 / 2, tt) tt He (fun _ _ _ _ => eq_refl) (steps_one recovery))
      as (y' & g' & [] & tr & l & E & _); [lra|cbn; lra|exact Hf|reflexivity|exists g0, y', g', tr; split; [exact K|exact E]].
  Qed.

  (** Hyper-reduced: three components on the stencil mesh, the last two on the sample mesh *)
  Definition hrf (y : Y3) (t : R) : Y2 := (- (6), (1 - fst (snd y) * fst (snd y), tt)).
  Definition hrdf (y : Y3) (p : J31) (t : R) : J21 := ((0, (- (2) * fst (snd y) * fst (snd (fst p)), tt)), tt).
  Definition vU (r : Y2) (a : R) (y : Y3) (b : R) : Y2 := vadd (tvec o 2) (vscale (tvec o 2) a r) (vscale (tvec o 2) b (snd y)).
  Definition vUJ (j : J21) (a : R) (p : J31) (b : R) : J21 := (vU (fst j) a (fst p) b, tt).
  Definition vup : updater (S:=R) (Y:=Y3) (R:=Y2) (J:=J21) (B:=J31) (W:=nat) :=
    mk_updater (fun r a y b w => (Ok tt, (vU r a y b, w))) (fun j a p b w => (Ok tt, (vUJ j a p b, w))).
  Example ex_rv_updater : updater_is vup vU vUJ /\ updater_returns vup.
  Proof. split; split; intros; try reflexivity; match goal with H : _ = _ |- _ => injection H as <- _; reflexivity end. Qed.
  Lemma hr_res x : hypred_res o (tvec o 3) recon3 hrf vU BDF1 [(3 / 2, tt)] 0 (1 / 4) x = Fq x.
  Proof. destruct x as [x []]. cbn. unfold vUJ, vU, hrf, hrdf, sf, sdf; cbn. unfold Fq. cbn [fst]. three. Qed.
  Lemma hr_jac x : hypred_jacobian o recon3 hrdf phi3 vUJ BDF1 [(3 / 2, tt)] 0 (1 / 4) x = DFq x.
  Proof. destruct x as [x []]. cbn. unfold vUJ, vU, hrf, hrdf, sf, sdf; cbn. unfold DFq. cbn [fst]. apply (f_equal (fun c : Y2 => (c, tt) : J21)); three. Qed.
  Definition h_g0 := lspg_create o BDF1 ((0, tt) : V1) (tconst 0 2 : Y2) (tconst 0 3) (fresh_policy (Y:=Y3) 0%nat) (0, tt) (reg0 eps 2 ls_diags).
  Notation h_g0_step := (implicit_step o (hypred_policy o (tvec o 3) recon3 (vfom hrf hrdf) phi3 vup) gn BDF1).
  Example ex_hyper_reduced : exists g0 y' g' tr, h_g0 = Ok g0 /\
      advance_n_steps o (mk_user (split_obs obs) (pol3 (split_pol quarter)) noop_guess (split_step (implicit_fn h_g0_step))) (Z.of_nat 1) 0 ((3 / 2, tt), (g0, tt), [])
        = (Ok tt, (y', (g', tt), tr)) /\ apart no y' best <= 2 / 75.
  Proof.
    assert (K : exists g0, h_g0 = Ok g0) by (eexists; reflexivity). destruct K as [g0 K].
    destruct (C98_hyper_reduced_n_steps eps _ _ _ _ _ _ _ nat unit (tvec o 3) (tvec_space o (R_field eps) 3) recon3 (vfom hrf hrdf) phi3 hrf hrdf (proj1 (fom_parts hrf hrdf phi3)) (proj2 (fom_parts hrf hrdf phi3)) vup _ _ (proj1 ex_rv_updater) (proj2 ex_rv_updater)
                no (tvec o 2) (tapply o) (tapply o) (tuple_laws eps 2 1) xt (ex_linear eps 2) _ _ (ex_weights eps 2 nothing) GaussNewton gcf ex_gn_settings
                obs 0%nat BDF1 _ _ _ _ (reg0 eps 2 ls_diags) g0 (proj1 (ex_objects eps 2)) K quarter 1%nat 0 (3 / 2, tt) tt eq_refl (fun _ _ _ _ => eq_refl) (fun _ _ _ _ => ex_intro _ (1 / 4) eq_refl))
      as (y' & g' & [] & tr & l & E & El & HR & Hy & Hl).
    exists g0, y', g', tr. split; [exact K|]. split; [exact E|]. apply (one_step _ _ _ _ _ _ _ _ E El HR Hy) in Hl.
    refine (lands_close _ _ _ _ _ Hl); [exact hr_res|exact hr_jac].
  Qed.
  Example ex_hyper_reduced_target : forall recovery fuel, 0 <= eps -> (4 < fuel)%nat -> exists g0 y' g' tr, h_g0 = Ok g0 /\
      to_target o (mk_user (split_obs obs) (split_pol to_one) noop_guess (split_step (implicit_fn h_g0_step))) recovery fuel 0 1 ((3 / 2, tt), (g0, tt), [])
        = (Ok tt, (y', (g', tt), tr)).
  Proof.
    intros recovery fuel He Hf.
    assert (K : exists g0, h_g0 = Ok g0) by (eexists; reflexivity). destruct K as [g0 K].
    destruct (C98_hyper_reduced_to_target eps _ _ _ _ _ _ _ nat unit (tvec o 3) (tvec_space o (R_field eps) 3) recon3 (vfom hrf hrdf) phi3 hrf hrdf (proj1 (fom_parts hrf hrdf phi3)) (proj2 (fom_parts hrf hrdf phi3)) vup _ _ (proj1 ex_rv_updater) (proj2 ex_rv_updater)
                no (tvec o 2) (tapply o) (tapply o) (tuple_laws eps 2 1) xt (ex_linear eps 2) _ _ (ex_weights eps 2 nothing) GaussNewton gcf ex_gn_settings
                obs 0%nat BDF1 _ _ _ _ (reg0 eps 2 ls_diags) g0 (proj1 (ex_objects eps 2)) K to_one recovery (1 / 4) 4%nat fuel 0 1 (3 / 2, tt) tt He (fun _ _ _ _ => eq_refl) (steps_one recovery))
      as (y' & g' & [] & tr & l & E & _); [lra|cbn; lra|exact Hf|reflexivity|exists g0, y', g', tr; split; [exact K|exact E]].
  Qed.

  (** Hyper-reduced and scaled *)
  Definition hsf (y : Y3) (t : R) : Y2 := sf (snd y) t.
  Definition hsdf (y : Y3) (p : J31) (t : R) : J21 := sdf (snd y) (snd (fst p), tt) t.
  Lemma hs_res x : scaled_at o recon3 (fun _ _ => twice) (hypred_res o (tvec o 3) recon3 hsf vU BDF1) [(3 / 2, tt)] 0 (1 / 4) x = Fq x.
  Proof. destruct x as [x []]. cbn. unfold vUJ, vU, hsf, hsdf, hrf, hrdf, sf, sdf; cbn. unfold Fq. cbn [fst]. three. Qed.
  Lemma hs_jac x : scaled_at o recon3 (fun _ _ => vscale (mat_ops eps 2 1) 2) (hypred_jacobian o recon3 hsdf phi3 vUJ BDF1) [(3 / 2, tt)] 0 (1 / 4) x = DFq x.
  Proof. destruct x as [x []]. cbn. unfold vUJ, vU, hsf, hsdf, hrf, hrdf, sf, sdf; cbn. unfold DFq. cbn [fst]. apply (f_equal (fun c : Y2 => (c, tt) : J21)); three. Qed.
  Definition hs_g0 := lspg_create o BDF1 ((0, tt) : V1) (tconst 0 2 : Y2) (tconst 0 3) (fresh_policy (Y:=Y3) 0%nat) (0, tt) (reg0 eps 2 ls_diags).
  Notation hs_g0_step := (implicit_step o (scaled_policy (hypred_policy o (tvec o 3) recon3 (vfom hsf hsdf) phi3 vup) vscaler) gn BDF1).
  Example ex_scaled_hyper_reduced : exists g0 y' g' tr, hs_g0 = Ok g0 /\
      advance_n_steps o (mk_user (split_obs obs) (pol3 (split_pol quarter)) noop_guess (split_step (implicit_fn hs_g0_step))) (Z.of_nat 1) 0 ((3 / 2, tt), (g0, tt), [])
        = (Ok tt, (y', (g', tt), tr)) /\ apart no y' best <= 2 / 75.
  Proof.
    assert (K : exists g0, hs_g0 = Ok g0) by (eexists; reflexivity). destruct K as [g0 K].
    destruct (C98_scaled_hyper_reduced_n_steps eps _ _ _ _ _ _ _ nat unit (tvec o 3) (tvec_space o (R_field eps) 3) recon3 (vfom hsf hsdf) phi3 hsf hsdf (proj1 (fom_parts hsf hsdf phi3)) (proj2 (fom_parts hsf hsdf phi3)) vup _ _ (proj1 ex_rv_updater) (proj2 ex_rv_updater) vscaler _ _ (proj1 (ex_rv_scaler Y3)) (proj2 (ex_rv_scaler Y3))
                no (tvec o 2) (tapply o) (tapply o) (tuple_laws eps 2 1) xt (ex_linear eps 2) _ _ (ex_weights eps 2 nothing) GaussNewton gcf ex_gn_settings
                obs 0%nat BDF1 _ _ _ _ (reg0 eps 2 ls_diags) g0 (proj1 (ex_objects eps 2)) K quarter 1%nat 0 (3 / 2, tt) tt eq_refl (fun _ _ _ _ => eq_refl) (fun _ _ _ _ => ex_intro _ (1 / 4) eq_refl))
      as (y' & g' & [] & tr & l & E & El & HR & Hy & Hl).
    exists g0, y', g', tr. split; [exact K|]. split; [exact E|]. apply (one_step _ _ _ _ _ _ _ _ E El HR Hy) in Hl.
    refine (lands_close _ _ _ _ _ Hl); [exact hs_res|exact hs_jac].
  Qed.
  Example ex_scaled_hyper_reduced_target : forall recovery fuel, 0 <= eps -> (4 < fuel)%nat -> exists g0 y' g' tr, hs_g0 = Ok g0 /\
      to_target o (mk_user (split_obs obs) (split_pol to_one) noop_guess (split_step (implicit_fn hs_g0_step))) recovery fuel 0 1 ((3 / 2, tt), (g0, tt), [])
        = (Ok tt, (y', (g', tt), tr)).
  Proof.
    intros recovery fuel He Hf.
    assert (K : exists g0, hs_g0 = Ok g0) by (eexists; reflexivity). destruct K as [g0 K].
    destruct (C98_scaled_hyper_reduced_to_target eps _ _ _ _ _ _ _ nat unit (tvec o 3) (tvec_space o (R_field eps) 3) recon3 (vfom hsf hsdf) phi3 hsf hsdf (proj1 (fom_parts hsf hsdf phi3)) (proj2 (fom_parts hsf hsdf phi3)) vup _ _ (proj1 ex_rv_updater) (proj2 ex_rv_updater) vscaler _ _ (proj1 (ex_rv_scaler Y3)) (proj2 (ex_rv_scaler Y3))
                no (tvec o 2) (tapply o) (tapply o) (tuple_laws eps 2 1) xt (ex_linear eps 2) _ _ (ex_weights eps 2 nothing) GaussNewton gcf ex_gn_settings
                obs 0%nat BDF1 _ _ _ _ (reg0 eps 2 ls_diags) g0 (proj1 (ex_objects eps 2)) K to_one recovery (1 / 4) 4%nat fuel 0 1 (3 / 2, tt) tt He (fun _ _ _ _ => eq_refl) (steps_one recovery))
      as (y' & g' & [] & tr & l & E & _); [lra|cbn; lra|exact Hf|reflexivity|exists g0, y', g', tr; split; [exact K|exact E]].
  Qed.

  (** Fully discrete: the user's own implicit Euler residual *)
  Definition vdfom {Rs J B} (Rd : Z -> R -> R -> Y2 -> list Y2 -> Rs) (Jd : Z -> R -> R -> Y2 -> list Y2 -> J)
    (step : Z) (t dt : R) (r : Rs) (p : B) (Jo : option J) (y : Y2) (older : list Y2) (w : nat) : outcome unit * (Rs * option J * nat) :=
    (Ok tt, (Rd step t dt y older, option_map (fun _ => Jd step t dt y older) Jo, Datatypes.S w)).
  Lemma vdfom_parts {Rs J B} Rd Jd (phi : B) : dfom_is (vdfom (Rs:=Rs) (J:=J) Rd Jd) phi Rd Jd /\ dfom_returns (vdfom Rd Jd) phi.
  Proof.
    split; [|intros step t dt r Jo y older w; reflexivity].
    intros step t dt r Jo y older w r' j' w' E. injection E as <- <- _. split; [reflexivity|]. intros j ->. reflexivity.
  Qed.
  Definition dR (step : Z) (t dt : R) (y : Y2) (older : list Y2) : Y2 := bdf1_R o (tvec o 2) (hd (tconst 0 2) older) dt (gf y t) y.
  Definition dJ (step : Z) (t dt : R) (y : Y2) (older : list Y2) : J21 := scheme_J o (mat_ops eps 2 1) gphi 1 dt (gdf y gphi t).
  Lemma fd_res x : discrete_at o grecon (tconst 0 2) false dR [(3 / 2, tt)] 0 (1 / 4) x = Fq x.
  Proof. destruct x as [x []]. cbn. unfold Fq. cbn [fst]. three. Qed.
  Lemma fd_jac x : discrete_at o grecon (tconst 0 2) false dJ [(3 / 2, tt)] 0 (1 / 4) x = DFq x.
  Proof. destruct x as [x []]. cbn. unfold DFq. cbn [fst]. apply f_equal2; [three|reflexivity]. Qed.
  Definition d_g0 := discrete_create o (total false) ((0, tt) : V1) (tconst 0 2 : Y2) 0%nat (0, tt) (reg0 eps 2 ls_diags).
  Notation d_g0_step := (arb_step o (fd_system grecon (total false) (lspg_discrete (vdfom dR dJ) gphi)) gn (total false - 1)).
  Example ex_fully_discrete : exists g0 y' g' tr, d_g0 = Ok g0 /\
      advance_n_steps o (mk_user (split_obs obs) (pol3 (split_pol quarter)) noop_guess (split_step (arb_fn d_g0_step))) (Z.of_nat 1) 0 ((3 / 2, tt), (g0, tt), [])
        = (Ok tt, (y', (g', tt), tr)) /\ apart no y' best <= 2 / 75.
  Proof.
    assert (K : exists g0, d_g0 = Ok g0) by (eexists; reflexivity). destruct K as [g0 K].
    destruct (C98_fully_discrete_n_steps eps _ _ _ _ _ _ _ nat unit grecon (vdfom dR dJ) gphi dR dJ (proj1 (vdfom_parts dR dJ gphi)) (proj2 (vdfom_parts dR dJ gphi))
                no (tvec o 2) (tapply o) (tapply o) (tuple_laws eps 2 1) xt (ex_linear eps 2) _ _ (ex_weights eps 2 nothing) GaussNewton gcf ex_gn_settings
                obs false _ _ 0%nat _ (reg0 eps 2 ls_diags) g0 (proj1 (ex_objects eps 2)) K quarter 1%nat 0 (3 / 2, tt) tt eq_refl (fun _ _ _ _ => eq_refl) (fun _ _ _ _ => ex_intro _ (1 / 4) eq_refl))
      as (y' & g' & [] & tr & l & E & El & HR & Hy & Hl).
    exists g0, y', g', tr. split; [exact K|]. split; [exact E|]. apply (one_step _ _ _ _ _ _ _ _ E El HR Hy) in Hl.
    refine (lands_close _ _ _ _ _ Hl); [exact fd_res|exact fd_jac].
  Qed.
  Example ex_fully_discrete_target : forall recovery fuel, 0 <= eps -> (4 < fuel)%nat -> exists g0 y' g' tr, d_g0 = Ok g0 /\
      to_target o (mk_user (split_obs obs) (split_pol to_one) noop_guess (split_step (arb_fn d_g0_step))) recovery fuel 0 1 ((3 / 2, tt), (g0, tt), [])
        = (Ok tt, (y', (g', tt), tr)).
  Proof.
    intros recovery fuel He Hf.
    assert (K : exists g0, d_g0 = Ok g0) by (eexists; reflexivity). destruct K as [g0 K].
    destruct (C98_fully_discrete_to_target eps _ _ _ _ _ _ _ nat unit grecon (vdfom dR dJ) gphi dR dJ (proj1 (vdfom_parts dR dJ gphi)) (proj2 (vdfom_parts dR dJ gphi))
                no (tvec o 2) (tapply o) (tapply o) (tuple_laws eps 2 1) xt (ex_linear eps 2) _ _ (ex_weights eps 2 nothing) GaussNewton gcf ex_gn_settings
                obs false _ _ 0%nat _ (reg0 eps 2 ls_diags) g0 (proj1 (ex_objects eps 2)) K to_one recovery (1 / 4) 4%nat fuel 0 1 (3 / 2, tt) tt He (fun _ _ _ _ => eq_refl) (steps_one recovery))
      as (y' & g' & [] & tr & l & E & _); [lra|cbn; lra|exact Hf|reflexivity|exists g0, y', g', tr; split; [exact K|exact E]].
  Qed.

  (** Fully discrete Galerkin, projected by the basis: y1' = 4 y1 + 2 - 4 y1^2 *)
  Notation no1 := (tuple_ops o sqrt 1 1).
  Notation xt1 := (mgs_exts eps 1 1 (fun r => r) (fun j => j) false).
  Notation J11 := (mat (S:=R) 1 1).
  Definition along (p : J21) (v : Y2) : V1 := (fst (fst p) * fst v + fst (snd (fst p)) * fst (snd v), tt).
  Definition prodv (a : R) (p : J21) (v : Y2) (b : R) (r : V1) : V1 := vadd (tvec o 1) (vscale (tvec o 1) a (along p v)) (vscale (tvec o 1) b r).
  Definition prodj (a : R) (p : J21) (m : J21) (b : R) (r : J11) : J11 :=
    vadd (mat_ops eps 1 1) (vscale (mat_ops eps 1 1) a (along p (fst m), tt)) (vscale (mat_ops eps 1 1) b r).
  Example ex_rv_projections : projections (W:=nat) o (tvec o 1) (mat_ops eps 1 1) gphi (project_by o prodv gphi) (project_by o prodj gphi)
    (fun _ => along gphi) (fun _ m => (along gphi (fst m), tt) : J11).
  Proof. apply (ByBasis o (tvec o 1) (mat_ops eps 1 1) gphi prodv prodj (along gphi) (fun m => (along gphi (fst m), tt) : J11)); intros a v b r; reflexivity. Qed.
  Definition eR (step : Z) (t dt : R) (y : Y2) (older : list Y2) : Y2 :=
    (fst y - fst (hd (tconst 0 2) older) - dt * (4 * fst y + 2 - 4 * (fst y * fst y)), (fst y + 9, tt)).
  Definition eJ (step : Z) (t dt : R) (y : Y2) (older : list Y2) : J21 := ((1 - dt * (4 - 8 * fst y), (1, tt)), tt).
  Lemma gal_res x : projected_at o grecon (tconst 0 2) false (fun _ => along gphi) eR [(3 / 2, tt)] 0 (1 / 4) x = F1 x.
  Proof. destruct x as [x []]. unfold F1, projected_at, discrete_at, along, eR; cbn. apply f_equal2; [field|reflexivity]. Qed.
  Lemma gal_jac x : projected_at o grecon (tconst 0 2) false (fun _ m => (along gphi (fst m), tt) : J11) eJ [(3 / 2, tt)] 0 (1 / 4) x = DF1 x.
  Proof. destruct x as [x []]. unfold DF1, projected_at, discrete_at, along, eJ; cbn. apply f_equal2; [apply f_equal2; [field|reflexivity]|reflexivity]. Qed.
  Definition ncf : config R := mk_config 100 WhenAbsResidual (1 / 1000) UStandard None.
  Lemma gal_starts : starts_well no1 (tvec o 1) (tapply o) ncf F1 DF1 (3 / 2, tt) 1.
  Proof.
    exists (1 / 2), (1 / 2), 2, 0, 1. split; [exact (ex_around eps)|]. split; [split; reflexivity|]. split; [discriminate|].
    exists 2%nat. split; [|cbn; lia]. cbn [f_tol ncf]. replace (n_rnorm no1 (F1 (3 / 2, tt))) with (1 / 4).
    - unfold quadratic, rate. cbn. lra.
    - cbn. unfold tdot. cbn. change (sadd o) with Rplus; change (smul o) with Rmult; change (s0 o) with 0. rewrite abs_1. rewrite Rabs_right; lra.
  Qed.
  Lemma gal_close x : solved_each no1 (tapply o) ncf (projected_at o grecon (tconst 0 2) false (fun _ => along gphi) eR)
    (projected_at o grecon (tconst 0 2) false (fun _ m => (along gphi (fst m), tt) : J11) eJ) [(3 / 2, tt)] 0 (1 / 4) x -> Rabs (fst x * fst x - 2) <= 1 / 1000.
  Proof.
    cbn [solved_each]. intros K. specialize (K 1).
    replace (projected_at o grecon (tconst 0 2) false (fun _ => along gphi) eR [(3 / 2, tt)] 0 (1 / 4)) with F1 in K by (extensionality z; symmetry; apply gal_res).
    replace (projected_at o grecon (tconst 0 2) false (fun _ m => (along gphi (fst m), tt) : J11) eJ [(3 / 2, tt)] 0 (1 / 4)) with DF1 in K by (extensionality z; symmetry; apply gal_jac).
    specialize (K gal_starts). destruct x as [x []]. cbn [f_tol ncf] in K. revert K. cbn. unfold tdot. cbn.
    change (sadd o) with Rplus; change (smul o) with Rmult; change (s0 o) with 0. rewrite abs_1. lra.
  Qed.
  Example ex_rv_newton : newton_absolute ncf /\ (1 <= f_max ncf)%Z.
  Proof. repeat split; cbn; auto; unfold int32_max; lia. Qed.
  Definition e_g0 := discrete_create o (total false) ((0, tt) : V1) (tconst 0 2 : Y2) ((tconst 0 2 : Y2), (tconst (tconst 0 2) 1 : J21), 0%nat) (0, tt) (reg0 eps 1 root_diags).
  Notation e_g0_step := (arb_step o (fd_system grecon (total false) (galerkin_discrete (vdfom eR eJ) gphi (project_by o prodv gphi) (project_by o prodj gphi))) (as_solver (root_solve o no1 xt1 ncf)) (total false - 1)).
  Example ex_galerkin_fully_discrete : exists g0 y' g' tr, e_g0 = Ok g0 /\
      advance_n_steps o (mk_user (split_obs obs) (pol3 (split_pol quarter)) noop_guess (split_step (arb_fn e_g0_step))) (Z.of_nat 1) 0 ((3 / 2, tt), (g0, tt), [])
        = (Ok tt, (y', (g', tt), tr)) /\ Rabs (fst y' * fst y' - 2) <= 1 / 1000.
  Proof.
    assert (K : exists g0, e_g0 = Ok g0) by (eexists; reflexivity). destruct K as [g0 K].
    destruct (C98_galerkin_fully_discrete_n_steps eps _ _ _ _ _ _ _ _ nat unit (tvec o 1) (mat_ops eps 1 1) (tvec_space o (R_field eps) 1) (mat_space eps 1 1) grecon (vdfom eR eJ) gphi eR eJ (proj1 (vdfom_parts eR eJ gphi)) (proj2 (vdfom_parts eR eJ gphi)) _ _ _ _ ex_rv_projections (fun _ _ _ _ => eq_refl) (fun _ _ _ _ => eq_refl)
                no1 (tapply o) (tapply o) (tuple_laws eps 1 1) xt1 (ex_linear eps 1) ncf (proj1 ex_rv_newton) (proj2 ex_rv_newton)
                obs false _ _ _ _ (reg0 eps 1 root_diags) g0 (proj2 (ex_objects eps 1)) K quarter 1%nat 0 (3 / 2, tt) tt eq_refl (fun _ _ _ _ => eq_refl) (fun _ _ _ _ => ex_intro _ (1 / 4) eq_refl))
      as (y' & g' & [] & tr & l & E & El & HR & Hy & Hl).
    exists g0, y', g', tr. split; [exact K|]. split; [exact E|]. apply (one_step _ _ _ _ _ _ _ _ E El HR Hy) in Hl.
    exact (gal_close _ Hl).
  Qed.
  Example ex_galerkin_fully_discrete_target : forall recovery fuel, 0 <= eps -> (4 < fuel)%nat -> exists g0 y' g' tr, e_g0 = Ok g0 /\
      to_target o (mk_user (split_obs obs) (split_pol to_one) noop_guess (split_step (arb_fn e_g0_step))) recovery fuel 0 1 ((3 / 2, tt), (g0, tt), [])
        = (Ok tt, (y', (g', tt), tr)).
  Proof.
    intros recovery fuel He Hf.
    assert (K : exists g0, e_g0 = Ok g0) by (eexists; reflexivity). destruct K as [g0 K].
    destruct (C98_galerkin_fully_discrete_to_target eps _ _ _ _ _ _ _ _ nat unit (tvec o 1) (mat_ops eps 1 1) (tvec_space o (R_field eps) 1) (mat_space eps 1 1) grecon (vdfom eR eJ) gphi eR eJ (proj1 (vdfom_parts eR eJ gphi)) (proj2 (vdfom_parts eR eJ gphi)) _ _ _ _ ex_rv_projections (fun _ _ _ _ => eq_refl) (fun _ _ _ _ => eq_refl)
                no1 (tapply o) (tapply o) (tuple_laws eps 1 1) xt1 (ex_linear eps 1) ncf (proj1 ex_rv_newton) (proj2 ex_rv_newton)
                obs false _ _ _ _ (reg0 eps 1 root_diags) g0 (proj2 (ex_objects eps 1)) K to_one recovery (1 / 4) 4%nat fuel 0 1 (3 / 2, tt) tt He (fun _ _ _ _ => eq_refl) (steps_one recovery))
      as (y' & g' & [] & tr & l & E & _); [lra|cbn; lra|exact Hf|reflexivity|exists g0, y', g', tr; split; [exact K|exact E]].
  Qed.
End Ex.

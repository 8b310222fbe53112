(** Concrete cases meeting the hypotheses of the theorems in [PropLspgGn.v]: the FOM y1' = -6, y2' = 1 - y1^2, the trial space of the first
    coordinate, one implicit Euler step of size 1/4 from 3/2. Its residual is (x, (x^2 - 1)/4), smallest at 0, where it is (0, -1/4). *)
From Coq Require Import Reals ZArith List Bool Lia Lra.
From Verif Require Import Base RInst Laws LawInst AdvanceModel AdvanceSpec AdvanceProofs TargetProofs Track ExplicitModel ImplicitModel ImplicitSpec
  NonlinDiag NonlinModel NonlinWp NonlinSpec NonlinRuns NonlinLaws NonlinExact NonlinReal NonlinTheory Tuples QrModel QrSpec QrProofs QrSolve QrExts QrEnd
  ExNonlin NewtonSpec NewtonProofs NewtonClaims GaussSpec GaussProofs GaussClaims ExNewton ExGauss LspgModel LspgSpec RomRunSpec RomLsSpec CompleteRun LspgGnSpec LspgGnClaims PropLspgGn.
Import ListNotations.
Local Open Scope R_scope.

Section Ex.
  Variable eps : R.
  Notation o := (Rops eps).
  Notation V1 := (tup R 1).
  Notation Y2 := (tup R 2).
  Notation J21 := (mat (S:=R) 2 1).
  Notation no := (tuple_ops o sqrt 2 1).
  Notation xt := (mgs_exts eps 2 1 (fun r => r) (fun j => j) false).
  Definition gf (y : Y2) (t : R) : Y2 := (- (6), (1 - fst y * fst y, tt)).
  Definition gdf (y : Y2) (p : J21) (t : R) : J21 := ((0, (- (2) * fst y * fst (fst p), tt)), tt).
  Definition gfom : sfom (S:=R) (Y:=Y2) (R:=Y2) (J:=J21) (B:=J21) (W:=nat) :=
    mk_sfom (fun y t r w => (Ok tt, (gf y t, Datatypes.S w))) (fun y p t j w => (Ok tt, (gdf y p t, w))).
  Definition gphi : J21 := ((1, (0, tt)), tt).
  Definition grecon (v : V1) : Y2 := (fst v, (0, tt)).
  Example ex_gn_fom : smooth_fom gfom gphi gf gdf.
  Proof. split; [intros y t r w; exists (Datatypes.S w)|intros y t j w; exists w]; reflexivity. Qed.

  Definition Fq (v : V1) : Y2 := (fst v, ((fst v * fst v - 1) / 4, tt)).
  Definition DFq (v : V1) : J21 := ((1, (fst v / 2, tt)), tt).
  Ltac flat := cbn; unfold tdot; cbn; change (sadd o) with Rplus; change (smul o) with Rmult; change (s0 o) with 0.
  Lemma gn_res x : lspg_res o (tvec o 2) grecon gf BDF1 [(3 / 2, tt)] 0 (1 / 4) x = Fq x.
  Proof. destruct x as [x []]. cbn. unfold Fq. cbn [fst]. f_equal; [|f_equal]; field. Qed.
  Lemma gn_jac x : lspg_jacobian o (mat_ops eps 2 1) grecon gdf gphi BDF1 [(3 / 2, tt)] 0 (1 / 4) x = DFq x.
  Proof. destruct x as [x []]. cbn. unfold DFq. cbn [fst]. f_equal. f_equal; [|f_equal]; field. Qed.
  Lemma gslopes : forall x v, sqrt ((v * 1 + 0) * (v * 1 + 0) + ((v * (x / 2) + 0) * (v * (x / 2) + 0) + 0)) = sqrt (1 + x * x / 4) * Rabs v.
  Proof.
    intros x v. replace ((v * 1 + 0) * (v * 1 + 0) + ((v * (x / 2) + 0) * (v * (x / 2) + 0) + 0)) with ((1 + x * x / 4) * Rsqr v) by (unfold Rsqr; field).
    rewrite sqrt_mult by (unfold Rsqr; nra). rewrite sqrt_Rsqr_abs. reflexivity.
  Qed.
  Lemma gslope_lo : forall x, 1 <= sqrt (1 + x * x / 4).
  Proof. intros x. rewrite <- (sqrt_square 1) at 1 by lra. apply sqrt_le_1_alt. nra. Qed.
  Lemma gslope_hi : forall x, - (2) <= x <= 2 -> sqrt (1 + x * x / 4) <= 3 / 2.
  Proof. intros x Hx. rewrite <- (sqrt_square (3 / 2)) by lra. apply sqrt_le_1_alt. nra. Qed.
  Lemma gq_minimum : regular_minimum no (tvec o 2) (tapply o) Fq DFq best 2 1 (1 / 2) (1 / 4).
  Proof.
    constructor; try lra.
    - intros [v []]. flat. field.
    - flat. rewrite second. replace ((0 * 0 - 1) / 4) with (- (1 / 4)) by field. rewrite Rabs_Ropp, Rabs_right; lra.
    - intros [x []] Hx [v []]. flat. rewrite abs_1, gslopes. pose proof (gslope_lo x). pose proof (Rabs_pos v).
      assert (1 * Rabs v <= sqrt (1 + x * x / 4) * Rabs v) by (apply Rmult_le_compat_r; assumption). lra.
    - intros [x []] Hx. unfold best in *. rewrite apart_1 in *. flat.
      replace ((x + - (1) * 0) * 1 + 0 + - (1) * (x + - (1) * 0)) with 0 by ring.
      replace ((x + - (1) * 0) * (x / 2) + 0 + - (1) * ((x * x - 1) / 4 + - (1) * ((0 * 0 - 1) / 4))) with (1 / 4 * (x * x)) by field.
      rewrite second, !Rabs_mult. replace (x - 0) with x by ring. rewrite (Rabs_right (1 / 4)) by lra. lra.
    - intros [x []] [v []] Hx. unfold best in *. rewrite apart_1 in *. flat.
      replace (v * 1 + 0 + - (1) * (v * 1 + 0)) with 0 by ring.
      replace (v * (x / 2) + 0 + - (1) * (v * (0 / 2) + 0)) with (1 / 2 * (x - 0) * v) by field.
      rewrite second, abs_1, !Rabs_mult, (Rabs_right (1 / 2)) by lra. lra.
  Qed.
  Lemma minimum_ext F F' DF DF' rad beta gamma rho : (forall x, F' x = F x) -> (forall x, DF' x = DF x) ->
    regular_minimum no (tvec o 2) (tapply o) F DF best rad beta gamma rho -> regular_minimum no (tvec o 2) (tapply o) F' DF' best rad beta gamma rho.
  Proof.
    intros E1 E2 [G1 G2 G3 G4 G5 G6 G7 G8]. constructor; try assumption.
    - intros v. rewrite E1, E2. apply G1.
    - rewrite E1. exact G2.
    - intros x Hx v. rewrite E2. exact (G5 x Hx v).
    - intros x Hx. rewrite !E1, E2. exact (G6 x Hx).
    - intros x v Hx. rewrite !E2. exact (G7 x v Hx).
  Qed.
  Example ex_gn_minimum : regular_minimum no (tvec o 2) (tapply o) (lspg_res o (tvec o 2) grecon gf BDF1 [(3 / 2, tt)] 0 (1 / 4))
    (lspg_jacobian o (mat_ops eps 2 1) grecon gdf gphi BDF1 [(3 / 2, tt)] 0 (1 / 4)) best 2 1 (1 / 2) (1 / 4).
  Proof. exact (minimum_ext _ _ _ _ _ _ _ _ gn_res gn_jac gq_minimum). Qed.
  Definition gcf : config R := mk_config 100 WhenAbsGradient (1 / 100) UStandard None.
  Example ex_gn_settings : gauss_newton GaussNewton gcf.
  Proof. split; [left; reflexivity|]. split; [reflexivity|]. cbn. unfold int32_max. lia. Qed.
  (** every state found by a step landing as C97 says is within 2/75 of 0 *)
  Lemma gn_within x : lands_each no (tvec o 2) (tapply o) (tapply o) GaussNewton gcf (lspg_res o (tvec o 2) grecon gf BDF1)
    (lspg_jacobian o (mat_ops eps 2 1) grecon gdf gphi BDF1) [(3 / 2, tt)] 0 (1 / 4) x -> apart no x best <= 2 / 75.
  Proof.
    intros HP. assert (H0 : apart no (3 / 2, tt) best = 3 / 2) by (unfold best; rewrite apart_1, Rabs_right; lra).
    destruct (HP best _ _ _ _ ex_gn_minimum) as [_ K].
    - rewrite H0. lra.
    - intros [z []] Hz r. exists ((fst r + z / 2 * fst (snd r)) / (1 + z * z / 4), tt). unfold normal_exact. rewrite gn_jac. flat.
      f_equal. field. nra.
    - eapply Rle_trans; [apply (K (3 / 2) (2 * (3 / 2) ^ 2) (1 ^ 2 / (1 - (1 ^ 2 * (1 / 2) * (1 / 4) + 1 * (1 / 2 / 2) * 2))) 5%nat)|].
      + split; [lra|]. split; reflexivity.
      + intros _ [z []] Hz [v []]. rewrite gn_jac. flat. rewrite abs_1, gslopes. unfold best in Hz. rewrite apart_1 in Hz.
        apply Rmult_le_compat_r; [apply Rabs_pos|]. apply gslope_hi. unfold Rabs in Hz. destruct (Rcase_abs (z - 0)); lra.
      + rewrite H0. cbn. lra.
      + cbn. lia.
      + cbn [f_tol gcf]. lra.
  Qed.
  Definition g_g0 : outcome (@sst R V1 Y2 (lpol (Y:=Y2) (W:=nat)) _) :=
    lspg_create o BDF1 (0, tt) (tconst 0 2) (tconst 0 2) (fresh_policy 0%nat) (0, tt) (reg0 eps 2 ls_diags).
  Notation stp := (implicit_step o (default_policy o (tvec o 2) (mat_ops eps 2 1) grecon gfom gphi) (as_solver (ls_solve o no xt GaussNewton gcf)) BDF1).
  Example ex_gn_run : exists g0 y' g' tr, g_g0 = Ok g0 /\
      advance_n_steps o (mk_user (split_obs (fun _ _ _ w => (Ok tt, w))) (pol3 (split_pol (fun _ _ _ w => (Ok (1 / 4), w)))) noop_guess
        (split_step (implicit_fn stp))) (Z.of_nat 1) 0 ((3 / 2, tt), (g0, tt), []) = (Ok tt, (y', (g', tt), tr)) /\
      apart no y' best <= 2 / 75.
  Proof.
    assert (K : exists g0, g_g0 = Ok g0) by (eexists; reflexivity). destruct K as [g0 K].
    destruct (C97_n_steps eps _ _ _ _ _ nat unit no (tvec o 2) (mat_ops eps 2 1) (tapply o) (tapply o) (tuple_laws eps 2 1)
                (mat_space eps 2 1) grecon gphi gfom gf gdf ex_gn_fom xt (ex_linear eps 2) _ _
                (ex_weights eps 2 nothing) GaussNewton gcf ex_gn_settings
                (fun _ _ _ w => (Ok tt, w)) 0%nat BDF1 _ _ _ _ (reg0 eps 2 ls_diags) g0 (proj1 (ex_objects eps 2)) K
                (fun _ _ _ w => (Ok (1 / 4), w)) 1%nat 0 (3 / 2, tt) tt eq_refl (fun _ _ _ _ => eq_refl) (fun _ _ _ _ => ex_intro _ (1 / 4) eq_refl))
      as (y' & g' & [] & tr & l & E & El & HR & Hy & Hl & d0 & l0 & Ee).
    exists g0, y', g', tr. split; [exact K|]. split; [exact E|].
    pose proof E as Er. eapply (n_steps_fixed o _ _ _ _ (1 / 4)) in Er; [|intros k t d w dt w' Ep; cbv [split_pol] in Ep; injection Ep as <- _; reflexivity|reflexivity].
    rewrite HR in Er.
    destruct l as [|[[t1 d1] y1] [|[[t2 d2] y2] [|? ?]]]; try discriminate El.
    destruct l0 as [|? [|? [|? ?]]]; try discriminate Ee. cbn [app] in Ee.
    pose proof (f_equal (fun q => nth 1 q (0, 0, best)) Ee) as Ee2. cbn [nth] in Ee2. injection Ee2 as E2t _ E2y.
    cbn [linked map snd fst] in Hl. destruct Hl as (Hd & HP & _). rewrite E2t in Hd, HP. rewrite E2y in HP. cbn [hd map snd] in Hy. subst y1.
    cbn in Er. injection Er as _ Et. rewrite Hd in Et. assert (Ed : d1 = 1 / 4) by lra. rewrite Ed in HP.
    apply gn_within. exact HP.
  Qed.
  (** from 0 to 1, with or without recovery: at most four steps *)
  Example ex_gn_target : forall recovery fuel, 0 <= eps -> (4 < fuel)%nat -> exists g0 y' g' tr, g_g0 = Ok g0 /\
      to_target o (mk_user (split_obs (fun _ _ _ w => (Ok tt, w))) (split_pol (fun _ _ _ w => (Ok (1 / 4, 1 / 10, 2), w))) noop_guess
        (split_step (implicit_fn stp))) recovery fuel 0 1 ((3 / 2, tt), (g0, tt), []) = (Ok tt, (y', (g', tt), tr)).
  Proof.
    intros recovery fuel He Hf.
    assert (K : exists g0, g_g0 = Ok g0) by (eexists; reflexivity). destruct K as [g0 K].
    destruct (C97_to_target eps _ _ _ _ _ nat unit no (tvec o 2) (mat_ops eps 2 1) (tapply o) (tapply o) (tuple_laws eps 2 1)
                (mat_space eps 2 1) grecon gphi gfom gf gdf ex_gn_fom xt (ex_linear eps 2) _ _
                (ex_weights eps 2 nothing) GaussNewton gcf ex_gn_settings
                (fun _ _ _ w => (Ok tt, w)) 0%nat BDF1 _ _ _ _ (reg0 eps 2 ls_diags) g0 (proj1 (ex_objects eps 2)) K
                (fun _ _ _ w => (Ok (1 / 4, 1 / 10, 2), w)) recovery (1 / 4) 4%nat fuel 0 1 (3 / 2, tt) tt He (fun _ _ _ _ => eq_refl))
      as (y' & g' & [] & tr & l & E & _); [|lra|cbn; lra|exact Hf|reflexivity|exists g0, y', g', tr; split; [exact K|exact E]].
    intros k t x u. exists (1 / 4), (1 / 10), 2. split; [reflexivity|]. repeat split; lra.
  Qed.
  (** y1' = - y1^2, y2' = 0: the step of size 1/4 from 5/4 leads to 1 and stays in the trial space *)
  Definition hf (y : Y2) (t : R) : Y2 := (- (fst y * fst y), (0, tt)).
  Definition hdf (y : Y2) (p : J21) (t : R) : J21 := ((- (2) * fst y * fst (fst p), (0, tt)), tt).
  Lemma h_jac x : lspg_jacobian o (mat_ops eps 2 1) grecon hdf gphi BDF1 [(5 / 4, tt)] 0 (1 / 4) x = ((1 + fst x / 2, (0, tt)), tt).
  Proof. destruct x as [x []]. cbn. f_equal. f_equal; [|f_equal]; field. Qed.
  Lemma h_res x : lspg_res o (tvec o 2) grecon hf BDF1 [(5 / 4, tt)] 0 (1 / 4) x = (fst x + fst x * fst x / 4 - 5 / 4, (0, tt)).
  Proof. destruct x as [x []]. cbn. f_equal; [|f_equal]; field. Qed.
  Lemma first_only : forall a b, b = 0 -> sqrt (a * a + (b * b + 0)) = Rabs a.
  Proof. intros a b ->. replace (a * a + (0 * 0 + 0)) with (Rsqr a) by (unfold Rsqr; ring). apply sqrt_Rsqr_abs. Qed.
  Example ex_gn_fom_step : regular_minimum no (tvec o 2) (tapply o) (lspg_res o (tvec o 2) grecon hf BDF1 [(5 / 4, tt)] 0 (1 / 4))
    (lspg_jacobian o (mat_ops eps 2 1) grecon hdf gphi BDF1 [(5 / 4, tt)] 0 (1 / 4)) (1, tt) 1 1 (1 / 2) 0.
  Proof.
    apply (C97_fom_step eps _ _ _ _ no (tvec o 2) (mat_ops eps 2 1) (tapply o) (tapply o) (tuple_laws eps 2 1) grecon gphi hf hdf); try lra.
    - left. reflexivity.
    - cbn. unfold bdf1_eq, vminus. cbn. unfold grecon; cbn [fst]. apply f_equal2; [field|apply f_equal2; [field|reflexivity]].
    - intros [x []] Hx [v []]. rewrite h_jac. rewrite apart_1 in Hx. flat. rewrite abs_1, first_only by ring.
      replace (v * (1 + x / 2) + 0) with (v * (1 + x / 2)) by ring. rewrite Rabs_mult.
      assert (1 <= Rabs (1 + x / 2)) by (rewrite Rabs_right; unfold Rabs in Hx; destruct (Rcase_abs (x - 1)); lra).
      pose proof (Rabs_pos v). nra.
    - intros [x []] [w1 [w2 []]] t _ _. rewrite h_jac. set (e := x + - (1) * 1).
      apply (derivable_pt_lim_ext (fun u => w1 / 4 * (e * e) * (u * u) + 3 / 2 * w1 * e * u + 0)).
      { intros u. rewrite h_res. flat. unfold e. field. }
      flat. fold e.
      replace ((e * (1 + (1 + t * e) / 2) + 0) * w1 + ((e * 0 + 0) * w2 + 0)) with (w1 / 4 * (e * e) * (1 * t + t * 1) + 3 / 2 * w1 * e * 1 + 0) by field.
      apply (derivable_pt_lim_plus (fun u => w1 / 4 * (e * e) * (u * u) + 3 / 2 * w1 * e * u) (fct_cte _)); [|apply derivable_pt_lim_const].
      apply (derivable_pt_lim_plus (fun u => w1 / 4 * (e * e) * (u * u)) (fun u => 3 / 2 * w1 * e * u)).
      + apply (derivable_pt_lim_scal (fun u => u * u)). apply (derivable_pt_lim_mult id id); apply derivable_pt_lim_id.
      + apply (derivable_pt_lim_scal id). apply derivable_pt_lim_id.
    - intros [x []] [y []] [v []] _ _. rewrite !h_jac, apart_1. flat. rewrite first_only, abs_1 by ring.
      replace (v * (1 + x / 2) + 0 + - (1) * (v * (1 + y / 2) + 0)) with (1 / 2 * (x - y) * v) by field.
      rewrite !Rabs_mult, (Rabs_right (1 / 2)) by lra. lra.
  Qed.
End Ex.

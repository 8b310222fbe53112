(** Concrete cases meeting the hypotheses of the theorems in [PropSteadyNl.v]. Trial space: the first coordinate.
    Galerkin: the FOM is (g(y1), 2 y2 - 2) = 0 with g(a) = a^2 - 2 for a between 1 and 2, continued by its tangents; its solution is
    (sqrt 2, 1), one apart from the trial space. LSPG: (y1, (y1^2 - 1)/4 + y2) = 0, with solution (0, 1/4); and without the -1, with solution (0, 0). *)
From Coq Require Import Reals ZArith List Bool Lia Lra.
From Verif Require Import Base RInst Laws LawInst ExplicitModel ImplicitModel ImplicitSpec
  NonlinDiag NonlinModel NonlinWp NonlinSpec NonlinRuns NonlinLaws NonlinExact NonlinReal NonlinTheory Tuples QrModel QrSpec QrProofs QrSolve QrExts QrEnd
  ExNonlin NewtonSpec NewtonProofs NewtonClaims NewtonRunSpec GaussSpec GaussProofs GaussClaims ExNewton ExGauss ExNewtonRun
  LspgModel GalerkinModel GalerkinSpec SteadyLspgModel SteadyLspgSpec LspgGnSpec ExLspgGn DissipSpec SteadyNlSpec SteadyNlClaims PropSteadyNl.
Import ListNotations.
Local Open Scope R_scope.

Section Ex.
  Variable eps : R.
  Notation o := (Rops eps).
  Notation V1 := (tup R 1).
  Notation Y2 := (tup R 2).
  Notation J21 := (mat (S:=R) 2 1).
  Notation J11 := (mat (S:=R) 1 1).
  Notation no := (tuple_ops o sqrt 2 1).
  Notation no1 := (tuple_ops o sqrt 1 1).
  Notation xt := (mgs_exts eps 2 1 (fun r => r) (fun j => j) false).
  Notation xt1 := (mgs_exts eps 1 1 (fun r => r) (fun j => j) false).
  Notation ip := (tdot o (n:=2)).
  Notation apart := NewtonSpec.apart.
  Ltac reals := change (sadd o) with Rplus; change (smul o) with Rmult; change (s0 o) with 0; change (sopp o) with Ropp.
  Ltac flat := cbn; unfold tdot; cbn; reals.
  Lemma ex_sn_inner : DissipSpec.inner (tvec o 2) ip.
  Proof. exact (dissip_inner (nl_r _ _ _ _ _ (tuple_laws eps 2 1))). Qed.
  Lemma dist_2 a b c d : distance eps (tvec o 2) ip (a, (b, tt)) (c, (d, tt)) = sqrt ((a - c) * (a - c) + (b - d) * (b - d)).
  Proof. unfold distance, length_of, vminus, neg1. flat. f_equal. ring. Qed.

  (** ** Galerkin *)
  Definition bend (a : R) : R := if Rlt_dec a 1 then 2 * a - 3 else if Rlt_dec 2 a then 4 * a - 6 else a * a - 2.
  Definition dbend (a : R) : R := if Rlt_dec a 1 then 2 else if Rlt_dec 2 a then 4 else 2 * a.
  Lemma bend_mid a : 1 <= a <= 2 -> bend a = a * a - 2 /\ dbend a = 2 * a.
  Proof. intros Ha. unfold bend, dbend. destruct (Rlt_dec a 1); [lra|]. destruct (Rlt_dec 2 a); [lra|]. split; reflexivity. Qed.
  Lemma bend_rise a b : a <= b -> 2 * (b - a) <= bend b - bend a <= 4 * (b - a).
  Proof.
    intros Hab. unfold bend.
    destruct (Rlt_dec a 1); destruct (Rlt_dec b 1); destruct (Rlt_dec 2 a); destruct (Rlt_dec 2 b); split; nra.
  Qed.
  Definition bf (y : Y2) : Y2 := (bend (fst y), (2 * fst (snd y) - 2, tt)).
  Definition bdf (y : Y2) (p : J21) : J21 := ((dbend (fst y) * fst (fst p), (2 * fst (snd (fst p)), tt)), tt).
  Definition bdv (y v : Y2) : Y2 := (dbend (fst y) * fst v, (2 * fst (snd v), tt)).
  Definition bfom : steady_fom (Y:=Y2) (Rf:=Y2) (Jf:=J21) (B:=J21) (W:=nat) :=
    mk_steady_fom (fun y r w => (Ok tt, (bf y, Datatypes.S w)))
      (fun y r p j w => (Ok tt, (bf y, option_map (fun _ => bdf y p) j, Datatypes.S w)))
      (fun y v r w => (Ok tt, (bdv y v, w))).
  Example ex_sn_fom : steady_is true (fun _ => True) bfom bf bdf bdv.
  Proof. repeat split. Qed.
  Definition down (v : Y2) : V1 := (fst v, tt).
  Definition downj (m : J21) : J11 := (down (fst m), tt).
  Definition bprodv (a : R) (p : J21) (v : Y2) (b : R) (r : V1) : V1 := vadd (tvec o 1) (vscale (tvec o 1) a (down v)) (vscale (tvec o 1) b r).
  Definition bprodj (a : R) (p : J21) (m : J21) (b : R) (r : J11) : J11 :=
    vadd (mat_ops eps 1 1) (vscale (mat_ops eps 1 1) a (downj m)) (vscale (mat_ops eps 1 1) b r).
  Definition bcmd := steady_default (Rm:=unit) (Jm:=unit) o grecon gphi bprodv bprodj bfom.
  Example ex_sn_problem : galerkin_steady true (fun _ => True) o (tvec o 1) (mat_ops eps 1 1) grecon gphi bfom down downj bcmd.
  Proof. apply DefaultSteady; intros a v b r; reflexivity. Qed.
  Definition scf : config R := mk_config 100 WhenAbsResidual (1 / 1000) UStandard None.
  Example ex_sn_settings : newton_absolute scf.
  Proof. repeat split; cbn; auto; unfold int32_max; lia. Qed.
  Notation Fb := (fun x => down (bf (grecon x))).
  Notation DFb := (fun x => downj (bdf (grecon x) gphi)).
  Lemma at_bend x : 1 <= fst x <= 2 -> Fb x = F1 x /\ DFb x = DF1 x.
  Proof.
    destruct x as [x []]. cbn [fst]. intros Hx. destruct (bend_mid x Hx) as [E1 E2]. unfold F1, DF1, down, downj, down, bf, bdf. cbn [fst snd grecon gphi].
    rewrite E1, E2. split; [reflexivity|]. apply f_equal2; [apply f_equal2; [ring|reflexivity]|reflexivity].
  Qed.
  Example ex_sn_start : starts_well no1 (tvec o 1) (tapply o) scf Fb DFb (3 / 2, tt) 1.
  Proof.
    assert (P : forall x, apart no1 x (3 / 2, tt) <= 1 / 2 -> 1 <= fst x <= 2).
    { intros [x []] Hx. rewrite apart_1 in Hx. cbn [fst]. unfold Rabs in Hx; destruct (Rcase_abs (x - 3 / 2)); lra. }
    assert (E0 : Fb (3 / 2, tt) = F1 (3 / 2, tt)) by (apply at_bend; cbn; lra).
    exists (1 / 2), (1 / 2), 2, 0, 1. split; [|split; [split; reflexivity|split; [discriminate|]]].
    - destruct (ex_around eps) as [A1 A2 A3 A4 A5 A6 A7]. constructor; try assumption.
      + intros x Hx v. rewrite (proj2 (at_bend x (P x Hx))). exact (A3 x Hx v).
      + intros x Hx r. rewrite (proj2 (at_bend x (P x Hx))). exact (A4 x Hx r).
      + intros x d Hx Hd. rewrite (proj2 (at_bend x (P x Hx))), (proj1 (at_bend x (P x Hx))), (proj1 (at_bend _ (P _ Hd))). exact (A5 x d Hx Hd).
      + rewrite E0. exact A6.
      + rewrite E0. exact A7.
    - exists 2%nat. split; [|cbn; lia]. cbn [f_tol scf]. rewrite E0. replace (n_rnorm no1 (F1 (3 / 2, tt))) with (1 / 4).
      + unfold quadratic, rate. cbn. lra.
      + flat. rewrite abs_1. rewrite Rabs_right; lra.
  Qed.
  Definition bsol : Y2 := (sqrt 2, (1, tt)).
  Example ex_sn_solution : bf bsol = vzero (tvec o 2).
  Proof.
    unfold bf, bsol. cbn [fst snd]. pose proof s2_lo. rewrite (proj1 (bend_mid (sqrt 2) ltac:(lra))), s2. cbn.
    apply f_equal2; [ring|apply f_equal2; [ring|reflexivity]].
  Qed.
  Lemma rise_2 a b : 2 * ((a - b) * (a - b)) <= (bend a - bend b) * (a - b) /\ (bend a - bend b) * (bend a - bend b) <= 16 * ((a - b) * (a - b)).
  Proof.
    destruct (Rle_or_lt a b) as [G|G]; [pose proof (bend_rise a b G) as [K1 K2]|pose proof (bend_rise b a ltac:(lra)) as [K1 K2]]; split; [nra| |nra|].
    - assert (Q : (bend b - bend a) * (bend b - bend a) <= (4 * (b - a)) * (4 * (b - a))) by (apply Rmult_le_compat; lra). lra.
    - assert (Q : (bend a - bend b) * (bend a - bend b) <= (4 * (a - b)) * (4 * (a - b))) by (apply Rmult_le_compat; lra). lra.
  Qed.
  Example ex_sn_monotone : strongly_monotone eps (tvec o 2) ip 2 bf.
  Proof.
    intros [a [b []]] [c [d []]]. rewrite dist_2. cbn [pow]. rewrite Rmult_1_r, sqrt_sqrt by (pose proof (Rle_0_sqr (a - c)); pose proof (Rle_0_sqr (b - d)); unfold Rsqr in *; lra).
    eapply Rle_trans; [|apply Rle_abs]. unfold bf, vminus, neg1. flat. pose proof (rise_2 a c) as [K _].
    match goal with |- _ <= ?r => replace r with ((bend a - bend c) * (a - c) + 2 * ((b - d) * (b - d))) by ring end. lra.
  Qed.
  Example ex_sn_lipschitz : lipschitz_fom eps (tvec o 2) ip 4 bf.
  Proof.
    intros [a [b []]] [c [d []]]. unfold bf. cbn [fst snd]. rewrite !dist_2. rewrite <- (sqrt_square 4) at 1 by lra. rewrite <- sqrt_mult_alt by lra.
    apply sqrt_le_1_alt. pose proof (rise_2 a c) as [_ K].
    pose proof (Rle_0_sqr (b - d)) as K2. unfold Rsqr in K2. lra.
  Qed.
  Example ex_sn_trial : orthonormal_trial (tvec o 1) (tvec o 2) ip (n_rdot no1) grecon grecon (0, (0, tt)) down.
  Proof.
    split.
    - split; [intros [a []] [b []]|intros e [a []]]; unfold grecon; cbn; reals; (apply f_equal2; [ring|apply f_equal2; [ring|reflexivity]]).
    - intros [a []]. unfold grecon. cbn. reals. apply f_equal2; [ring|apply f_equal2; [ring|reflexivity]].
    - intros [a []]. unfold grecon. flat. ring.
    - intros [a [b []]] [c []]. unfold grecon, down. flat. ring.
  Qed.
  (** From 3/2 the solver returns a state whose reduced residual is at most 1/1000, ... *)
  Notation solve := (exec (steady_method bcmd) (root_solve o no1 xt1 scf)).
  Example ex_sn_newton : forall w r s' w', solve (reg0 eps 1 root_diags, w) = (r, (s', w')) ->
    r = Ok tt /\ Rabs (bend (fst (g_x s'))) <= 1 / 1000.
  Proof.
    intros w r s' w' E.
    destruct (C99_galerkin_newton eps _ _ _ _ _ _ _ _ _ _ _ no1 (mat_ops eps 1 1) (tapply o) (tapply o) (tuple_laws eps 1 1) (mat_space eps 1 1)
      grecon gphi bfom bf bdf bdv ex_sn_fom down downj bcmd ex_sn_problem xt1 (ex_linear eps 1) scf ex_sn_settings _ _ _ _ _ (proj2 (ex_objects eps 1)) E) as (Er & _ & K).
    split; [exact Er|]. specialize (K 1 ex_sn_start). destruct (g_x s') as [x []]. revert K. unfold down, bf. flat. rewrite abs_1. lra.
  Qed.
  (** ... and is within 2.001 of the FOM's solution: the best state of the trial space is at distance 1. *)
  Example ex_sn_error : forall w r s' w', solve (reg0 eps 1 root_diags, w) = (r, (s', w')) ->
    distance eps (tvec o 2) ip (grecon (g_x s')) bsol <= 2 + 1 / 1000.
  Proof.
    intros w r s' w' E.
    destruct (C99_galerkin_error eps _ _ _ _ _ _ _ _ _ _ no1 (mat_ops eps 1 1) (tapply o) (tapply o) (tuple_laws eps 1 1) (mat_space eps 1 1)
      grecon gphi bfom bf bdf bdv ex_sn_fom down downj bcmd ex_sn_problem xt1 (ex_linear eps 1) scf ex_sn_settings _ _ _ _ _ (proj2 (ex_objects eps 1)) E
      (tvec o 2) ip (tvec_space o (R_field eps) 2) ex_sn_inner bsol 2 4 grecon (0, (0, tt)) ltac:(lra) ltac:(lra) ex_sn_solution ex_sn_monotone ex_sn_lipschitz
      ex_sn_trial 1 ex_sn_start) as [_ K].
    specialize (K (sqrt 2, tt)). eapply Rle_trans; [exact K|]. unfold grecon at 1, bsol. cbn [fst f_tol scf]. rewrite dist_2.
    replace ((sqrt 2 - sqrt 2) * (sqrt 2 - sqrt 2) + (0 - 1) * (0 - 1)) with 1 by ring. rewrite sqrt_1. lra.
  Qed.

  (** ** LSPG *)
  Definition lf (k : R) (y : Y2) : Y2 := (fst y, ((fst y * fst y - k) / 4 + fst (snd y), tt)).
  Definition ldf (y : Y2) (p : J21) : J21 := ((fst (fst p), (fst y / 2 * fst (fst p) + fst (snd (fst p)), tt)), tt).
  Definition lfom (k : R) : steady_fom (Y:=Y2) (Rf:=Y2) (Jf:=J21) (B:=J21) (W:=nat) :=
    mk_steady_fom (fun y r w => (Ok tt, (lf k y, w)))
      (fun y r p j w => (Ok tt, (lf k y, option_map (fun _ => ldf y p) j, Datatypes.S w)))
      (fun y v r w => (Ok tt, (r, w))).
  Example ex_sl_fom : forall k, steady_rj_is true (fun _ => True) (lfom k) (lf k) ldf.
  Proof. intros k y r p j w _. repeat split. Qed.
  Example ex_sl_problem : forall k, lspg_steady (Rm:=unit) (Jm:=unit) true (fun _ => True) grecon gphi (lfom k) _ _ (fun _ r => r) (fun _ j => j)
    (steady_problem_default grecon gphi (lfom k)).
  Proof. intros k. apply SteadyDefault. Qed.
  Lemma sl_res x : lf 1 (grecon x) = Fq x.
  Proof. destruct x as [x []]. unfold lf, Fq, grecon. cbn. apply f_equal2; [reflexivity|apply f_equal2; [field|reflexivity]]. Qed.
  Lemma sl_jac x : ldf (grecon x) gphi = DFq x.
  Proof. destruct x as [x []]. unfold ldf, DFq, grecon, gphi. cbn. apply (f_equal (fun c : Y2 => (c, tt) : J21)). apply f_equal2; [reflexivity|apply f_equal2; [field|reflexivity]]. Qed.
  Example ex_sl_minimum : regular_minimum no (tvec o 2) (tapply o) (fun x => lf 1 (grecon x)) (fun x => ldf (grecon x) gphi) best 2 1 (1 / 2) (1 / 4).
  Proof. exact (minimum_ext eps _ _ _ _ _ _ _ _ sl_res sl_jac (gq_minimum eps)). Qed.
  Example ex_sl_best : forall z, n_rnorm no (lf 1 (grecon best)) <= n_rnorm no (lf 1 (grecon z)).
  Proof.
    intros [z []]. rewrite !sl_res. unfold Fq, best. flat. apply sqrt_le_1_alt.
    match goal with |- _ <= ?r => replace r with (z * z * (14 / 16) + z * z * (z * z) / 16 + 1 / 16) by field end.
    pose proof (Rle_0_sqr z). pose proof (Rle_0_sqr (z * z)). unfold Rsqr in *. lra.
  Qed.
  Lemma sl_solvable : forall z, apart no z best <= 2 -> forall r, exists d,
    normal_exact (tapply o) (n_jtj no (ldf (grecon z) gphi) (ldf (grecon z) gphi)) (n_jtr no (ldf (grecon z) gphi) r) d.
  Proof.
    intros [z []] Hz r. exists ((fst r + z / 2 * fst (snd r)) / (1 + z * z / 4), tt). unfold normal_exact. rewrite sl_jac. flat.
    f_equal. field. nra.
  Qed.
  Lemma sl_bound : forall z, apart no z best <= 2 -> forall v, n_rnorm no (tapply o (ldf (grecon z) gphi) v) <= 3 / 2 * n_norm no v.
  Proof.
    intros [z []] Hz [v []]. rewrite sl_jac. flat. rewrite abs_1, gslopes. unfold best in Hz. rewrite apart_1 in Hz.
    apply Rmult_le_compat_r; [apply Rabs_pos|]. apply gslope_hi. unfold Rabs in Hz. destruct (Rcase_abs (z - 0)); lra.
  Qed.
  Lemma sl_start : apart no (g_x (reg0 eps 2 ls_diags)) best = 3 / 2.
  Proof. exact (ex_min_start eps). Qed.
  Definition lsol : Y2 := (0, (1 / 4, tt)).
  Example ex_sl_measures : forall y : Y2, - (2) <= fst y <= 2 ->
    1 / 2 * distance eps (tvec o 2) ip y lsol <= n_rnorm no (lf 1 y) <= 2 * distance eps (tvec o 2) ip y lsol.
  Proof.
    intros [a [b []]] Ha. cbn [fst] in Ha. unfold lsol. rewrite dist_2. unfold lf. flat.
    set (v := b - 1 / 4). replace (b - 1 / 4) with v by reflexivity. replace (a - 0) with a by ring.
    replace (a * a + (((a * a - 1) / 4 + b) * ((a * a - 1) / 4 + b) + 0)) with (a * a + (a * a / 4 + v) * (a * a / 4 + v)) by (unfold v; field).
    assert (H4 : a * a * (a * a) <= 4 * (a * a)) by (apply Rmult_le_compat_r; nra).
    set (q := a * a) in *. assert (0 <= q) by (unfold q; nra).
    pose proof (Rle_0_sqr (q / 2 + v)) as K1. pose proof (Rle_0_sqr (q / 4 - v)) as K2. pose proof (Rle_0_sqr v) as K3. unfold Rsqr in *.
    split.
    - rewrite <- (sqrt_square (1 / 2)) by lra. rewrite <- sqrt_mult_alt by lra. apply sqrt_le_1_alt. nra.
    - rewrite <- (sqrt_square 2) at 1 by lra. rewrite <- sqrt_mult_alt by lra. apply sqrt_le_1_alt. nra.
  Qed.
  Lemma sl_recon : forall x z, distance eps (tvec o 2) ip (grecon x) (grecon z) <= 1 * apart no x z.
  Proof.
    intros [x []] [z []]. unfold grecon. cbn [fst]. rewrite dist_2, apart_1. replace ((x - z) * (x - z) + (0 - 0) * (0 - 0)) with (Rsqr (x - z)) by (unfold Rsqr; ring).
    rewrite sqrt_Rsqr_abs. lra.
  Qed.
  Notation lsolve k := (exec (steady_problem_default grecon gphi (lfom k)) (ls_solve o no xt GaussNewton gcf)).
  (** From 3/2: within 2/75 of the least-squares solution ... *)
  Example ex_sl_gauss_newton : forall w r s' w', lsolve 1 (reg0 eps 2 ls_diags, w) = (r, (s', w')) -> r = Ok tt /\ apart no (g_x s') best <= 2 / 75.
  Proof.
    intros w r s' w' E.
    destruct (C99_lspg_gauss_newton eps _ _ _ _ _ _ _ _ _ _ _ _ no (tvec o 2) (tapply o) (tapply o) (tuple_laws eps 2 1) grecon gphi (lfom 1) (lf 1) ldf
      (ex_sl_fom 1) _ _ _ (ex_sl_problem 1) xt (ex_linear eps 2) _ _ (ex_weights eps 2 nothing) GaussNewton gcf ex_gn_settings _ _ _ _ _ (proj1 (ex_objects eps 2)) E) as (Er & _ & K).
    split; [exact Er|]. destruct (K best _ _ _ _ ex_sl_minimum) as [_ K2].
    - eapply Rle_trans; [apply Req_le; exact sl_start|]. lra.
    - exact sl_solvable.
    - eapply Rle_trans; [apply (K2 (3 / 2) (2 * (3 / 2) ^ 2) (1 ^ 2 / (1 - (1 ^ 2 * (1 / 2) * (1 / 4) + 1 * (1 / 2 / 2) * 2))) 5%nat)|].
      + split; [lra|]. split; reflexivity.
      + intros _. exact sl_bound.
      + match goal with |- context [shrunk _ _ ?e _] => replace e with (3 / 2) by (symmetry; exact sl_start) end. cbn. lra.
      + cbn. lia.
      + cbn [f_tol gcf]. lra.
  Qed.
  (** ... and within 2/75 + 1 of the FOM's solution, which is 1/4 away from the trial space. *)
  Example ex_sl_error : forall w r s' w', lsolve 1 (reg0 eps 2 ls_diags, w) = (r, (s', w')) ->
    distance eps (tvec o 2) ip (grecon (g_x s')) lsol <= 2 / 75 + 1.
  Proof.
    intros w r s' w' E.
    pose proof (C99_lspg_error eps _ _ _ _ _ _ _ _ _ _ _ _ no (tvec o 2) (tapply o) (tapply o) (tuple_laws eps 2 1) grecon gphi (lfom 1) (lf 1) ldf
      (ex_sl_fom 1) _ _ _ (ex_sl_problem 1) xt (ex_linear eps 2) _ _ (ex_weights eps 2 nothing) GaussNewton gcf ex_gn_settings _ _ _ _ _ (proj1 (ex_objects eps 2)) E
      (tvec o 2) ip (tvec_space o (R_field eps) 2) ex_sn_inner lsol (1 / 2) 2 1 ltac:(lra) (fun y => - (2) <= fst y <= 2) ex_sl_measures sl_recon ltac:(lra)
      best _ _ _ _ ex_sl_minimum ltac:(cbn; lra) ex_sl_best sl_solvable) as K.
    eapply Rle_trans; [apply K with (M := 3 / 2) (near := 2 * (3 / 2) ^ 2) (far := 1 ^ 2 / (1 - (1 ^ 2 * (1 / 2) * (1 / 4) + 1 * (1 / 2 / 2) * 2))) (n := 5%nat) (z := best)|].
    - eapply Rle_trans; [apply Req_le; exact sl_start|]. lra.
    - split; [lra|]. split; reflexivity.
    - intros _. exact sl_bound.
    - match goal with |- context [shrunk _ _ ?e _] => replace e with (3 / 2) by (symmetry; exact sl_start) end. cbn. lra.
    - cbn. lia.
    - cbn. lra.
    - unfold grecon at 1, best, lsol. cbn [fst f_tol gcf]. rewrite dist_2.
      replace ((0 - 0) * (0 - 0) + (0 - 1 / 4) * (0 - 1 / 4)) with (1 / 4 * (1 / 4)) by field. rewrite sqrt_square by lra. lra.
  Qed.
  (** The FOM's solution in the trial space *)
  Example ex_sl_derivative : derivative_near no (tapply o) (fun x => lf 0 (grecon x)) (fun x => ldf (grecon x) gphi) best 2.
  Proof.
    intros [x []] [w1 [w2 []]] t _ _. unfold best, lf, ldf, grecon, gphi. flat. set (e := x + - (1) * 0).
    apply (derivable_pt_lim_ext (fun u => w2 * e * e / 4 * (u * u) + w1 * e * u)); [intros u; field|].
    match goal with |- derivable_pt_lim _ _ ?l => replace l with (w2 * e * e / 4 * (1 * t + t * 1) + w1 * e * 1) by field end.
    apply (derivable_pt_lim_plus (fun u => w2 * e * e / 4 * (u * u)) (fun u => w1 * e * u)).
    - apply (derivable_pt_lim_scal (fun u => u * u)). apply (derivable_pt_lim_mult id id); apply derivable_pt_lim_id.
    - apply (derivable_pt_lim_scal id). apply derivable_pt_lim_id.
  Qed.
  Example ex_sl_lipschitz : lipschitz_near no (tvec o 2) (tapply o) (fun x => ldf (grecon x) gphi) best 2 (1 / 2).
  Proof.
    intros [x []] [y []] [v []] _ _. rewrite !sl_jac, apart_1. flat.
    replace (v * 1 + 0 + - (1) * (v * 1 + 0)) with 0 by ring.
    replace (v * (x / 2) + 0 + - (1) * (v * (y / 2) + 0)) with (1 / 2 * (x - y) * v) by field.
    rewrite second, abs_1, !Rabs_mult, (Rabs_right (1 / 2)) by lra. lra.
  Qed.
  Example ex_sl_solution : forall w r s' w', lsolve 0 (reg0 eps 2 ls_diags, w) = (r, (s', w')) -> apart no (g_x s') best <= 1 / 50.
  Proof.
    intros w r s' w' E.
    destruct (C99_lspg_fom_solution eps _ _ _ _ _ _ _ _ _ _ _ _ no (tvec o 2) (tapply o) (tapply o) (tuple_laws eps 2 1) grecon gphi (lfom 0) (lf 0) ldf
      (ex_sl_fom 0) _ _ _ (ex_sl_problem 0) xt (ex_linear eps 2) _ _ (ex_weights eps 2 nothing) GaussNewton gcf ex_gn_settings _ _ _ _ _ (proj1 (ex_objects eps 2)) E
      best 2 1 (1 / 2)) as [_ K].
    - unfold lf, grecon, best. cbn. apply f_equal2; [reflexivity|apply f_equal2; [field|reflexivity]].
    - lra.
    - lra.
    - lra.
    - intros [x []] Hx [v []]. rewrite sl_jac. flat. rewrite abs_1, gslopes. pose proof (gslope_lo x). pose proof (Rabs_pos v).
      assert (1 * Rabs v <= sqrt (1 + x * x / 4) * Rabs v) by (apply Rmult_le_compat_r; assumption). lra.
    - exact ex_sl_derivative.
    - exact ex_sl_lipschitz.
    - lra.
    - exact sl_solvable.
    - eapply Rle_trans; [apply Req_le; exact sl_start|]. lra.
    - eapply Rle_trans; [apply (K (3 / 2) (2 * (3 / 2) ^ 2) (1 ^ 2 / (1 - 1 * (1 / 2 / 2) * 2)) 5%nat)|].
      + split; [lra|]. split; reflexivity.
      + intros _. exact sl_bound.
      + match goal with |- context [shrunk _ _ ?e _] => replace e with (3 / 2) by (symmetry; exact sl_start) end. cbn. lra.
      + cbn. lia.
      + cbn [f_tol gcf]. lra.
  Qed.
End Ex.

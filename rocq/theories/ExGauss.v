(** Concrete cases for C96: the least-squares solution 0 of (4 x, x^2 - 1), where the residual is (0, -1), from 3/2. *)
From Coq Require Import Reals ZArith List Bool Lia Lra.
From Verif Require Import Base RInst Laws LawInst ExplicitModel ImplicitModel NonlinDiag NonlinModel NonlinWp NonlinSpec NonlinRuns
  NonlinLaws NonlinExact NonlinReal NonlinTheory Tuples QrModel QrSpec QrProofs QrSolve QrExts QrEnd NewtonSpec NewtonProofs NewtonClaims
  GaussSpec GaussProofs GaussClaims PropGauss ExNewton.
Import ListNotations.
Local Open Scope R_scope.

Section Ex.
  Variable eps : R.
  Notation o := (Rops eps).
  Notation V1 := (tup R 1).
  Notation "'no' m" := (tuple_ops o sqrt m 1) (at level 10, m at level 9).
  Notation xt m := (mgs_exts eps m 1 (fun r => r) (fun j => j) false).
  Definition F3 (v : V1) : tup R 2 := let '(x, _) := v in (4 * x, (x * x - 1, tt)).
  Definition DF3 (v : V1) : mat (S:=R) 2 1 := let '(x, _) := v in ((4, (2 * x, tt)), tt).
  Definition best : V1 := (0, tt).
  Ltac flat := cbn; unfold tdot; cbn; change (sadd o) with Rplus; change (smul o) with Rmult; change (s0 o) with 0.
  Lemma second : forall a, sqrt (0 * 0 + (a * a + 0)) = Rabs a.
  Proof. intros a. replace (0 * 0 + (a * a + 0)) with (Rsqr a) by (unfold Rsqr; ring). apply sqrt_Rsqr_abs. Qed.
  Lemma in_radius : forall x, apart (no 2) (x, tt) best <= 2 -> - (2) <= x <= 2.
  Proof. intros x Hx. unfold best in Hx. rewrite apart_1 in Hx. unfold Rabs in Hx. destruct (Rcase_abs (x - 0)); lra. Qed.
  Lemma slopes : forall x v, sqrt ((v * 4 + 0) * (v * 4 + 0) + ((v * (2 * x) + 0) * (v * (2 * x) + 0) + 0)) = sqrt (16 + 4 * (x * x)) * Rabs v.
  Proof.
    intros x v. replace ((v * 4 + 0) * (v * 4 + 0) + ((v * (2 * x) + 0) * (v * (2 * x) + 0) + 0)) with ((16 + 4 * (x * x)) * Rsqr v) by (unfold Rsqr; ring).
    rewrite sqrt_mult by (unfold Rsqr; nra). rewrite sqrt_Rsqr_abs. reflexivity.
  Qed.
  Lemma slope_lo : forall x, 4 <= sqrt (16 + 4 * (x * x)).
  Proof. intros x. rewrite <- (sqrt_square 4) at 1 by lra. apply sqrt_le_1_alt. nra. Qed.
  Lemma slope_hi : forall x, - (2) <= x <= 2 -> sqrt (16 + 4 * (x * x)) <= 6.
  Proof. intros x Hx. rewrite <- (sqrt_square 6) by lra. apply sqrt_le_1_alt. nra. Qed.
  (** beta = 1/4, gamma = 2, rho = 1, radius 2: every step shrinks the distance at least by 5/8 *)
  Example ex_minimum : regular_minimum (no 2) (tvec o 2) (tapply o) F3 DF3 best 2 (1 / 4) 2 1.
  Proof.
    constructor; try lra.
    - intros [v []]. flat. ring.
    - flat. replace (4 * 0) with 0 by ring. rewrite second. replace (0 * 0 - 1) with (- (1)) by ring. rewrite Rabs_Ropp, Rabs_R1. lra.
    - intros [x []] Hx [v []]. flat. rewrite abs_1, slopes. pose proof (slope_lo x). pose proof (Rabs_pos v).
      assert (4 * Rabs v <= sqrt (16 + 4 * (x * x)) * Rabs v) by (apply Rmult_le_compat_r; assumption). lra.
    - intros [x []] Hx. unfold best in *. rewrite apart_1 in *. flat.
      replace ((x + - (1) * 0) * 4 + 0 + - (1) * (4 * x + - (1) * (4 * 0))) with 0 by ring.
      replace ((x + - (1) * 0) * (2 * x) + 0 + - (1) * (x * x - 1 + - (1) * (0 * 0 - 1))) with (x * x) by ring.
      rewrite second, Rabs_mult. replace (x - 0) with x by ring. lra.
    - intros [x []] [v []] Hx. unfold best in *. rewrite apart_1 in *. flat.
      replace (v * 4 + 0 + - (1) * (v * 4 + 0)) with 0 by ring.
      replace (v * (2 * x) + 0 + - (1) * (v * (2 * 0) + 0)) with (2 * (x - 0) * v) by ring.
      rewrite second, abs_1, !Rabs_mult, (Rabs_right 2) by lra. lra.
  Qed.
  Example ex_min_normal : forall x, apart (no 2) x best <= 2 -> forall r, exists d,
    normal_exact (tapply o) (n_jtj (no 2) (DF3 x) (DF3 x)) (n_jtr (no 2) (DF3 x) r) d.
  Proof.
    intros [x []] Hx r. exists ((4 * fst r + 2 * x * fst (snd r)) / (16 + 4 * (x * x)), tt). unfold normal_exact. flat.
    f_equal. field. nra.
  Qed.
  Example ex_min_bound : forall x, apart (no 2) x best <= 2 -> forall v, n_rnorm (no 2) (tapply o (DF3 x) v) <= 6 * n_norm (no 2) v.
  Proof.
    intros [x []] Hx [v []]. flat. rewrite abs_1, slopes. apply in_radius in Hx. apply Rmult_le_compat_r; [apply Rabs_pos|]. apply slope_hi. exact Hx.
  Qed.
  Definition cfg : config R := mk_config 100 WhenAbsGradient (1 / 10) UStandard None.
  Example ex_min_start : apart (no 2) (g_x (reg0 eps 2 ls_diags)) best = 3 / 2.
  Proof. cbn [g_x reg0 set_x]. unfold best. rewrite apart_1, Rabs_right; lra. Qed.
  (** five corrections are enough for a gradient below 1/10, and the state is then within 1/60 of the solution *)
  Example ex_five : forall s' w' r, exec (sys F3 DF3) (ls_solve o (no 2) (xt 2) GaussNewton cfg) (reg0 eps 2 ls_diags, tt) = (r, (s', w')) ->
    exists a l, g_log s' = a ++ [l] /\ l_state l = g_x s' /\ (length a <= 5)%nat /\ apart (no 2) (g_x s') best <= 1 / 60.
  Proof.
    intros s' w' r E. pose proof ex_min_start as H0.
    destruct (C96_gauss_newton_finds eps _ _ _ _ _ _ (no 2) (tvec o 2) (tapply o) (tapply o) (tuple_laws eps 2 1) (xt 2) (sys F3 DF3) F3 DF3
      (ex_computes 2 F3 DF3) (ex_linear eps 2) best _ _ _ _ ex_minimum (fun r => r) (fun j => j) (ex_weights eps 2 nothing) GaussNewton ex_min_normal
      cfg (reg0 eps 2 ls_diags) tt r s' w') with (M := 6) (near := 2 * 6 ^ 2) (far := (1 / 4) ^ 2 / (1 - ((1 / 4) ^ 2 * 2 * 1 + 1 / 4 * (2 / 2) * 2))) (n := 5%nat)
      as [a [l [K1 [K2 [K3 [K4 K5]]]]]]; try exact E.
    - exact (proj1 (ex_objects eps 2)).
    - left. reflexivity.
    - reflexivity.
    - cbn. unfold int32_max. lia.
    - eapply Rle_trans; [apply Req_le; exact H0|]. lra.
    - split; [lra|]. split; reflexivity.
    - intros _. exact ex_min_bound.
    - match goal with |- context [shrunk _ _ ?e _] => replace e with (3 / 2) by (symmetry; exact H0) end. cbn. lra.
    - cbn. lia.
    - exists a, l. split; [exact K1|]. split; [exact K2|]. split; [exact K4|]. cbn [f_tol cfg] in K5. lra.
  Qed.
  (** the hypotheses of C96_lipschitz *)
  Example ex_min_lipschitz : lipschitz_near (no 2) (tvec o 2) (tapply o) DF3 best 2 2.
  Proof.
    intros [x []] [y []] [v []] _ _. rewrite apart_1. flat.
    replace (v * 4 + 0 + - (1) * (v * 4 + 0)) with 0 by ring.
    replace (v * (2 * x) + 0 + - (1) * (v * (2 * y) + 0)) with (2 * (x - y) * v) by ring.
    rewrite second, abs_1, !Rabs_mult, (Rabs_right 2) by lra. lra.
  Qed.
  Example ex_min_derivative : derivative_near (no 2) (tapply o) F3 DF3 best 2.
  Proof.
    intros [x []] [w1 [w2 []]] t _ _. unfold best. flat. set (e := x + - (1) * 0).
    apply (derivable_pt_lim_ext (fun u => w2 * e * e * (u * u) + 4 * w1 * e * u + - w2)); [intros u; ring|].
    replace ((e * 4 + 0) * w1 + ((e * (2 * (0 + t * e)) + 0) * w2 + 0)) with (w2 * e * e * (1 * t + t * 1) + 4 * w1 * e * 1 + 0) by ring.
    apply (derivable_pt_lim_plus (fun u => w2 * e * e * (u * u) + 4 * w1 * e * u) (fct_cte _)); [|apply derivable_pt_lim_const].
    apply (derivable_pt_lim_plus (fun u => w2 * e * e * (u * u)) (fun u => 4 * w1 * e * u)).
    - apply (derivable_pt_lim_scal (fun u => u * u)). apply (derivable_pt_lim_mult id id); apply derivable_pt_lim_id.
    - apply (derivable_pt_lim_scal id). apply derivable_pt_lim_id.
  Qed.
End Ex.

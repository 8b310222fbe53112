(** A concrete case for C92: three observations of two unknowns, at the solution (1, 2) the residual is (1, -1, 1). *)
From Coq Require Import Reals ZArith List Bool Lia Lra.
From Verif Require Import Base RInst Laws LawInst ExplicitModel ImplicitModel NonlinDiag NonlinModel NonlinWp NonlinSpec NonlinRuns
  NonlinLaws NonlinExact NonlinReal NonlinTheory Tuples QrModel QrSpec QrProofs QrSolve QrExts QrEnd NewtonSpec LmSpec LmProofs LmClaims PropLm.
Import ListNotations.
Local Open Scope R_scope.

Section Ex.
  Variable eps : R.
  Notation o := (Rops eps).
  Notation no := (tuple_ops o sqrt 3 2).
  Definition A3 : mat (S:=R) 3 2 := ((1, (1, (0, tt))), ((0, (1, (1, tt))), tt)).
  Definition b3 : tup R 3 := (0, (-4, (-1, tt))).
  Definition xs3 : tup R 2 := (1, (2, tt)).
  Notation F3 := (affine (tvec o 3) (tapply o) A3 b3).
  Definition sys3 (v : tup R 2) (r : tup R 3) (j : option (mat (S:=R) 3 2)) (w : unit) : outcome unit * (tup R 3 * option (mat (S:=R) 3 2) * unit) :=
    (Ok tt, (F3 v, match j with Some _ => Some A3 | None => None end, w)).
  Example ex_lm_computes : computes sys3 F3 (fun _ => A3).
  Proof. intros y r j w. eexists. eexists. split; [reflexivity|]. destruct j; reflexivity. Qed.
  Ltac reals := change (sadd o) with Rplus; change (smul o) with Rmult; change (s0 o) with 0.
  Lemma scaled_3 : forall x y, scaled no A3 (x, (y, tt)) = sqrt (2 * (x * x + y * y)).
  Proof. intros x y. unfold scaled. cbn. unfold tdot. cbn. reals. f_equal. ring. Qed.
  Lemma rnorm_3 : forall x y, n_rnorm no (tapply o A3 (x, (y, tt))) = sqrt (2 * (x * x + x * y + y * y)).
  Proof. intros x y. cbn. unfold tdot. cbn. reals. f_equal. ring. Qed.
  Lemma norm_3 : forall x y, n_norm no (x, (y, tt)) = sqrt (x * x + y * y).
  Proof. intros x y. cbn. unfold tdot. cbn. reals. f_equal. ring. Qed.
  Lemma sq_2 : forall a, 0 <= a -> (sqrt a) ^ 2 = a.
  Proof. intros a Ha. cbn. rewrite Rmult_1_r. apply sqrt_sqrt, Ha. Qed.
  Lemma sq_pos : forall x y : R, 0 <= x * x + y * y.
  Proof. intros x y. pose proof (Rle_0_sqr x). pose proof (Rle_0_sqr y). unfold Rsqr in *. lra. Qed.
  Lemma mixed_pos : forall x y : R, 0 <= x * x + x * y + y * y.
  Proof. intros x y. pose proof (Rle_0_sqr (x + y)). pose proof (sq_pos x y). unfold Rsqr in *. lra. Qed.
  (** lam = 1/2 *)
  Example ex_lm_problem : lm_problem no (tvec o 3) (tapply o) (tapply o) A3 b3 xs3 (1 / 2).
  Proof.
    constructor.
    - lra.
    - intros [x [y []]]. pose proof (sq_pos x y). pose proof (mixed_pos x y). rewrite scaled_3, rnorm_3, !sq_2 by lra.
      pose proof (Rle_0_sqr (x + y)) as Q. unfold Rsqr in Q. lra.
    - intros [x [y []]] E. rewrite scaled_3 in E. apply sqrt_eq_0 in E; [|nra]. cbn. change (s0 o) with 0.
      assert (x = 0) by nra. assert (y = 0) by nra. subst. reflexivity.
    - intros mu [g [h []]] Hm. set (t := 2 + 2 * mu). assert (1 < t * t) by (unfold t; nra).
      exists ((t * g - h) / (t * t - 1), ((t * h - g) / (t * t - 1), tt)). cbn. unfold tdot. cbn. reals. f_equal; [|f_equal]; unfold t in *; field; lra.
    - cbn. unfold tdot. cbn. reals. repeat f_equal; lra.
  Qed.
  Example ex_lm_sized : lm_sized no (tapply o) A3 1 2 2.
  Proof.
    repeat split; try lra; destruct v as [x [y []]]; rewrite ?scaled_3, ?rnorm_3, ?norm_3.
    - rewrite Rmult_1_l. apply sqrt_le_1; nra.
    - replace 2 with (sqrt (2 * 2)) at 2 by (apply sqrt_square; lra). rewrite <- sqrt_mult by nra. apply sqrt_le_1; nra.
    - replace 2 with (sqrt (2 * 2)) at 2 by (apply sqrt_square; lra). rewrite <- sqrt_mult by nra. apply sqrt_le_1; nra.
  Qed.
  Notation xt := (mgs_exts eps 3 2 (fun r => r) (fun j => j) false).
  Example ex_lm_linear : linear_ok xt (if_solvable (normal_exact (tapply o))) (if_solvable (qr_exact no (tapply o)))
    (if_solvable (newton_exact (tapply o))) nothing.
  Proof. apply mgs_linear. Qed.
  Example ex_lm_weights : weights_ok xt (fun r => r) (fun j => j) nothing.
  Proof. split; intros; cbn in *; congruence. Qed.
  (** from (0, 0) *)
  Definition reg3 := set_x (0, (0, tt))
    (new_reg o (tconst 0 2) (tconst 0 3) (tconst (tconst 0 3) 2) (tconst (tconst 0 2) 2) (new_object eps 3 2) ls_diags).
  Example ex_lm_object : ls_object o reg3.
  Proof. repeat split. Qed.
  Definition lmcf (u : update) (st : stop) : config R := mk_config 100 st (1 / 100) u None.
  (** seven corrections are enough with the first schedule: the dampings are 1, 1/3, 1/9, ... *)
  Example ex_lm_seven : forall s' w' r, exec sys3 (ls_solve o no xt LevMar (lmcf ULMSchedule1 WhenAbsGradient)) (reg3, tt) = (r, (s', w')) ->
    exists a l, g_log s' = a ++ [l] /\ l_state l = g_x s' /\ (length a <= 7)%nat /\ scaled no A3 (from no xs3 (g_x s')) <= 2 / 100.
  Proof.
    intros s' w' r E.
    destruct (C92_finds eps _ _ _ _ _ _ no (tvec o 3) (tapply o) (tapply o) (tuple_laws eps 3 2) xt sys3 A3 b3 ex_lm_computes _ _ ex_lm_weights
      ex_lm_linear xs3 (1 / 2) ex_lm_problem (lmcf ULMSchedule1 WhenAbsGradient) reg3 tt r s' w' ex_lm_object (or_introl eq_refl)) with (lo := 1) (hi := 2) (M := 2)
      (near := 2 ^ 2 / 1) (far := 1 / (1 / 2 * 1)) (n := 7%nat) as [a [l [K1 [K2 [K3 [K4 K5]]]]]].
    - cbn. unfold int32_max. lia.
    - exact E.
    - exact ex_lm_sized.
    - split; reflexivity.
    - assert (S0 : scaled no A3 (from no xs3 (g_x reg3)) <= 4).
      { cbn [g_x reg3 set_x from]. unfold from, xs3. cbn. unfold scaled. cbn. unfold tdot. cbn. reals.
        replace 4 with (sqrt (4 * 4)) by (apply sqrt_square; lra). apply sqrt_le_1; lra. }
      cbn [f_update f_tol lmcf]. set (e := scaled _ _ _) in *. cbn [left_after damping_at pow].
      set (q := 2 * (2 * 1) / 1 * _). assert (0 <= e) by apply R_sqrt.sqrt_pos.
      assert (Q : q <= 4 * (1 / 5000 * 4)); [|lra].
      unfold q. clear - S0 H. apply Rmult_le_compat; [lra| |lra|].
      + apply Rmult_le_pos; [|exact H]. repeat apply Rmult_le_pos; try lra; apply Rlt_le, Rdiv_lt_0_compat; lra.
      + apply Rmult_le_compat; [|exact H| |exact S0].
        * repeat apply Rmult_le_pos; try lra; apply Rlt_le, Rdiv_lt_0_compat; lra.
        * match goal with |- ?t <= _ => let v := constr:(1 * (1 / (3 / 2)) * ((1/3) / (5/6)) * ((1/9) / (11/18)) * ((1/27) / (29/54)) * ((1/81) / (83/162)) * ((1/243) / (245/486)) * ((1/729) / (731 / 1458))) in replace t with v by (field; lra) end. lra.
    - cbn. lia.
    - exists a, l. split; [exact K1|]. split; [exact K2|]. split; [exact K4|]. cbn [f_tol lmcf] in K5. lra.
  Qed.
  (** The columns of [A3] are independent; any starting state, both schedules. *)
  Example ex_lm_independent : forall v, tapply o A3 v = vzero (tvec o 3) -> v = vzero (tvec o 2).
  Proof.
    intros [x [y []]] E. assert (E1 := f_equal fst E). assert (E2 := f_equal (fun z => fst (snd (snd z))) E). cbn in E1, E2. revert E1 E2. reals. intros E1 E2.
    cbn. change (s0 o) with 0. repeat f_equal; lra.
  Qed.
  Example ex_lm_matrices : exists xs C, forall u x0, u = ULMSchedule1 \/ u = ULMSchedule2 -> exists N, forall most s' w' r, (Z.of_nat N < most < int32_max)%Z ->
    exec sys3 (ls_solve o no xt LevMar (mk_config most WhenAbsGradient (1 / 100) u None)) (set_x x0 reg3, tt) = (r, (s', w')) -> r = Ok tt /\ apart no (g_x s') xs <= C * (1 / 100).
  Proof.
    destruct (C92_matrices eps 3 2 A3 b3 ex_lm_independent) as (xs & C & _ & H). exists xs, C. intros u x0 Hu.
    destruct (H _ _ xt sys3 ex_lm_computes _ _ ex_lm_weights ex_lm_linear WhenAbsGradient u (1 / 100) x0 (or_intror eq_refl) Hu ltac:(lra)) as [N HN]. exists N.
    intros most s' w' r Hm E. destruct (HN (mk_config most WhenAbsGradient (1 / 100) u None) (set_x x0 reg3) tt r s' w' eq_refl eq_refl eq_refl) as (K1 & K2 & _);
      [repeat split|reflexivity|exact Hm|exact E|]. split; assumption.
  Qed.
End Ex.

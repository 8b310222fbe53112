(** Concrete cases for C90: x^2 = 2, from 3/2, and the overdetermined (x^2 - 2, 3 x^2 - 6) = 0. *)
From Coq Require Import Reals ZArith List Bool Lia Lra.
From Verif Require Import Base RInst Laws LawInst ExplicitModel ImplicitModel NonlinDiag NonlinModel NonlinWp NonlinSpec NonlinRuns
  NonlinLaws NonlinExact NonlinReal NonlinTheory Tuples QrModel QrSpec QrProofs QrSolve QrExts QrEnd NewtonSpec NewtonProofs NewtonClaims PropNewton.
Import ListNotations.
Local Open Scope R_scope.

Section Ex.
  Variable eps : R.
  Notation o := (Rops eps).
  Notation V1 := (tup R 1).
  Notation "'no' m" := (tuple_ops o sqrt m 1) (at level 10, m at level 9).
  Definition F1 (v : V1) : tup R 1 := let '(x, _) := v in (x * x - 2, tt).
  Definition DF1 (v : V1) : mat (S:=R) 1 1 := let '(x, _) := v in ((2 * x, tt), tt).
  Definition F2 (v : V1) : tup R 2 := let '(x, _) := v in (x * x - 2, (3 * (x * x) - 6, tt)).
  Definition DF2 (v : V1) : mat (S:=R) 2 1 := let '(x, _) := v in ((2 * x, (6 * x, tt)), tt).
  Definition sys {m} (F : V1 -> tup R m) (DF : V1 -> mat (S:=R) m 1) (v : V1) (r : tup R m) (j : option (mat (S:=R) m 1)) (w : unit) :
    outcome unit * (tup R m * option (mat (S:=R) m 1) * unit) :=
    (Ok tt, (F v, match j with Some _ => Some (DF v) | None => None end, w)).
  Example ex_computes : forall m (F : V1 -> tup R m) DF, computes (sys F DF) F DF.
  Proof. intros m F DF y r j w. eexists. eexists. split; [reflexivity|]. destruct j; reflexivity. Qed.
  Definition root2 : V1 := (sqrt 2, tt).
  Lemma s2 : sqrt 2 * sqrt 2 = 2. Proof. apply sqrt_sqrt. lra. Qed.
  Lemma s2_lo : 14 / 10 < sqrt 2 < 142 / 100.
  Proof. pose proof s2. pose proof (R_sqrt.sqrt_pos 2). split; nra. Qed.
  Lemma abs_1 : forall a, sqrt (a * a + 0) = Rabs a.
  Proof. intros a. rewrite Rplus_0_r. apply sqrt_Rsqr_abs. Qed.
  Lemma apart_1 : forall m x y, apart (no m) (x, tt) (y, tt) = Rabs (x - y).
  Proof.
    intros m x y. unfold apart, from. cbn. unfold tdot. cbn. change (sadd o) with Rplus. change (smul o) with Rmult. change (s0 o) with 0.
    rewrite abs_1. f_equal. ring.
  Qed.
  (** beta = 5/8, gamma = 2, radius 1/2 *)
  Example ex_regular : regular_near (no 1) (tvec o 1) (tapply o) F1 DF1 root2 (1 / 2) (5 / 8) 2.
  Proof.
    pose proof s2 as S2. pose proof s2_lo as Slo. constructor; try lra.
    - unfold F1, root2. cbn. rewrite S2. f_equal. lra.
    - intros [x []] Hx [v []]. unfold root2 in Hx. rewrite apart_1 in Hx. cbn. unfold tdot. cbn.
      change (sadd o) with Rplus. change (smul o) with Rmult. change (s0 o) with 0. rewrite !abs_1.
      replace (v * (2 * x) + 0) with (2 * x * v) by ring. rewrite Rabs_mult.
      assert (9 / 10 <= x) by (unfold Rabs in Hx; destruct (Rcase_abs (x - sqrt 2)); lra).
      rewrite (Rabs_right (2 * x)) by lra. pose proof (Rabs_pos v). nra.
    - intros [x []] Hx. unfold root2 in *. rewrite apart_1 in *. cbn. unfold tdot. cbn.
      change (sadd o) with Rplus. change (smul o) with Rmult. change (s0 o) with 0. rewrite !abs_1.
      replace ((x + - (1) * sqrt 2) * (2 * x) + 0 + - (1) * (x * x - 2)) with ((x - sqrt 2) * (x - sqrt 2)) by (transitivity (x * x - 2 * (x * sqrt 2) + sqrt 2 * sqrt 2); [ring|rewrite S2; ring]).
      rewrite Rabs_mult, Rmult_1_r. lra.
  Qed.
  Lemma two_entries : forall a, sqrt (a * a + (3 * a * (3 * a) + 0)) = sqrt 10 * Rabs a.
  Proof.
    intros a. replace (a * a + (3 * a * (3 * a) + 0)) with (10 * (a * a)) by ring. rewrite sqrt_mult by nra. f_equal. apply sqrt_Rsqr_abs.
  Qed.
  Lemma s10 : 3 < sqrt 10 < 4.
  Proof. assert (E : sqrt 10 * sqrt 10 = 10) by (apply sqrt_sqrt; lra). pose proof (R_sqrt.sqrt_pos 10). split; nra. Qed.
  (** beta = 1/5, gamma = 8, radius 1/2 *)
  Example ex_regular2 : regular_near (no 2) (tvec o 2) (tapply o) F2 DF2 root2 (1 / 2) (1 / 5) 8.
  Proof.
    pose proof s2 as S2. pose proof s2_lo as Slo. pose proof s10 as S10. constructor; try lra.
    - unfold F2, root2. cbn. rewrite S2. repeat f_equal; lra.
    - intros [x []] Hx [v []]. unfold root2 in Hx. rewrite apart_1 in Hx. cbn. unfold tdot. cbn.
      change (sadd o) with Rplus. change (smul o) with Rmult. change (s0 o) with 0. rewrite !abs_1.
      replace (v * (2 * x) + 0) with (2 * x * v) by ring. replace (v * (6 * x) + 0) with (3 * (2 * x * v)) by ring.
      rewrite two_entries, Rabs_mult.
      assert (9 / 10 <= x) by (unfold Rabs in Hx; destruct (Rcase_abs (x - sqrt 2)); lra).
      rewrite (Rabs_right (2 * x)) by lra. pose proof (Rabs_pos v).
      assert (5 <= sqrt 10 * (2 * x)) by nra. assert (5 * Rabs v <= sqrt 10 * (2 * x) * Rabs v) by (apply Rmult_le_compat_r; assumption). lra.
    - intros [x []] Hx. unfold root2 in *. rewrite apart_1 in *. cbn. unfold tdot. cbn.
      change (sadd o) with Rplus. change (smul o) with Rmult. change (s0 o) with 0.
      replace ((x + - (1) * sqrt 2) * (2 * x) + 0 + - (1) * (x * x - 2)) with ((x - sqrt 2) * (x - sqrt 2)) by (transitivity (x * x - 2 * (x * sqrt 2) + sqrt 2 * sqrt 2); [ring|rewrite S2; ring]).
      replace ((x + - (1) * sqrt 2) * (6 * x) + 0 + - (1) * (3 * (x * x) - 6)) with (3 * ((x - sqrt 2) * (x - sqrt 2))) by (transitivity (3 * (x * x) - 6 * (x * sqrt 2) + 3 * (sqrt 2 * sqrt 2)); [ring|rewrite S2; ring]).
      rewrite two_entries, Rabs_mult. pose proof (Rabs_pos (x - sqrt 2)). nra.
  Qed.
  Lemma x_pos : forall m x, apart (no m) (x, tt) root2 <= 1 / 2 -> 9 / 10 <= x.
  Proof. intros m x Hx. unfold root2 in Hx. rewrite apart_1 in Hx. pose proof s2_lo. unfold Rabs in Hx; destruct (Rcase_abs (x - sqrt 2)); lra. Qed.
  Example ex_onto : forall x, apart (no 1) x root2 <= 1 / 2 -> forall r, exists d, tapply o (DF1 x) d = r.
  Proof.
    intros [x []] Hx [r []]. apply x_pos in Hx. exists (r / (2 * x), tt). cbn. change (sadd o) with Rplus. change (smul o) with Rmult.
    f_equal. field. lra.
  Qed.
  Example ex_normal : forall x, apart (no 2) x root2 <= 1 / 2 -> forall r, exists d,
    normal_exact (tapply o) (n_jtj (no 2) (DF2 x) (DF2 x)) (n_jtr (no 2) (DF2 x) r) d.
  Proof.
    intros [x []] Hx r. apply x_pos in Hx. exists ((2 * x * fst r + 6 * x * fst (snd r)) / (40 * (x * x)), tt). unfold normal_exact. cbn. unfold tdot. cbn. change (sadd o) with Rplus. change (smul o) with Rmult. change (s0 o) with 0.
    f_equal. field. lra.
  Qed.
  (** linear solves by the modified Gram-Schmidt factorisation, which has no weights *)
  Notation xt m := (mgs_exts eps m 1 (fun r => r) (fun j => j) false).
  Example ex_linear : forall m, linear_ok (xt m) (if_solvable (normal_exact (tapply o))) (if_solvable (qr_exact (no m) (tapply o)))
    (if_solvable (newton_exact (tapply o))) nothing.
  Proof. intros m. apply mgs_linear. Qed.
  Example ex_weights : forall m f, weights_ok (xt m) (fun r => r) (fun j => j) f.
  Proof. intros m f. split; intros; cbn in *; congruence. Qed.
  Definition reg0 (m : nat) (diags : list diag) := set_x (3 / 2, tt)
    (new_reg o (tconst 0 1) (tconst 0 m) (tconst (tconst 0 m) 1) (tconst (tconst 0 1) 1) (new_object eps m 1) diags).
  Example ex_objects : forall m, ls_object o (reg0 m ls_diags) /\ root_object o (reg0 m root_diags).
  Proof. intros m. split; repeat split. Qed.
  Definition cf : config R := mk_config 100 WhenAbsCorrection (1 / 1000) UStandard None.
  Example ex_start : forall m d, apart (no m) (g_x (reg0 m d)) root2 <= 1 / 10.
  Proof.
    intros m d. cbn [g_x reg0 set_x]. unfold root2. rewrite apart_1. pose proof s2_lo. rewrite Rabs_right; lra.
  Qed.
  (** two corrections are enough: 2 (1/10) (5/8 1/10)^3 < 1/1000 *)
  Lemma bound_mono : forall k a b n, 0 <= k -> 0 <= a <= b -> quadratic k a n <= quadratic k b n.
  Proof.
    intros k a b n Hk [Ha Hb]. unfold quadratic. assert (0 <= k * a <= k * b) by (split; [apply Rmult_le_pos; lra|apply Rmult_le_compat_l; lra]).
    apply Rmult_le_compat; [lra|apply pow_le; lra|lra|apply pow_incr; lra].
  Qed.
  Example ex_two : forall s' w' r, exec (sys F1 DF1) (root_solve o (no 1) (xt 1) cf) (reg0 1 root_diags, tt) = (r, (s', w')) ->
    exists a l, g_log s' = a ++ [l] /\ l_state l = g_x s' /\ (length a <= 2)%nat /\ apart (no 1) (g_x s') root2 <= 2 / 1000.
  Proof.
    intros s' w' r E. pose proof (ex_start 1 root_diags) as H0.
    assert (H1 : apart (no 1) (g_x (reg0 1 root_diags)) root2 <= 1 / 2) by lra.
    destruct (C90_newton_finds eps _ _ _ _ _ _ (no 1) (tvec o 1) (tapply o) (tapply o) (tuple_laws eps 1 1) (xt 1) (sys F1 DF1) F1 DF1
      (ex_computes 1 F1 DF1) (ex_linear 1) root2 _ _ _ ex_regular ex_onto cf (reg0 1 root_diags) tt r s' w') with (M := 0) (near := 2) (far := 1 / (1 - 5 / 8 * (2 / 2) * (1 / 2))) (n := 2%nat)
      as [a [l [K1 [K2 [K3 [K4 K5]]]]]]; try exact E; try exact H1.
    - exact (proj2 (ex_objects 1)).
    - split; exact I.
    - reflexivity.
    - cbn. unfold int32_max. lia.
    - split; reflexivity.
    - discriminate.
    - cbn [f_tol cf]. eapply Rle_lt_trans; [apply Rmult_le_compat_l; [lra|]; apply (bound_mono _ _ (1 / 10) 2); [lra|]|].
      + split; [unfold apart; rewrite (nl_norm _ _ _ _ _ (tuple_laws eps 1 1)); apply R_sqrt.sqrt_pos|exact H0].
      + unfold quadratic. cbn. lra.
    - cbn. lia.
    - exists a, l. split; [exact K1|]. split; [exact K2|]. split; [exact K4|]. cbn [f_tol cf] in K5. lra.
  Qed.
  (** the hypotheses of C90_lipschitz for x^2 - 2: the derivative, and its Lipschitz constant 2 *)
  Example ex_lipschitz : lipschitz_near (no 1) (tvec o 1) (tapply o) DF1 root2 (1 / 2) 2.
  Proof.
    intros [x []] [y []] [v []] _ _. rewrite apart_1. cbn. unfold tdot. cbn.
    change (sadd o) with Rplus. change (smul o) with Rmult. change (s0 o) with 0. rewrite !abs_1.
    replace (v * (2 * x) + 0 + - (1) * (v * (2 * y) + 0)) with (2 * (x - y) * v) by ring. rewrite !Rabs_mult, (Rabs_right 2) by lra. lra.
  Qed.
  Example ex_derivative : derivative_near (no 1) (tapply o) F1 DF1 root2 (1 / 2).
  Proof.
    intros [x []] [w []] t _ _. unfold root2. cbn. unfold tdot. cbn. change (sadd o) with Rplus. change (smul o) with Rmult. change (s0 o) with 0.
    set (e := x + - (1) * sqrt 2).
    apply (derivable_pt_lim_ext (fun u => w * e * e * (u * u) + 2 * w * sqrt 2 * e * u + (w * (sqrt 2 * sqrt 2 - 2)))); [intros u; ring|].
    replace ((e * (2 * (sqrt 2 + t * e)) + 0) * w + 0) with (w * e * e * (1 * t + t * 1) + 2 * w * sqrt 2 * e * 1 + 0) by ring.
    apply (derivable_pt_lim_plus (fun u => w * e * e * (u * u) + 2 * w * sqrt 2 * e * u) (fct_cte _)); [|apply derivable_pt_lim_const].
    apply (derivable_pt_lim_plus (fun u => w * e * e * (u * u)) (fun u => 2 * w * sqrt 2 * e * u)).
    - apply (derivable_pt_lim_scal (fun u => u * u)). apply (derivable_pt_lim_mult id id); apply derivable_pt_lim_id.
    - apply (derivable_pt_lim_scal id). apply derivable_pt_lim_id.
  Qed.
End Ex.

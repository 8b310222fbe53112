(** Concrete cases meeting the hypotheses of the theorems in [PropNewtonRun.v]: y' = - atan y, any number of steps of size 1/2 from
    any state, the linear solves by the modified Gram-Schmidt factorisation; and Newton's method for x^2 = 2 from 3/2. *)
From Coq Require Import Reals ZArith List Lra Lia.
From Verif Require Import Base RInst Laws LawInst AdvanceModel AdvanceSpec AdvanceProofs TargetProofs Track ExplicitModel ImplicitModel ImplicitSpec
  NonlinDiag NonlinModel NonlinWp NonlinSpec NonlinLaws NonlinExact NonlinMoreSpec Tuples QrModel QrSpec QrProofs QrSolve QrExts QrEnd ExNonlin RomLsSpec CompleteRun StabilitySpec
  DissipSpec LinRunSpec NewtonSpec NewtonRunSpec ExLinRun ExNewton PropNewtonRun.
Import ListNotations.
Local Open Scope R_scope.

Section Ex.
  Variable eps : R.
  Notation o := (Rops eps).
  Notation V1 := (tup R 1).
  Notation no := (tuple_ops o sqrt 1 1).
  Notation xt := (mgs_exts eps 1 1 (fun r => r) (fun j => j) false).
  Notation dot := (tdot o (n:=1)).
  Ltac reals := change (sadd o) with Rplus; change (smul o) with Rmult; change (s0 o) with 0; change (sopp o) with Ropp.
  Lemma len_1 : forall a : R, length_of dot (a, tt) = Rabs a.
  Proof. intros a. unfold length_of, tdot. cbn. apply abs_1. Qed.
  Definition rhs (y : V1) (t : R) : V1 := let '(a, _) := y in (- atan a, tt).
  Definition jac (y : V1) (t : R) : mat (S:=R) 1 1 := let '(a, _) := y in ((- / (1 + a ^ 2), tt), tt).
  Example ex_derivative_of : derivative_of (tvec o 1) (tapply o) dot rhs jac.
  Proof.
    intros t [x []] [d []] [w []] s. cbn. unfold tdot. cbn. reals.
    apply (derivable_pt_lim_ext (mult_real_fct (- w) (comp atan (fun s => x + d * s)))); [intros u; unfold mult_real_fct, comp; rewrite (Rmult_comm d u); ring|].
    refine (eq_ind _ (derivable_pt_lim _ s) (derivable_pt_lim_scal _ (- w) s _ (derivable_pt_lim_comp _ _ s d _ _ (derivable_pt_lim_atan _))) _ _).
    - refine (eq_ind _ (derivable_pt_lim _ s) (derivable_pt_lim_plus (fct_cte x) (mult_real_fct d id) s _ _ (derivable_pt_lim_const x s)
        (derivable_pt_lim_scal _ d s _ (derivable_pt_lim_id s))) _ _). ring.
    - cbn. replace (x + d * s) with (x + s * d) by ring. unfold Rsqr. rewrite Rmult_1_r. pose proof (Rle_0_sqr (x + s * d)) as K. unfold Rsqr in K. field. lra.
  Qed.
  Example ex_dissipative_derivative : dissipative_derivative (tapply o) dot jac.
  Proof.
    intros [y []] t [v []]. cbn. unfold tdot. cbn. reals.
    assert (0 < / (1 + y * (y * 1))) by (apply Rinv_0_lt_compat; nra). nra.
  Qed.
  Lemma slope a b : Rabs (/ (1 + a ^ 2) - / (1 + b ^ 2)) <= Rabs (a - b).
  Proof.
    assert (Ha : 0 < 1 + a ^ 2) by nra. assert (Hb : 0 < 1 + b ^ 2) by nra.
    replace (/ (1 + a ^ 2) - / (1 + b ^ 2)) with (- ((a + b) / ((1 + a ^ 2) * (1 + b ^ 2))) * (a - b)) by (field; lra).
    rewrite Rabs_mult, Rabs_Ropp. assert (K : Rabs ((a + b) / ((1 + a ^ 2) * (1 + b ^ 2))) <= 1).
    { pose proof (Rle_0_sqr (a + 1 / 2)) as K1. pose proof (Rle_0_sqr (b + 1 / 2)) as K2. pose proof (Rle_0_sqr (a - 1 / 2)) as K3.
      pose proof (Rle_0_sqr (b - 1 / 2)) as K4. pose proof (Rle_0_sqr (a * b)) as K5. unfold Rsqr in *.
      apply Rabs_le. assert (0 < (1 + a ^ 2) * (1 + b ^ 2)) by nra.
      split; [apply Rmult_le_reg_r with ((1 + a ^ 2) * (1 + b ^ 2)); [assumption|]; unfold Rdiv; rewrite Rmult_assoc, Rinv_l by lra; nra
             |apply Rmult_le_reg_r with ((1 + a ^ 2) * (1 + b ^ 2)); [assumption|]; unfold Rdiv; rewrite Rmult_assoc, Rinv_l by lra; nra]. }
    pose proof (Rabs_pos (a - b)). nra.
  Qed.
  Example ex_lipschitz_derivative : lipschitz_derivative (tvec o 1) (tapply o) dot jac 1.
  Proof.
    intros [x []] [d []] t [v []]. rewrite !len_1. cbn. reals. rewrite len_1.
    pose proof (slope (x + d) x) as K.
    replace (v * - / (1 + (x + d) * ((x + d) * 1)) + 0 + - (1) * (v * - / (1 + x * (x * 1)) + 0))
      with (- v * (/ (1 + (x + d) ^ 2) - / (1 + x ^ 2))) by (cbn [pow]; ring).
    replace (x + d - x) with d in K by ring. rewrite Rabs_mult, Rabs_Ropp. pose proof (Rabs_pos v). nra.
  Qed.
  (** |f| <= pi/2 <= 2 *)
  Example ex_rhs_bounded : forall y t, length_of dot (rhs y t) <= 2.
  Proof.
    intros [a []] t. unfold rhs. rewrite len_1, Rabs_Ropp. pose proof (atan_bound a). pose proof PI_4. apply Rabs_le. lra.
  Qed.
  (** the right hand side as the user provides it, counting its evaluations *)
  Definition nr_user : isys (S:=R) (V:=V1) (J:=mat (S:=R) 1 1) (W:=nat) :=
    mk_isys (fun y t f Jo w => (Ok tt, (rhs y t, option_map (fun _ => jac y t) Jo, Datatypes.S w)))
            (fun y t M f Jo w => (Ok tt, (M, f, Jo, w))).
  Example ex_smooth_user : smooth_user nr_user rhs jac.
  Proof. intros y t r Jo w. eexists. reflexivity. Qed.
  Notation cf := (mk_config 100 WhenAbsResidual (1 / 1000) UStandard None).
  Example ex_newton_absolute : newton_absolute cf.
  Proof. repeat split; cbn; auto; unfold int32_max; lia. Qed.
  (** steps of size 1/2 begin with residuals of at most 1: three iterations are enough *)
  Example ex_begun : forall name, name = BDF1 \/ name = CrankNicolson -> begun cf (weight_of o name ([] : list V1)) 1 (1 / 2) (1 / 2 * 2).
  Proof.
    intros name [-> | ->]; unfold weight_of; cbn -[pow Rinv];
      (split; [lra|]; split; [lra|]; exists 3%nat; split; [unfold quadratic; cbn; lra|cbn; lia]).
  Qed.
  Definition nr_ws : reg R V1 V1 (mat (S:=R) 1 1) (mat (S:=R) 1 1) (object eps 1 1) :=
    set_x (0, tt) (new_reg o (tconst 0 1) (tconst 0 1) (tconst (tconst 0 1) 1) (tconst (tconst 0 1) 1) (new_object eps 1 1) root_diags).
  Example ex_nr_object : root_object o nr_ws.
  Proof. repeat split. Qed.
  Definition nr_g0 (name : scheme) := implicit_create o name ((0, tt) : V1) ((0, tt) : V1) (mk_ppol (-1) 0%nat) (0, tt) nr_ws.
  Notation stp name := (implicit_step o (policy_std o (tvec o 1) (mat_ops eps 1 1) (tid 1) nr_user) (as_solver (root_solve o no xt cf)) name).
  Lemma fixed_half k : fixed_time (sadd o) 0 (1 / 2) k = INR k / 2.
  Proof. induction k as [|k IH]; [cbn; lra|]. rewrite S_INR. cbn [fixed_time]. rewrite IH. cbn. lra. Qed.
  Example ex_nr_run : forall name (y0 : V1) num, name = BDF1 \/ name = CrankNicolson -> (Z.of_nat num < int32_max)%Z ->
    exists tr, integrated_std unit eps no xt cf (mat_ops eps 1 1) (tid 1) nr_user name 0 y0 tr /\
      map fst (reports tr) = map (fun k => (Z.of_nat k, INR k / 2)) (seq 0 (Datatypes.S num)) /\
      well_begun eps (tvec o 1) dot rhs cf 1 name tr.
  Proof.
    intros name y0 num Hn Hnum.
    assert (K : exists g0, nr_g0 name = Ok g0) by (destruct Hn as [->| ->]; eexists; reflexivity). destruct K as [g0 K].
    destruct (C91_n_steps eps _ _ _ _ nat unit no (tapply o) (tapply o) (tuple_laws eps 1 1) (mat_ops eps 1 1) (tid 1) (mat_space eps 1 1)
                xt (mgs_linear eps 1 1 _ _) cf ex_newton_absolute nr_user rhs jac ex_smooth_user name
                (fun _ _ _ w => (Ok tt, w)) _ _ _ _ nr_ws g0 ex_nr_object K
                (fun _ _ _ w => (Ok (1 / 2), w)) num 0 y0 tt Hnum (fun _ _ _ _ => eq_refl) (fun _ _ _ _ => ex_intro _ (1 / 2) eq_refl))
      as (yn & gn & [] & tr & l & E & _).
    exists tr. split.
    - unfold nr_g0 in K. eapply (IntegratedSteps o) with (num := num); [exists 0%nat; reflexivity|exact ex_nr_object|exact K|exact Hnum|exact E].
    - assert (T : map fst (reports tr) = map (fun k => (Z.of_nat k, INR k / 2)) (seq 0 (Datatypes.S num))).
      { eapply (n_steps_fixed o _ _ _ _ (1 / 2)) in E; [|intros k t d w dt w' Ep; cbv [split_pol] in Ep; injection Ep as <- _; reflexivity|exact Hnum].
        rewrite E. apply map_ext. intros k. rewrite fixed_half. reflexivity. }
      split; [exact T|]. apply (C91_bounded eps V1 (tvec o 1) dot (tuple_inner eps 1) rhs 2 ex_rhs_bounded cf 1 name (1 / 2) tr Hn); [lra| |exact (ex_begun name Hn)].
      assert (Q : forall k t y, In (k, t, y) (reports tr) -> t = IZR k / 2).
      { intros k t y HI. apply (in_map fst) in HI. rewrite T in HI. apply in_map_iff in HI. destruct HI as (j & Ej & _). cbn [fst] in Ej.
        injection Ej as <- <-. rewrite INR_IZR_INZ. reflexivity. }
      intros k t1 y1 t2 y2 H1 H2. rewrite (Q _ _ _ H1), (Q _ _ _ H2), plus_IZR. lra.
  Qed.
  (** ... so that backward Euler stays as close to 0 as the tolerance allows *)
  Example ex_nr_error : forall y0 num, (Z.of_nat num < int32_max)%Z ->
    exists tr, integrated_std unit eps no xt cf (mat_ops eps 1 1) (tid 1) nr_user BDF1 0 (y0, tt) tr /\
      forall k t y, (k <= num)%nat -> In (Z.of_nat k, t, (y, tt)) (reports tr) -> Rabs y <= Rabs y0 + INR k / 1000.
  Proof.
    intros y0 num Hnum. destruct (ex_nr_run BDF1 (y0, tt) num (or_introl eq_refl) Hnum) as (tr & HT & T & HB). exists tr. split; [exact HT|].
    intros k t y Hk HI.
    assert (HE : length_of dot (vminus o (tvec o 1) (y, tt) (0, tt)) <=
      length_of dot (vminus o (tvec o 1) (y0, tt) (0, tt)) + (INR k * (1 / 1000) + elapsed (fun _ => 0) k)).
    { refine (C91_error_bdf1 eps _ _ _ _ nat unit no (tapply o) (tapply o) (tuple_laws eps 1 1) (fun _ _ => eq_refl) (mat_ops eps 1 1) (tid 1) (mat_space eps 1 1)
        (proj2 (ex_tuple_matrices eps 1)) xt (mgs_linear eps 1 1 _ _) cf ex_newton_absolute eq_refl nr_user rhs jac ex_smooth_user 1
        ex_derivative_of ex_dissipative_derivative Rle_0_1 ex_lipschitz_derivative (ex_lr_square eps 1) 0 (y0, tt) tr
        (fun k => INR k / 2) (fun _ => 0) num (fun _ => (0, tt)) _ _ HT HB _ k t (y, tt) Hk HI).
      - intros j t' y' HJ. apply (in_map fst) in HJ. rewrite T in HJ. apply in_map_iff in HJ. destruct HJ as (i & Ei & _). cbn [fst] in Ei.
        injection Ei as E1 <-. apply Nat2Z.inj in E1. rewrite E1. reflexivity.
      - intros j _. rewrite S_INR. lra.
      - intros j _. apply Req_le. cbn. reals. unfold length_of, tdot. cbn. reals. rewrite atan_0. refine (eq_trans (f_equal sqrt _) sqrt_0). ring. }
    assert (EL : forall j, elapsed (fun _ => 0) j = 0) by (intros j; induction j as [|j IH]; cbn; [reflexivity|rewrite IH; lra]).
    rewrite EL in HE. revert HE. unfold vminus. cbn. reals. rewrite !len_1.
    replace (y + - (1) * 0) with y by ring. replace (y0 + - (1) * 0) with y0 by ring. lra.
  Qed.
  (** Newton's method for x^2 = 2 from 3/2, where the residual is 1/4: beta = 1/2, gamma = 2 at distance at most 1/2 *)
  Example ex_around : regular_around no (tvec o 1) (tapply o) F1 DF1 (3 / 2, tt) (1 / 2) (1 / 2) 2.
  Proof.
    assert (P : forall x, NewtonSpec.apart no (x, tt) (3 / 2, tt) <= 1 / 2 -> 1 <= x).
    { intros x Hx. rewrite apart_1 in Hx. unfold Rabs in Hx; destruct (Rcase_abs (x - 3 / 2)); lra. }
    assert (E : n_rnorm no (F1 (3 / 2, tt)) = 1 / 4).
    { cbn. unfold tdot. cbn. reals. rewrite abs_1. rewrite Rabs_right; lra. }
    constructor; try lra.
    - intros [x []] Hx [v []]. apply P in Hx. cbn. unfold tdot. cbn. reals. rewrite !abs_1.
      replace (v * (2 * x) + 0) with (2 * x * v) by ring. rewrite Rabs_mult, (Rabs_right (2 * x)) by lra. pose proof (Rabs_pos v). nra.
    - intros [x []] Hx [r []]. apply P in Hx. exists (r / (2 * x), tt). cbn. reals. f_equal. field. lra.
    - intros [x []] [d []] _ _. cbn. unfold tdot. cbn. reals. rewrite !abs_1. apply Req_le.
      replace ((x + d) * (x + d) - 2 + - (1) * (x * x - 2 + (d * (2 * x) + 0))) with (d * d) by ring. rewrite Rabs_mult. field.
    - unfold rate. rewrite E. lra.
    - unfold rate. rewrite E. lra.
  Qed.
  (** two corrections leave a residual below 1/1000 *)
  Example ex_around_two : forall s' w' r,
    exec (sys F1 DF1) (root_solve o no xt (mk_config 100 WhenAbsResidual (1 / 1000) UStandard None)) (reg0 eps 1 root_diags, tt) = (r, (s', w')) ->
    exists a l, g_log s' = a ++ [l] /\ (length a <= 2)%nat /\ n_rnorm no (F1 (g_x s')) <= 1 / 1000.
  Proof.
    intros s' w' r E.
    destruct (C91_newton_finds eps _ _ _ _ _ _ no (tvec o 1) (tapply o) (tapply o) (tuple_laws eps 1 1) xt (sys F1 DF1) F1 DF1
      (ex_computes 1 F1 DF1) (ex_linear eps 1) cf (reg0 eps 1 root_diags) tt r s' w') with (rad := 1 / 2) (beta := 1 / 2) (gamma := 2) (M := 0) (near := 1) (far := 1) (n := 2%nat)
      as [a [l [K1 [K2 [K3 [K4 K5]]]]]]; try exact E.
    - exact (proj2 (ex_objects eps 1)).
    - split; exact I.
    - reflexivity.
    - cbn. unfold int32_max. lia.
    - exact ex_around.
    - split; reflexivity.
    - discriminate.
    - cbn [f_tol g_x reg0 set_x]. replace (n_rnorm no (F1 (3 / 2, tt))) with (1 / 4).
      + unfold quadratic, rate. cbn. lra.
      + cbn. unfold tdot. cbn. reals. rewrite abs_1. rewrite Rabs_right; lra.
    - cbn. lia.
    - exists a, l. split; [exact K1|]. split; [exact K4|]. cbn [f_tol] in K5. lra.
  Qed.
End Ex.

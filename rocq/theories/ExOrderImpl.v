(** Cases meeting the hypotheses of the implicit theorems of [PropOrder.v] and of [PropNewtonBdf2.v]: y' = - y, solved by exp (- t), with a
    solver that tries multiples of the state; y' = cos t - atan (y - sin t), solved by sin t, with Newton's method, any number of steps of size 1/4. *)
From Coq Require Import ZArith List Reals Lra Lia.
From Verif Require Import Base RInst Laws LawInst AdvanceModel AdvanceSpec AdvanceProofs TargetProofs Track ImplicitModel ImplicitSpec
  NonlinDiag NonlinModel NonlinWp NonlinSpec NonlinLaws NonlinExact NonlinMoreSpec Tuples QrModel QrSpec QrProofs QrSolve QrExts QrEnd ExNonlin RomLsSpec CompleteRun
  LinRunSpec NewtonSpec NewtonRunSpec ExLinRun ExNewton PropNewtonRun PropNewtonBdf2 ExNewtonRun ExplicitModel StabilitySpec DissipSpec DissipPairs ExDissip
  OrderSpec OrderCalculus OrderProofs PropOrder ExOrder.
Import ListNotations.
Local Open Scope R_scope.

(** ** Any solver: y' = - y *)
Lemma exp_1 t : 0 <= t -> Rabs (exp (- t)) <= 1.
Proof.
  intros H. rewrite Rabs_pos_eq by (left; apply exp_pos). rewrite <- exp_0. destruct H as [H|<-]; [left; apply exp_increasing; lra|rewrite Ropp_0; lra].
Qed.
Lemma exp_d t : derivable_pt_lim (fun t => - exp (- t)) t (exp (- t)).
Proof. eapply is_lim; [apply derivable_pt_lim_opp; apply di_exp|]. ring. Qed.
Example ex_di_solution : forall T, solution Rmult di_f (fun t => exp (- t)) 0 T.
Proof. intros T w t _. apply by_const. apply di_exp. Qed.
Lemma di_d2 T : differentiates Rmult (fun t => di_f (exp (- t)) t) (fun t => exp (- t)) 0 T.
Proof. intros w t _. apply by_const. apply exp_d. Qed.
Example ex_di_twice : forall T, twice_smooth Rmult di_f (fun t => exp (- t)) 0 T 1.
Proof. intros T. eexists. split; [apply di_d2|]. intros t Ht. rewrite mult_length. apply exp_1. lra. Qed.
Example ex_di_thrice : forall T, thrice_smooth Rmult di_f (fun t => exp (- t)) 0 T 1.
Proof.
  intros T. eexists _, _. split; [apply di_d2|]. split; [intros w t _; apply by_const, di_exp|].
  intros t Ht. rewrite mult_length, Rabs_Ropp. apply exp_1. lra.
Qed.
(** the errors of the runs of [ExDissip.v] *)
Example ex_di_orders : exists tr, completed_std unit di_o di_v di_v 1 di_user (di_solver _ di_dec) BDF2 (fun r => length_of Rmult r <= di_tol) 0 1 tr /\
  In (2%Z, 2, 1 / 5) (reports tr) /\ length_of Rmult (vminus di_o di_v (1 / 5) (exp (- 2))) <= 6 * (2 * di_tol + (1 / 2 + 2 / 9 * 2)).
Proof.
  destruct (ex_di_bdf2 1) as (tr & HT & Er). exists tr. split; [exact HT|].
  assert (HI : In (2%Z, 2, 1 / 5) (reports tr)) by (rewrite Er; right; right; left; reflexivity). split; [exact HI|].
  destruct ex_di_laws as (H1 & H2 & H3 & H4 & _ & H6).
  destruct (ex_di_times R R tr tr _ _ _ _ _ _ Er Er) as (_ & F1 & _ & _ & _).
  pose proof (C94_bdf2 R R nat (list R) unit 0 di_v di_v 1 di_user (di_solver _ di_dec) H1 H1 Rmult di_f H2 H3 H4 di_tol 0 1 tr HT F1
    (fun t => exp (- t)) 2 (ex_di_solution 2) 1 1 1 (ex_di_twice 2) (ex_di_thrice 2)) as C.
  specialize (C ltac:(rewrite Er; intros k t s t' s' [A|[A|[A|[]]]] [B|[B|[B|[]]]]; di_pairs; try lia; lra) 2%Z 2 (1 / 5) HI ltac:(lra)). cbv beta in C.
  replace (length_of Rmult (vminus (Rops 0) di_v 1 (exp (- 0)))) with 0 in C.
  - eapply Rle_trans; [exact C|]. right. field.
  - unfold vminus, neg1, length_of. cbn. rewrite Ropp_0, exp_0. symmetry. refine (eq_trans (f_equal sqrt _) sqrt_0). ring.
Qed.

(** ** Newton's method: y' = cos t - atan (y - sin t) *)
Section Newton.
  Variable eps : R.
  Notation o := (Rops eps).
  Notation V1 := (tup R 1).
  Notation no := (tuple_ops o sqrt 1 1).
  Notation xt := (mgs_exts eps 1 1 (fun r => r) (fun j => j) false).
  Notation dot := (tdot o (n:=1)).
  Ltac reals := change (sadd o) with Rplus; change (smul o) with Rmult; change (s0 o) with 0; change (sopp o) with Ropp.
  Definition wv_rhs (y : V1) (t : R) : V1 := let '(a, _) := y in (cos t - atan (a - sin t), tt).
  Definition wv_jac (y : V1) (t : R) : mat (S:=R) 1 1 := let '(a, _) := y in ((- / (1 + (a - sin t) ^ 2), tt), tt).
  Example ex_wv_derivative_of : derivative_of (tvec o 1) (tapply o) dot wv_rhs wv_jac.
  Proof.
    intros t [x []] [d []] [w []] s. pose proof (ex_derivative_of eps t (x - sin t, tt) (d, tt) (w, tt) s) as K. revert K. cbn. unfold tdot. cbn. reals. intros K.
    apply (derivable_pt_lim_ext (fun u => (w * cos t) + (- atan (x - sin t + d * u) * w + 0))); [intros u; rewrite (Rmult_comm d u); replace (x + u * d - sin t) with (x - sin t + u * d) by ring; ring|].
    eapply is_lim; [apply plus_lim; [apply const_lim|]|].
    - apply (derivable_pt_lim_ext (fun s0 : R => - atan (x - sin t + s0 * d) * w + 0)); [intros u; rewrite (Rmult_comm d u); reflexivity|exact K].
    - replace (x + s * d - sin t) with (x - sin t + s * d) by ring. ring.
  Qed.
  Example ex_wv_dissipative_derivative : dissipative_derivative (tapply o) dot wv_jac.
  Proof. intros [y []] t v. exact (ex_dissipative_derivative eps (y - sin t, tt) t v). Qed.
  Example ex_wv_lipschitz_derivative : lipschitz_derivative (tvec o 1) (tapply o) dot wv_jac 1.
  Proof.
    intros [x []] [d []] t v. pose proof (ex_lipschitz_derivative eps (x - sin t, tt) (d, tt) t v) as K. revert K.
    change (vadd (tvec o 1) (x, tt) (d, tt)) with ((x + d, tt) : V1). change (vadd (tvec o 1) (x - sin t, tt) (d, tt)) with ((x - sin t + d, tt) : V1).
    unfold wv_jac, jac. replace (x + d - sin t) with (x - sin t + d) by ring. exact (fun K => K).
  Qed.
  (** |f| <= 1 + pi/2 <= 3 *)
  Example ex_wv_bounded : forall y t, length_of dot (wv_rhs y t) <= 3.
  Proof.
    intros [a []] t. unfold wv_rhs. rewrite len_1. pose proof (atan_bound (a - sin t)). pose proof PI_4. pose proof (COS_bound t). apply Rabs_le. lra.
  Qed.
  Definition wv_user : isys (S:=R) (V:=V1) (J:=mat (S:=R) 1 1) (W:=nat) :=
    mk_isys (fun y t f Jo w => (Ok tt, (wv_rhs y t, option_map (fun _ => wv_jac y t) Jo, Datatypes.S w)))
            (fun y t M f Jo w => (Ok tt, (M, f, Jo, w))).
  Example ex_wv_user : smooth_user wv_user wv_rhs wv_jac.
  Proof. intros y t r Jo w. eexists. reflexivity. Qed.
  Notation cf := (mk_config 100 WhenAbsResidual (1 / 1000) UStandard None).
  (** steps of size 1/4 begin with residuals below 1: three iterations are enough *)
  Example ex_wv_begun : forall name, name = BDF1 \/ name = CrankNicolson -> begun cf (weight_of o name ([] : list V1)) 1 (1 / 4) (1 / 4 * 3).
  Proof.
    intros name [-> | ->]; unfold weight_of; cbn -[pow Rinv];
      (split; [lra|]; split; [lra|]; exists 3%nat; split; [unfold quadratic; cbn; lra|cbn; lia]).
  Qed.
  Example ex_wv_begun_2 : begun cf 1 1 (1 / 4) (1 / 4 * 3 + f_tol cf / 2).
  Proof. split; [lra|]; split; [cbn; lra|]; exists 3%nat; split; [unfold quadratic; cbn; lra|cbn; lia]. Qed.
  Definition wv_g0 (name : scheme) := implicit_create o name ((0, tt) : V1) ((0, tt) : V1) (mk_ppol (-1) 0%nat) (0, tt) (nr_ws eps).
  Lemma fixed_quarter k : fixed_time (sadd o) 0 (1 / 4) k = INR k / 4.
  Proof. induction k as [|k IH]; [cbn; lra|]. rewrite S_INR. cbn [fixed_time]. rewrite IH. cbn. lra. Qed.
  Example ex_wv_run : forall name (y0 : V1) num, name = BDF1 \/ name = BDF2 \/ name = CrankNicolson -> (Z.of_nat num < int32_max)%Z ->
    exists tr, integrated_std unit eps no xt cf (mat_ops eps 1 1) (tid 1) wv_user name 0 y0 tr /\
      map fst (reports tr) = map (fun k => (Z.of_nat k, INR k / 4)) (seq 0 (Datatypes.S num)) /\
      well_begun eps (tvec o 1) dot wv_rhs cf 1 name tr.
  Proof.
    intros name y0 num Hn Hnum.
    assert (K : exists g0, wv_g0 name = Ok g0) by (destruct Hn as [->|[->| ->]]; eexists; reflexivity). destruct K as [g0 K].
    destruct (C91_n_steps eps _ _ _ _ nat unit no (tapply o) (tapply o) (tuple_laws eps 1 1) (mat_ops eps 1 1) (tid 1) (mat_space eps 1 1)
                xt (mgs_linear eps 1 1 _ _) cf ex_newton_absolute wv_user wv_rhs wv_jac ex_wv_user name
                (fun _ _ _ w => (Ok tt, w)) _ _ _ _ (nr_ws eps) g0 (ex_nr_object eps) K
                (fun _ _ _ w => (Ok (1 / 4), w)) num 0 y0 tt Hnum (fun _ _ _ _ => eq_refl) (fun _ _ _ _ => ex_intro _ (1 / 4) eq_refl))
      as (yn & gn & [] & tr & l & E & _).
    exists tr. assert (HT : integrated_std unit eps no xt cf (mat_ops eps 1 1) (tid 1) wv_user name 0 y0 tr).
    { unfold wv_g0 in K. eapply (IntegratedSteps o) with (num := num); [exists 0%nat; reflexivity|exact (ex_nr_object eps)|exact K|exact Hnum|exact E]. }
    split; [exact HT|].
    assert (T : map fst (reports tr) = map (fun k => (Z.of_nat k, INR k / 4)) (seq 0 (Datatypes.S num))).
    { eapply (n_steps_fixed o _ _ _ _ (1 / 4)) in E; [|intros k t d w dt w' Ep; cbv [split_pol] in Ep; injection Ep as <- _; reflexivity|exact Hnum].
      rewrite E. apply map_ext. intros k. rewrite fixed_quarter. reflexivity. }
    split; [exact T|].
    assert (Q : forall k t y, In (k, t, y) (reports tr) -> t = IZR k / 4).
    { intros k t y HI. apply (in_map fst) in HI. rewrite T in HI. apply in_map_iff in HI. destruct HI as (j & Ej & _). cbn [fst] in Ej.
      injection Ej as <- <-. rewrite INR_IZR_INZ. reflexivity. }
    assert (HS : forall k t y t' y', In (k, t, y) (reports tr) -> In ((k + 1)%Z, t', y') (reports tr) -> 0 <= t' - t <= 1 / 4).
    { intros k t1 y1 t2 y2 H1 H2. rewrite (Q _ _ _ H1), (Q _ _ _ H2), plus_IZR. lra. }
    assert (Hc : (name = BDF1 \/ name = CrankNicolson) \/ name = BDF2) by tauto. destruct Hc as [Hc| ->].
    - apply (C91_bounded eps V1 (tvec o 1) dot (tuple_inner eps 1) wv_rhs 3 ex_wv_bounded cf 1 name (1 / 4) tr Hc); [lra|exact HS|exact (ex_wv_begun name Hc)].
    - refine (C91_bounded_bdf2 eps _ _ _ _ nat unit no (tapply o) (tapply o) (tuple_laws eps 1 1) (fun _ _ => eq_refl) (mat_ops eps 1 1) (tid 1) (mat_space eps 1 1)
        (proj2 (ex_tuple_matrices eps 1)) xt (mgs_linear eps 1 1 _ _) cf ex_newton_absolute eq_refl wv_user wv_rhs wv_jac ex_wv_user 1
        ex_wv_derivative_of ex_wv_dissipative_derivative Rle_0_1 ex_wv_lipschitz_derivative (ex_lr_square eps 1) 3 ex_wv_bounded 0 y0 tr (1 / 4) HT HS _ ex_wv_begun_2). cbn. lra.
  Qed.
  Notation sol := (fun t => ((sin t, tt) : V1)).
  Lemma at_sol t : wv_rhs (sol t) t = (cos t, tt).
  Proof. unfold wv_rhs. replace (sin t - sin t) with 0 by ring. rewrite atan_0. f_equal. ring. Qed.
  Lemma scalar_diff a b t0 T : (forall t, derivable_pt_lim a t (b t)) -> differentiates dot (fun t => ((a t, tt) : V1)) (fun t => (b t, tt)) t0 T.
  Proof.
    intros H [w []] t _. unfold tdot. cbn. reals. apply (derivable_pt_lim_ext (fun s => a s * w)); [intros; ring|]. eapply is_lim; [apply by_const, H|ring].
  Qed.
  Example ex_wv_solution : forall T, solution dot wv_rhs sol 0 T.
  Proof.
    intros T w t Ht. rewrite at_sol. exact (scalar_diff sin cos 0 T derivable_pt_lim_sin w t Ht).
  Qed.
  Lemma wv_d2 T : differentiates dot (fun t => wv_rhs (sol t) t) (fun t => (- sin t, tt)) 0 T.
  Proof.
    intros w t Ht. apply (derivable_pt_lim_ext (fun s => dot ((cos s, tt) : V1) w)); [intros s; rewrite at_sol; reflexivity|].
    exact (scalar_diff cos (fun t => - sin t) 0 T derivable_pt_lim_cos w t Ht).
  Qed.
  Example ex_wv_twice : forall T, twice_smooth dot wv_rhs sol 0 T 1.
  Proof. intros T. exists (fun t => (- sin t, tt)). split; [apply wv_d2|]. intros t _. rewrite len_1, Rabs_Ropp. apply sin_1. Qed.
  Example ex_wv_thrice : forall T, thrice_smooth dot wv_rhs sol 0 T 1.
  Proof.
    intros T. eexists _, (fun t => (- cos t, tt)). split; [apply wv_d2|]. split.
    - apply (scalar_diff (fun t => - sin t) (fun t => - cos t)). intros t. apply derivable_pt_lim_opp, derivable_pt_lim_sin.
    - intros t _. rewrite len_1, Rabs_Ropp. apply cos_1.
  Qed.
End Newton.

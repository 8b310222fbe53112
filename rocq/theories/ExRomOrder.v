(** Concrete cases meeting the hypotheses of the theorems in [PropRomOrder.v].
    First the FOM y' = - y of [ExRomError.v] on the plane with trial space the line through (0, 1) along (1, 0), and its solution e^-t (1, 1);
    then y1' = cos t - atan (y1 - sin t), y2' = - atan y2 with the solution (sin t, 0), trial space the line through (3/5, 4/5), and Newton's method. *)
From Coq Require Import Reals ZArith List Lra Lia.
From Verif Require Import Base RInst Laws LawInst AdvanceModel AdvanceSpec AdvanceProofs TargetProofs Track ImplicitModel ImplicitSpec
  LspgModel RomSpec GalerkinModel GalerkinSpec
  NonlinDiag NonlinModel NonlinSpec NonlinLaws NonlinExact NonlinMoreSpec Tuples QrModel QrSpec QrProofs QrSolve QrExts QrEnd ExNonlin RomLsSpec CompleteRun
  LinRunSpec GalLinSpec NewtonSpec NewtonRunSpec GalNewtonSpec NewtonProofs GalNewtonProofs ExLinRun ExNewton ExNewtonRun PropNewtonRun PropNewtonBdf2 PropGalNewton ExGalNewton
  ExplicitModel ExplicitSpec ExplicitExtra StabilitySpec DissipSpec DissipPairs ExDissip ExRomError OrderSpec OrderCalculus OrderProofs ExOrder ExOrderImpl PropRomOrder.
Import ListNotations.
Local Open Scope R_scope.

(** ** y' = - y *)
Definition ro_sol (t : R) : re_P := (exp (- t), exp (- t)).
Lemma ro_diff a b t0 T : (forall t, derivable_pt_lim a t (b t)) -> differentiates re_ip (fun t => (a t, a t)) (fun t => (b t, b t)) t0 T.
Proof.
  intros H [w v] t _. unfold re_ip. cbn. apply (derivable_pt_lim_ext (fun s => a s * (w + v))); [intros; ring|]. eapply is_lim; [apply by_const, H|ring].
Qed.
Lemma ro_exp t : derivable_pt_lim (fun t => exp (- t)) t (- exp (- t)).
Proof. exact (di_exp t). Qed.
Example ex_ro_solution : forall T, solution re_ip re_f ro_sol 0 T.
Proof. intros T. exact (ro_diff (fun t => exp (- t)) (fun t => - exp (- t)) 0 T ro_exp). Qed.
Lemma ro_len a : Rabs a <= 1 -> length_of re_ip (a, a) <= 2.
Proof.
  intros H. rewrite re_len. rewrite <- (sqrt_square 2) by lra. apply sqrt_le_1_alt.
  assert (- (1) <= a <= 1) by (unfold Rabs in H; destruct (Rcase_abs a); lra). nra.
Qed.
Lemma ro_d2 T : differentiates re_ip (fun t => re_f (ro_sol t) t) ro_sol 0 T.
Proof. exact (ro_diff (fun t => - exp (- t)) (fun t => exp (- t)) 0 T exp_d). Qed.
Example ex_ro_twice : forall T, twice_smooth re_ip re_f ro_sol 0 T 2.
Proof. intros T. exists ro_sol. split; [apply ro_d2|]. intros t Ht. apply ro_len, exp_1. lra. Qed.
Example ex_ro_thrice : forall T, thrice_smooth re_ip re_f ro_sol 0 T 2.
Proof.
  intros T. exists ro_sol, (fun t => re_f (ro_sol t) t). split; [apply ro_d2|]. split; [apply ex_ro_solution|]. intros t Ht. apply ro_len. cbn. rewrite Rabs_Ropp. apply exp_1. lra.
Qed.
Lemma ro_fst x : length_of re_ip (re_f (fst x) 0) <= 2 * length_of (pair_ip re_ip) x.
Proof.
  destruct x as [[a b] c]. unfold length_of, pair_ip, re_ip, re_f. cbn.
  apply Rle_trans with (1 * sqrt (a * a + b * b + c * c)).
  - rewrite Rmult_1_l. apply sqrt_le_1_alt. pose proof (Rle_0_sqr c) as Q. unfold Rsqr in Q. lra.
  - apply Rmult_le_compat_r; [apply R_sqrt.sqrt_pos|lra].
Qed.
Lemma ro_zero x : 0 <= x -> length_of re_ip (0, 0) <= x.
Proof. intros H. rewrite re_len. replace (0 * 0 + 0 * 0) with 0 by ring. rewrite sqrt_0. exact H. Qed.
Lemma ro_size (x : re_P * R) : 0 <= length_of (pair_ip re_ip) x.
Proof. apply R_sqrt.sqrt_pos. Qed.
Lemma ro_multi : multilinear re_v re_ip 2 (fun x => re_f (fst x) 0) (fun _ _ => (0, 0)).
Proof.
  constructor; try (intros; split; intros; unfold re_f; cbn; f_equal; ring); try reflexivity.
  - exact ro_fst.
  - intros x y. apply ro_zero. pose proof (ro_size x). pose proof (ro_size y). assert (0 <= length_of (pair_ip re_ip) x * length_of (pair_ip re_ip) y) by (apply Rmult_le_pos; assumption). lra.
Qed.
Example ex_ro_expands_2 : forall T, expands_2 re_v re_ip 0 re_f ro_sol 0 T 2.
Proof.
  intros T. exists (fun _ x => re_f (fst x) 0), (fun _ _ _ => (0, 0)). intros t Ht. split; [apply ro_len; cbn; rewrite Rabs_Ropp; apply exp_1; lra|].
  split; [exact ro_multi|]. intros [a b] tau.
  match goal with |- length_of _ ?x <= _ => replace x with (0, 0) by (unfold vminus, neg1, re_f, ro_sol; cbn; f_equal; field) end.
  apply ro_zero. pose proof (ro_size ((a, b), tau)) as P. pose proof (pow_le _ 3 P). lra.
Qed.
Example ex_ro_expands_3 : forall T, expands_3 re_v re_ip 0 re_f ro_sol 0 T 2.
Proof.
  intros T. exists (fun _ x => re_f (fst x) 0), (fun _ _ _ => (0, 0)), (fun _ _ _ _ => (0, 0)). intros t Ht. split; [apply ro_len; cbn; rewrite Rabs_Ropp; apply exp_1; lra|].
  split; [exact ro_multi|]. split.
  - constructor; try (intros; split; intros; cbn; f_equal; ring); try reflexivity.
    intros x y z. apply ro_zero. assert (0 <= length_of (pair_ip re_ip) x * length_of (pair_ip re_ip) y * length_of (pair_ip re_ip) z) by (repeat apply Rmult_le_pos; apply ro_size). lra.
  - intros [a b] tau.
    match goal with |- length_of _ ?x <= _ => replace x with (0, 0) by (unfold vminus, neg1, re_f, ro_sol; cbn; f_equal; field) end.
    apply ro_zero. pose proof (ro_size ((a, b), tau)) as P. pose proof (pow_le _ 4 P). lra.
Qed.
Example ex_ro_used : used 1 (explicit_step di_o di_v (rhs_system re_c re_obs) ForwardEuler) (mk_est 1 [0] 0 0 0 re_obj []) /\
  used 2 (explicit_step di_o di_v (rhs_system re_c re_obs) AdamsBashforth2) (mk_est 1 [0; 0] 0 0 0 re_obj []) /\
  used 1 (explicit_step di_o di_v (rhs_system re_c re_obs) SSPRungeKutta3) (mk_est 1 [0] 0 0 0 re_obj []) /\
  used 4 (explicit_step di_o di_v (rhs_system re_c re_obs) RungeKutta4) (mk_est 1 [0; 0; 0; 0] 0 0 0 re_obj []).
Proof. repeat split; apply UsedFresh; reflexivity. Qed.
(** The four-stage Runge-Kutta scheme: what remains for small steps is what the basis misses. *)
Example ex_ro_runge_kutta : exists C, forall num, (0 < num)%nat -> (Z.of_nat num < int32_max)%Z ->
  exists x g' tr, advance_n_steps di_o (mk_user noop_obs (pol3 (fun _ _ _ w => (Ok (1 / INR num), w))) noop_guess
      (stepper_fn (explicit_step di_o di_v (rhs_system re_c re_obs) RungeKutta4))) (Z.of_nat num) 0 (1, mk_est 1 [0; 0; 0; 0] 0 0 0 re_obj [], []) = (Ok tt, (x, g', tr)) /\
    length_of re_ip (vminus di_o re_v (re_recon x) (exp (- (1)), exp (- (1)))) <= exp 1 * (1 + C * (1 / INR num) ^ 4).
Proof.
  destruct ex_re_space as (HV & HI & Hl & Hr & _). destruct ex_re_user as (U1 & _ & _ & _ & _ & _ & _ & U8).
  destruct (C95_runge_kutta_4 _ _ _ _ _ _ _ _ _ 0 di_v re_v (self_space _ (R_field 0)) HV re_recon re_bapp (0, 1) re_phi Hl Hr re_fom re_f (fun _ => True) U1 re_ip 1 HI U8
    re_obs (fun _ _ _ _ w _ => ex_intro _ w (conj eq_refl I)) (fun _ => re_T) re_c ex_re_galerkin 1 (fun x t => proj1 (ex_re_defect x t)) ro_sol 0 1 Rle_0_1 (ex_ro_solution 1)
    2 (ex_ro_expands_3 1)) as (C & HC).
  exists C. intros num Hn Hm. destruct (HC 1 (mk_est 1 [0; 0; 0; 0] 0 0 0 re_obj []) num (proj2 (proj2 (proj2 ex_ro_used))) I Hn Hm) as (x & g' & tr & E & B).
  exists x, g', tr. split; [exact E|]. replace (0 + 1) with 1 in B by ring. eapply Rle_trans; [exact B|]. right.
  replace (length_of re_ip (vminus (Rops 0) re_v (re_recon 1) (ro_sol 0))) with 0; [f_equal; ring_simplify; [f_equal; ring|ring]|].
  unfold ro_sol, re_recon, re_bapp, vminus, neg1. cbn. rewrite Ropp_0, exp_0, re_len. symmetry. refine (eq_trans (f_equal sqrt _) sqrt_0). ring.
Qed.
(** BDF2: two steps of size 1 from x = 1, that is (1, 1), to x = 1/5, that is (1/5, 1). Everything else needed holds of the runs of [ExRomError.v] with BDF1 and Crank-Nicolson too. *)
Example ex_ro_bdf2 : exists tr,
  completed_std unit di_o di_v di_v 1 (rhs_jac_system re_ci) (di_solver _ di_dec) BDF2 (fun r => length_of Rmult r <= di_tol) 0 1 tr /\
  In (2%Z, 2, 1 * (1 / 5)) (reports tr) /\
  length_of re_ip (vminus di_o re_v (re_recon (1 * (1 / 5))) (exp (- (2)), exp (- (2)))) <= 6 * (2 * di_tol + 2 + (1 + 2 / 9 * 2 * 2)).
Proof.
  destruct (ex_re_rom_bdf2 1) as (tr & HT & Er). exists tr. split; [exact HT|].
  assert (HIn : In (2%Z, 2, 1 * (1 / 5)) (reports tr)) by (rewrite Er; right; right; left; reflexivity). split; [exact HIn|].
  destruct ex_re_space as (HV & HI & Hl & Hr & _ & _ & HK). destruct ex_re_user as (_ & U1 & U2 & _ & _ & _ & U7 & _).
  assert (Hst : forall k t s t' s', In (k, t, s) (reports tr) -> In ((k + 1)%Z, t', s') (reports tr) -> t' - t = 1).
  { rewrite Er. intros k t s t' s' [A|[A|[A|[]]]] [B|[B|[B|[]]]]; 
      pose proof (f_equal (fun q => fst (fst q)) A) as A1; pose proof (f_equal (fun q => snd (fst q)) A) as A2; pose proof (f_equal (fun q => fst (fst q)) B) as B1; pose proof (f_equal (fun q => snd (fst q)) B) as B2;
      cbn [fst snd] in A1, A2, B1, B2; clear A B; try (exfalso; lia); lra. }
  pose proof (C95_bdf2 _ _ _ _ _ _ _ _ _ _ _ 0 di_v re_v di_v 1 (self_space _ (R_field 0)) HV (self_space _ (R_field 0)) re_recon re_bapp (0, 1) re_phi Hl Hr re_ip Rmult 1 HI Rle_0_1 HK
    re_fom re_f _ U7 U1 U2 _ _ _ ex_re_jac _ di_tol 0 1 tr HT
    (fun k t s t' s' A B => ltac:(pose proof (Hst _ _ _ _ _ A B); lra)) 1 (fun k t x _ => proj1 (ex_re_defect x t)) ro_sol 2 (ex_ro_solution 2) 2 2 1 (ex_ro_twice 2) (ex_ro_thrice 2) Hst
    2%Z 2 (1 * (1 / 5)) HIn ltac:(lra)) as C.
  replace (length_of re_ip (vminus (Rops 0) re_v (re_recon 1) (ro_sol 0))) with 0 in C.
  - eapply Rle_trans; [exact C|]. right. field.
  - unfold ro_sol, re_recon, re_bapp, vminus, neg1. cbn. rewrite Ropp_0, exp_0, re_len. symmetry. refine (eq_trans (f_equal sqrt _) sqrt_0). ring.
Qed.

(** ** Newton's method *)
Section Newton.
  Variable eps : R.
  Notation o := (Rops eps).
  Notation V1 := (tup R 1).
  Notation V2 := (tup R 2).
  Notation M22 := (mat (S:=R) 2 2).
  Notation M21 := (mat (S:=R) 2 1).
  Notation no := (tuple_ops o sqrt 1 1).
  Notation xt := (mgs_exts eps 1 1 (fun r => r) (fun j => j) false).
  Notation xip := (tdot o (n:=1)).
  Notation ip := (tdot o (n:=2)).
  Notation cf := (mk_config 100 WhenAbsResidual (1 / 1000) UStandard None).
  Notation bapp := (tapply o gn_phi).
  Notation recon := (gn_recon eps).
  Notation PT := (gn_T eps).
  Ltac reals := change (sadd o) with Rplus; change (smul o) with Rmult; change (s0 o) with 0; change (sopp o) with Ropp.
  Ltac gn_t := cbn; lr_pairs; ring.
  Definition gw_f (y : V2) (t : R) : V2 := let '(a, (b, _)) := y in (cos t - atan (a - sin t), (- atan b, tt)).
  Definition gw_D (y : V2) (t : R) : M22 := let '(a, (b, _)) := y in gn_D (a - sin t, (b, tt)) t.
  Definition gw_AB (y : V2) (t : R) : M21 := tmap (tapply o (gw_D y t)) gn_phi.
  Definition gw_fom : sfom (S:=R) (Y:=V2) (R:=V2) (J:=M21) (B:=M21) (W:=nat) :=
    mk_sfom (fun y t r w => (Ok tt, (gw_f y t, Datatypes.S w))) (fun y phi t j w => (Ok tt, (tmap (tapply o (gw_D y t)) phi, Datatypes.S w))).
  Definition gw_c := default_rhs_jac (Mf:=unit) (Rm:=unit) (Jm:=unit) (M:=unit) o recon gn_phi (gn_prodv eps) (gn_prodj eps) gw_fom.
  Example ex_gw_rom : smooth_rom eps (tvec o 1) (tvec o 2) (tvec o 2) (mat_ops eps 1 1) (tapply o) (tapply o) recon bapp gn_off gn_phi
    gw_fom gw_f (fun y t => tapply o (gw_D y t)) gw_AB (fun _ => PT) (fun _ => gn_TJ eps) gw_c.
  Proof.
    pose proof (ex_gn_rom eps) as G. split; try apply G.
    - intros y t r w _. repeat split.
    - exists (fun y phi t => tmap (tapply o (gw_D y t)) phi). split; [intros y phi t j w _; repeat split|reflexivity].
    - intros [p [q []]] t [a []]. cbv [gw_AB gn_phi gw_D gn_D]. gn_t.
    - apply DefaultRhsJac; intros a v b r; reflexivity.
  Qed.
  Example ex_gw_derivative : derivative_of (tvec o 2) (tapply o) ip gw_f gw_D.
  Proof.
    intros t [x [y []]] [d [e []]] [w [v []]] s. pose proof (ex_gn_derivative eps t (x - sin t, (y, tt)) (d, (e, tt)) (w, (v, tt)) s) as K. revert K. cbn. unfold tdot. cbn. reals. intros K.
    apply (derivable_pt_lim_ext (fun u => (w * cos t) + (- atan (x - sin t + u * d) * w + (- atan (y + u * e) * v + 0)))).
    - intros u. replace (x + u * d - sin t) with (x - sin t + u * d) by ring. ring.
    - eapply is_lim; [apply plus_lim; [apply const_lim|exact K]|]. replace (x + s * d - sin t) with (x - sin t + s * d) by ring. ring.
  Qed.
  Example ex_gw_negative : dissipative_derivative (tapply o) ip gw_D.
  Proof. intros [y [z []]] t v. exact (ex_gn_negative eps (y - sin t, (z, tt)) t v). Qed.
  Example ex_gw_lipschitz : lipschitz_derivative (tvec o 2) (tapply o) ip gw_D 1.
  Proof.
    intros [x [y []]] [d [e []]] t v. pose proof (ex_gn_lipschitz eps (x - sin t, (y, tt)) (d, (e, tt)) t v) as K. revert K.
    change (vadd (tvec o 2) (x, (y, tt)) (d, (e, tt))) with ((x + d, (y + e, tt)) : V2). change (vadd (tvec o 2) (x - sin t, (y, tt)) (d, (e, tt))) with ((x - sin t + d, (y + e, tt)) : V2).
    unfold gw_D. replace (x + d - sin t) with (x - sin t + d) by ring. exact (fun K => K).
  Qed.
  Notation redf := (reduced recon gw_f (fun _ => PT)).
  Example ex_gw_bounded : forall x t, length_of xip (redf x t) <= 4.
  Proof.
    intros [x []] t. unfold reduced, gn_T, gn_recon, gn_off, gn_phi. cbn. rewrite len_1. reals.
    match goal with |- Rabs (_ * (_ - atan ?a) + (_ * - atan ?b + _)) <= _ => pose proof (atan_2 a); pose proof (atan_2 b)
                  | |- Rabs ((_ - atan ?a) * _ + (- atan ?b * _ + _)) <= _ => pose proof (atan_2 a); pose proof (atan_2 b) end.
    pose proof (COS_bound t). apply Rabs_le. lra.
  Qed.
  Example ex_gw_missed : forall x t, length_of ip (vminus o (tvec o 2) (gw_f (recon x) t) (bapp (PT (gw_f (recon x) t)))) <= 4.
  Proof.
    intros x t. unfold gw_f. destruct (recon x) as [a [b []]]. unfold gn_T, gn_phi, vminus. cbn. rewrite len_2. reals.
    refine (Rle_trans _ (sqrt (4 * 4)) _ _ (Req_le _ _ (sqrt_square 4 _))); [|lra]. apply sqrt_le_1_alt. pose proof (atan_2 (a - sin t)). pose proof (atan_2 b). pose proof (COS_bound t).
    set (p := cos t - atan (a - sin t)) in *. set (q := atan b) in *. assert (- (3) <= p <= 3) by (unfold p; lra).
    match goal with |- ?l <= _ => replace l with ((4 / 5 * p + 3 / 5 * q) * (4 / 5 * p + 3 / 5 * q)) by field end.
    assert (- (4) <= 4 / 5 * p + 3 / 5 * q <= 4) by lra. nra.
  Qed.
  Example ex_gw_begun : forall name, name = BDF1 \/ name = CrankNicolson -> begun cf (weight_of o name ([] : list V1)) (1 * 1 ^ 3) (1 / 4) (1 / 4 * 4).
  Proof.
    intros name Hn. replace (1 * 1 ^ 3) with 1 by ring. destruct Hn as [-> | ->]; unfold weight_of; cbn -[pow Rinv];
      (split; [lra|]; split; [lra|]; exists 3%nat; split; [unfold quadratic; cbn; lra|cbn; lia]).
  Qed.
  Example ex_gw_begun_2 : begun cf 1 (1 * 1 ^ 3) (1 / 4) (1 / 4 * 4 + f_tol cf / 2).
  Proof. replace (1 * 1 ^ 3) with 1 by ring. split; [lra|]; split; [cbn; lra|]; exists 3%nat; split; [unfold quadratic; cbn; lra|cbn; lia]. Qed.
  Definition gw_g0 (name : scheme) := implicit_create o name ((0, tt) : V1) ((0, tt) : V1) (mk_ppol (-1) gn_obj) (0, tt) (nr_ws eps).
  Example ex_gw_run : forall name (x0 : V1) num, name = BDF1 \/ name = BDF2 \/ name = CrankNicolson -> (Z.of_nat num < int32_max)%Z ->
    exists tr, integrated_std unit eps no xt cf (mat_ops eps 1 1) (tid 1) (rhs_jac_system gw_c) name 0 x0 tr /\
      map fst (reports tr) = quarters num /\ well_begun eps (tvec o 1) xip redf cf (1 * 1 ^ 3) name tr.
  Proof.
    intros name x0 num Hn Hnum.
    assert (K : exists g0, gw_g0 name = Ok g0) by (destruct Hn as [->|[->| ->]]; eexists; reflexivity). destruct K as [g0 K].
    destruct (C93_n_steps eps _ _ _ _ _ _ _ _ _ _ _ _ unit no (tapply o) (tapply o) (tuple_laws eps 1 1) (mat_ops eps 1 1) (tid 1) (mat_space eps 1 1)
                xt (mgs_linear eps 1 1 _ _) cf ex_newton_absolute _ _ _ _ _ _ _ _ _ _ _ _ _ _ ex_gw_rom name
                (fun _ _ _ w => (Ok tt, w)) _ _ _ _ (nr_ws eps) g0 (ex_nr_object eps) K
                (fun _ _ _ w => (Ok (1 / 4), w)) num 0 x0 tt Hnum (fun _ _ _ _ => eq_refl) (fun _ _ _ _ => ex_intro _ (1 / 4) eq_refl))
      as (yn & gn & [] & tr & l & E & _).
    exists tr. assert (HT : integrated_std unit eps no xt cf (mat_ops eps 1 1) (tid 1) (rhs_jac_system gw_c) name 0 x0 tr).
    { unfold gw_g0 in K. eapply (IntegratedSteps o) with (num := num); [exists gn_obj; reflexivity|exact (ex_nr_object eps)|exact K|exact Hnum|exact E]. }
    split; [exact HT|].
    assert (T : map fst (reports tr) = quarters num).
    { eapply (n_steps_fixed o _ _ _ _ (1 / 4)) in E; [|intros k t d w dt w' Ep; cbv [split_pol] in Ep; injection Ep as <- _; reflexivity|exact Hnum].
      rewrite E. apply map_ext. intros k. rewrite ExGalNewton.fixed_quarter. reflexivity. }
    split; [exact T|].
    assert (HS : forall k t y t' y', In (k, t, y) (reports tr) -> In ((k + 1)%Z, t', y') (reports tr) -> 0 <= t' - t <= 1 / 4).
    { intros k t1 y1 t2 y2 H1 H2. rewrite (quarter_times _ _ T _ _ _ H1), (quarter_times _ _ T _ _ _ H2), plus_IZR. lra. }
    assert (Hc : (name = BDF1 \/ name = CrankNicolson) \/ name = BDF2) by tauto. destruct Hc as [Hc| ->].
    - apply (C91_bounded eps V1 (tvec o 1) xip (tuple_inner eps 1) redf 4 ex_gw_bounded cf (1 * 1 ^ 3) name (1 / 4) tr Hc); [lra|exact HS|exact (ex_gw_begun name Hc)].
    - pose proof (tuple_inner eps 1) as I1. pose proof (tuple_inner eps 2) as I2.
      refine (C91_bounded_bdf2 eps _ _ _ _ _ unit no (tapply o) (tapply o) (tuple_laws eps 1 1) (fun _ _ => eq_refl) (mat_ops eps 1 1) (tid 1) (mat_space eps 1 1)
        (proj2 (ex_tuple_matrices eps 1)) xt (mgs_linear eps 1 1 _ _) cf ex_newton_absolute eq_refl (rhs_jac_system gw_c) redf _
        (GalNewtonProofs.rom_smooth_user eps _ _ _ _ _ _ _ _ _ _ _ _ _ _ _ _ _ ex_gw_rom (in_space _ _ I1) (mat_space eps 1 1)) (1 * 1 ^ 3)
        (GalNewtonProofs.reduced_derivative eps _ _ _ _ _ _ _ _ _ _ _ _ _ _ _ _ ex_gw_rom ip xip I2 (ex_gn_adjoint eps) ex_gw_derivative)
        (GalNewtonProofs.reduced_negative eps _ _ _ _ _ _ _ _ _ _ _ _ _ _ _ _ ex_gw_rom ip xip (ex_gn_adjoint eps) ex_gw_negative) _
        (GalNewtonProofs.reduced_lipschitz eps _ _ _ _ _ _ _ _ _ _ _ _ _ _ _ _ ex_gw_rom ip xip I2 I1 (ex_gn_adjoint eps) 1 1 Rle_0_1 (ex_gn_basis eps) Rle_0_1 ex_gw_lipschitz)
        (ex_lr_square eps 1) 4 ex_gw_bounded 0 x0 tr (1 / 4) HT HS _ ex_gw_begun_2); cbn; lra.
  Qed.
  Notation sol := (fun t => ((sin t, (0, tt)) : V2)).
  Lemma gw_at_sol t : gw_f (sol t) t = (cos t, (0, tt)).
  Proof. unfold gw_f. replace (sin t - sin t) with 0 by ring. rewrite atan_0. f_equal; [ring|]. f_equal. ring. Qed.
  Lemma gw_diff a b t0 T : (forall t, derivable_pt_lim a t (b t)) -> differentiates ip (fun t => ((a t, (0, tt)) : V2)) (fun t => (b t, (0, tt))) t0 T.
  Proof.
    intros H [w [v []]] t _. unfold tdot. cbn. reals. apply (derivable_pt_lim_ext (fun s => a s * w)); [intros; ring|]. eapply is_lim; [apply by_const, H|ring].
  Qed.
  Lemma gw_len a : length_of ip (a, (0, tt)) = Rabs a.
  Proof. rewrite len_2. replace (a * a + 0 * 0) with (Rsqr a) by (unfold Rsqr; ring). apply sqrt_Rsqr_abs. Qed.
  Example ex_gw_solution : forall T, solution ip gw_f sol 0 T.
  Proof. intros T w t Ht. rewrite gw_at_sol. exact (gw_diff sin cos 0 T derivable_pt_lim_sin w t Ht). Qed.
  Lemma gw_d2 T : differentiates ip (fun t => gw_f (sol t) t) (fun t => (- sin t, (0, tt))) 0 T.
  Proof.
    intros w t Ht. apply (derivable_pt_lim_ext (fun s => ip ((cos s, (0, tt)) : V2) w)); [intros s; rewrite gw_at_sol; reflexivity|].
    exact (gw_diff cos (fun t => - sin t) 0 T derivable_pt_lim_cos w t Ht).
  Qed.
  Example ex_gw_twice : forall T, twice_smooth ip gw_f sol 0 T 1.
  Proof. intros T. exists (fun t => (- sin t, (0, tt))). split; [apply gw_d2|]. intros t _. rewrite gw_len, Rabs_Ropp. apply sin_1. Qed.
  Example ex_gw_thrice : forall T, thrice_smooth ip gw_f sol 0 T 1.
  Proof.
    intros T. eexists _, (fun t => (- cos t, (0, tt))). split; [apply gw_d2|]. split.
    - apply (gw_diff (fun t => - sin t) (fun t => - cos t)). intros t. apply derivable_pt_lim_opp, derivable_pt_lim_sin.
    - intros t _. rewrite gw_len, Rabs_Ropp. apply cos_1.
  Qed.
  (** any number of steps of size 1/4 of BDF2 from any state *)
  Example ex_gw_bdf2 : forall (x0 : V1) num, (Z.of_nat num < int32_max)%Z ->
    exists tr, integrated_std unit eps no xt cf (mat_ops eps 1 1) (tid 1) (rhs_jac_system gw_c) BDF2 0 x0 tr /\ map fst (reports tr) = quarters num /\
      forall k t x, In (k, t, x) (reports tr) ->
      length_of ip (vminus o (tvec o 2) (recon x) (sin t, (0, tt))) <=
      sqrt 2 * length_of ip (vminus o (tvec o 2) (recon x0) (sin 0, (0, tt))) + 6 * (IZR k * (1 * (1 / 1000)) + (t - 0) * 4 + (1 / 2 + 2 / 9 * 1 * (t - 0)) * (1 / 4) ^ 2).
  Proof.
    intros x0 num Hnum. destruct (ex_gw_run BDF2 x0 num (or_intror (or_introl eq_refl)) Hnum) as (tr & HT & T & HB). exists tr. split; [exact HT|]. split; [exact T|].
    intros k t x Hx.
    refine (C95_newton_bdf2 eps _ _ _ _ _ _ _ _ _ _ _ _ no (tapply o) (tapply o) (tuple_laws eps 1 1) (fun _ _ => eq_refl) (mat_ops eps 1 1) (tid 1)
      (mat_space eps 1 1) (proj2 (ex_tuple_matrices eps 1)) xt (mgs_linear eps 1 1 _ _) cf ex_newton_absolute eq_refl _ _ _ _ _ _ _ _ _ _ _ _ _ ex_gw_rom
      ip (tuple_inner eps 2) (ex_gn_adjoint eps) 1 1 Rle_0_1 (ex_gn_basis eps) Rle_0_1 ex_gw_derivative ex_gw_negative ex_gw_lipschitz (ex_lr_square eps 1) 0 x0 tr HT HB
      (proj1 (quarter_forward num tr T)) 4 (fun k t x _ => ex_gw_missed x t) sol t (ex_gw_solution t) 1 1 (1 / 4) (ex_gw_twice t) (ex_gw_thrice t) _ k t x Hx _); [|lra].
    intros k' t1 y1 t2 y2 H1 H2. rewrite (quarter_times _ _ T _ _ _ H1), (quarter_times _ _ T _ _ _ H2), plus_IZR. lra.
  Qed.
End Newton.

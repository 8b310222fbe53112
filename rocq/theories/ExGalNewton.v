(** Concrete cases meeting the hypotheses of the theorems in [PropGalNewton.v]: FOM y1' = - atan y1, y2' = - atan y2, trial space the line
    through (3/5, 4/5), default ROM: x' = - 3/5 atan (3/5 x) - 4/5 atan (4/5 x). Any number of steps of size 1/4 from any state, the
    linear solves by the modified Gram-Schmidt factorisation. *)
From Coq Require Import Reals ZArith List Lra Lia.
From Verif Require Import Base RInst Laws LawInst AdvanceModel AdvanceSpec AdvanceProofs TargetProofs Track ExplicitModel ImplicitModel ImplicitSpec
  LspgModel RomSpec GalerkinModel GalerkinSpec
  NonlinDiag NonlinModel NonlinSpec NonlinLaws NonlinExact NonlinMoreSpec Tuples QrModel QrSpec QrProofs QrSolve QrExts QrEnd ExNonlin RomLsSpec CompleteRun StabilitySpec
  DissipSpec LinRunSpec GalLinSpec NewtonSpec NewtonRunSpec GalNewtonSpec ExLinRun ExNewton ExNewtonRun PropNewtonRun PropGalNewton.
Import ListNotations.
Local Open Scope R_scope.

Section Ex.
  Variable eps : R.
  Notation o := (Rops eps).
  Notation V1 := (tup R 1).
  Notation V2 := (tup R 2).
  Notation M22 := (mat (S:=R) 2 2).
  Notation M21 := (mat (S:=R) 2 1).
  Notation M11 := (mat (S:=R) 1 1).
  Notation no := (tuple_ops o sqrt 1 1).
  Notation no2 := (tuple_ops o sqrt 2 2).
  Notation xt := (mgs_exts eps 1 1 (fun r => r) (fun j => j) false).
  Notation xt2 := (mgs_exts eps 2 2 (fun r => r) (fun j => j) false).
  Notation xip := (tdot o (n:=1)).
  Notation ip := (tdot o (n:=2)).
  Notation cf := (mk_config 100 WhenAbsResidual (1 / 1000) UStandard None).
  Ltac reals := change (sadd o) with Rplus; change (smul o) with Rmult; change (s0 o) with 0; change (sopp o) with Ropp.
  Definition gn_f (y : V2) (t : R) : V2 := let '(a, (b, _)) := y in (- atan a, (- atan b, tt)).
  Definition gn_D (y : V2) (t : R) : M22 := let '(a, (b, _)) := y in ((- / (1 + a ^ 2), (0, tt)), ((0, (- / (1 + b ^ 2), tt)), tt)).
  Definition gn_phi : M21 := ((3 / 5, (4 / 5, tt)), tt).
  Notation bapp := (tapply o gn_phi).
  Definition gn_off : V2 := (0, (0, tt)).
  Definition gn_recon (x : V1) : V2 := vadd (tvec o 2) (bapp x) gn_off.
  Definition gn_AB (y : V2) (t : R) : M21 := tmap (tapply o (gn_D y t)) gn_phi.
  (** the product with the transposed basis *)
  Definition gn_T (y : V2) : V1 := (tdot o y (fst gn_phi), tt).
  Definition gn_TJ (M : M21) : M11 := (gn_T (fst M), tt).
  Definition gn_prodv (a : R) (phi : M21) (v : V2) (b : R) (r : V1) : V1 := vadd (tvec o 1) (vscale (tvec o 1) a (gn_T v)) (vscale (tvec o 1) b r).
  Definition gn_prodj (a : R) (phi : M21) (v : M21) (b : R) (r : M11) : M11 :=
    vadd (mat_ops eps 1 1) (vscale (mat_ops eps 1 1) a (gn_TJ v)) (vscale (mat_ops eps 1 1) b r).
  (** the FOM counts its evaluations *)
  Definition gn_fom : sfom (S:=R) (Y:=V2) (R:=V2) (J:=M21) (B:=M21) (W:=nat) :=
    mk_sfom (fun y t r w => (Ok tt, (gn_f y t, Datatypes.S w))) (fun y phi t j w => (Ok tt, (tmap (tapply o (gn_D y t)) phi, Datatypes.S w))).
  Definition gn_c := default_rhs_jac (Mf:=unit) (Rm:=unit) (Jm:=unit) (M:=unit) o gn_recon gn_phi gn_prodv gn_prodj gn_fom.
  Ltac gn_t := cbn; lr_pairs; ring.
  Example ex_gn_rom : smooth_rom eps (tvec o 1) (tvec o 2) (tvec o 2) (mat_ops eps 1 1) (tapply o) (tapply o) gn_recon bapp gn_off gn_phi
    gn_fom gn_f (fun y t => tapply o (gn_D y t)) gn_AB (fun _ => gn_T) (fun _ => gn_TJ) gn_c.
  Proof.
    split.
    - apply tvec_space, R_field.
    - split; [intros [a []] [c []]|intros e [a []]]; gn_t.
    - reflexivity.
    - intros y t r w _. repeat split.
    - exists (fun y phi t => tmap (tapply o (gn_D y t)) phi). split; [intros y phi t j w _; repeat split|reflexivity].
    - intros [p [q []]] t [a []]. cbv [gn_AB gn_phi gn_D]. gn_t.
    - intros t. split; [intros [a [b []]] [a' [b' []]]|intros e [a [b []]]]; cbv [gn_T gn_phi]; gn_t.
    - intros t [[a [b []]] []] [x []]. cbv [gn_TJ gn_T gn_phi]. gn_t.
    - apply DefaultRhsJac; intros a v b r; reflexivity.
  Qed.
  Example ex_gn_adjoint : forall (t : R) y a, ip y (bapp a) = xip (gn_T y) a.
  Proof. intros t [a [b []]] [x []]. cbv [gn_T gn_phi]. cbn. ring. Qed.
  Lemma len_2 a b : length_of ip (a, (b, tt)) = sqrt (a * a + b * b).
  Proof. unfold length_of, tdot. cbn. f_equal. ring. Qed.
  (** the basis vector has length 1 *)
  Example ex_gn_basis : forall x, length_of ip (bapp x) <= 1 * length_of xip x.
  Proof. intros [x []]. rewrite Rmult_1_l. apply Req_le. unfold length_of, tdot. f_equal. cbv [gn_phi]. cbn. field. Qed.
  Lemma atan_line w x d s : derivable_pt_lim (fun u => - atan (x + u * d) * w) s (- / (1 + (x + s * d) ^ 2) * d * w).
  Proof.
    apply (derivable_pt_lim_ext (mult_real_fct (- w) (comp atan (fun s => x + d * s)))); [intros u; unfold mult_real_fct, comp; rewrite (Rmult_comm d u); ring|].
    refine (eq_ind _ (derivable_pt_lim _ s) (derivable_pt_lim_scal _ (- w) s _ (derivable_pt_lim_comp _ _ s d _ _ (derivable_pt_lim_atan _))) _ _).
    - refine (eq_ind _ (derivable_pt_lim _ s) (derivable_pt_lim_plus (fct_cte x) (mult_real_fct d id) s _ _ (derivable_pt_lim_const x s)
        (derivable_pt_lim_scal _ d s _ (derivable_pt_lim_id s))) _ _). ring.
    - cbn. replace (x + d * s) with (x + s * d) by ring. unfold Rsqr. rewrite Rmult_1_r. pose proof (Rle_0_sqr (x + s * d)) as K. unfold Rsqr in K. field. lra.
  Qed.
  Example ex_gn_derivative : derivative_of (tvec o 2) (tapply o) ip gn_f gn_D.
  Proof.
    intros t [x [y []]] [d [e []]] [w [v []]] s. cbn. unfold tdot. cbn. reals.
    refine (derivable_pt_lim_ext _ _ _ _ _ (eq_ind _ (derivable_pt_lim _ s) (derivable_pt_lim_plus _ _ s _ _ (atan_line w x d s) (atan_line v y e s)) _ _)).
    - intros u. unfold plus_fct. ring.
    - cbn [pow]. ring.
  Qed.
  Example ex_gn_negative : dissipative_derivative (tapply o) ip gn_D.
  Proof.
    intros [y [z []]] t [v [u []]]. cbn. unfold tdot. cbn. reals.
    assert (0 < / (1 + y * (y * 1))) by (apply Rinv_0_lt_compat; nra). assert (0 < / (1 + z * (z * 1))) by (apply Rinv_0_lt_compat; nra).
    set (p := / (1 + y * (y * 1))) in *. set (q := / (1 + z * (z * 1))) in *.
    pose proof (Rle_0_sqr v) as A. pose proof (Rle_0_sqr u) as B. unfold Rsqr in *.
    assert (0 <= p * (v * v)) by (apply Rmult_le_pos; lra). assert (0 <= q * (u * u)) by (apply Rmult_le_pos; lra). lra.
  Qed.
  Lemma square_le a b : Rabs a <= Rabs b -> a * a <= b * b.
  Proof. intros H. pose proof (Rsqr_le_abs_1 a b H) as K. exact K. Qed.
  Example ex_gn_lipschitz : lipschitz_derivative (tvec o 2) (tapply o) ip gn_D 1.
  Proof.
    intros [x [y []]] [d [e []]] t [v [u []]]. rewrite !len_2. cbn -[pow]. reals. rewrite len_2, Rmult_1_l, <- sqrt_mult_alt by nra.
    pose proof (square_le _ _ (slope (x + d) x)) as A. pose proof (square_le _ _ (slope (y + e) y)) as B.
    apply sqrt_le_1_alt.
    set (p := / (1 + (x + d) ^ 2)) in *. set (p' := / (1 + x ^ 2)) in *. set (q := / (1 + (y + e) ^ 2)) in *. set (q' := / (1 + y ^ 2)) in *.
    replace (x + d - x) with d in A by ring. replace (y + e - y) with e in B by ring.
    assert (A2 : (p - p') * (p - p') * (v * v) <= d * d * (v * v)) by (apply Rmult_le_compat_r; nra).
    assert (B2 : (q - q') * (q - q') * (u * u) <= e * e * (u * u)) by (apply Rmult_le_compat_r; nra).
    assert (C1 : 0 <= d * d * (u * u)) by (apply Rmult_le_pos; nra). assert (C2 : 0 <= e * e * (v * v)) by (apply Rmult_le_pos; nra).
    match goal with |- ?l <= _ => replace l with ((p - p') * (p - p') * (v * v) + (q - q') * (q - q') * (u * u)) by ring end. lra.
  Qed.
  Lemma atan_2 a : - (2) <= atan a <= 2.
  Proof. pose proof (atan_bound a). pose proof PI_4. lra. Qed.
  Example ex_gn_bounded : forall y t, length_of ip (gn_f y t) <= 3.
  Proof.
    intros [a [b []]] t. unfold gn_f. rewrite len_2. rewrite <- (sqrt_square 3) by lra. apply sqrt_le_1_alt.
    pose proof (atan_2 a). pose proof (atan_2 b). nra.
  Qed.
  Notation redf := (reduced gn_recon gn_f (fun _ => gn_T)).
  Example ex_gn_reduced_bounded : forall x t, length_of xip (redf x t) <= 3.
  Proof.
    intros [x []] t. unfold reduced, gn_T, gn_recon, gn_off, gn_phi. cbn. rewrite len_1. reals.
    match goal with |- Rabs (_ * - atan ?a + (_ * - atan ?b + _)) <= _ => pose proof (atan_2 a); pose proof (atan_2 b) 
                  | |- Rabs (- atan ?a * _ + (- atan ?b * _ + _)) <= _ => pose proof (atan_2 a); pose proof (atan_2 b) end.
    apply Rabs_le. lra.
  Qed.
  (** what the basis misses of the velocities *)
  Example ex_gn_missed : forall x t, length_of ip (vminus o (tvec o 2) (gn_f (gn_recon x) t) (bapp (gn_T (gn_f (gn_recon x) t)))) <= 3.
  Proof.
    intros x t. unfold gn_f. destruct (gn_recon x) as [a [b []]]. unfold gn_T, gn_phi, vminus. cbn. rewrite len_2. reals.
    refine (Rle_trans _ (sqrt (3 * 3)) _ _ (Req_le _ _ (sqrt_square 3 _))); [|lra]. apply sqrt_le_1_alt. pose proof (atan_2 a). pose proof (atan_2 b).
    set (p := atan a) in *. set (q := atan b) in *.
    match goal with |- ?l <= _ => replace l with ((4 / 5 * p - 3 / 5 * q) * (4 / 5 * p - 3 / 5 * q)) by field end.
    assert (- (3) <= 4 / 5 * p - 3 / 5 * q <= 3) by lra. nra.
  Qed.
  Example ex_gn_begun : forall name, name = BDF1 \/ name = CrankNicolson ->
    begun cf (weight_of o name ([] : list V2)) 1 (1 / 4) (1 / 4 * 3) /\ begun cf (weight_of o name ([] : list V1)) (1 * 1 ^ 3) (1 / 4) (1 / 4 * 3).
  Proof.
    intros name Hn. replace (1 * 1 ^ 3) with 1 by ring. destruct Hn as [-> | ->]; unfold weight_of; cbn -[pow Rinv];
      (split; (split; [lra|]; split; [lra|]; exists 3%nat; split; [unfold quadratic; cbn; lra|cbn; lia])).
  Qed.
  Definition gn_user : isys (S:=R) (V:=V2) (J:=M22) (W:=nat) :=
    mk_isys (fun y t f Jo w => (Ok tt, (gn_f y t, option_map (fun _ => gn_D y t) Jo, Datatypes.S w))) (fun y t M f Jo w => (Ok tt, (M, f, Jo, w))).
  Example ex_gn_user : smooth_user gn_user gn_f gn_D.
  Proof. intros y t r Jo w. eexists. reflexivity. Qed.
  Definition gn_ws : reg R V2 V2 M22 M22 (object eps 2 2) :=
    set_x (0, (0, tt)) (new_reg o (tconst 0 2) (tconst 0 2) (tconst (tconst 0 2) 2) (tconst (tconst 0 2) 2) (new_object eps 2 2) root_diags).
  Example ex_gn_object : root_object o gn_ws.
  Proof. repeat split. Qed.
  Definition gn_obj : gobj V2 V2 M21 unit unit unit nat := mk_gobj (tconst 0 2) (tconst 0 2) (tconst (tconst 0 2) 1) tt tt tt 0%nat.
  Definition gn_g0 (name : scheme) := implicit_create o name ((0, tt) : V1) ((0, tt) : V1) (mk_ppol (-1) gn_obj) (0, tt) (nr_ws eps).
  Definition gn_h0 (name : scheme) := implicit_create o name (tconst 0 2 : V2) (tconst 0 2 : V2) (mk_ppol (-1) 0%nat) (tconst 0 2) gn_ws.
  Lemma fixed_quarter k : fixed_time (sadd o) 0 (1 / 4) k = INR k / 4.
  Proof. induction k as [|k IH]; [cbn; lra|]. rewrite S_INR. cbn [fixed_time]. rewrite IH. cbn. lra. Qed.
  Definition quarters (num : nat) : list (Z * R) := map (fun k => (Z.of_nat k, INR k / 4)) (seq 0 (Datatypes.S num)).
  Lemma quarter_times {X} num (tr : list (call R X)) : map fst (reports tr) = quarters num -> forall k t y, In (k, t, y) (reports tr) -> t = IZR k / 4.
  Proof.
    intros T k t y HI. apply (in_map fst) in HI. rewrite T in HI. apply in_map_iff in HI. destruct HI as (j & Ej & _). cbn [fst] in Ej.
    injection Ej as <- <-. rewrite INR_IZR_INZ. reflexivity.
  Qed.
  Lemma quarter_forward {X} num (tr : list (call R X)) : map fst (reports tr) = quarters num -> forward_in_time tr /\ steps_not_growing tr.
  Proof.
    intros T. pose proof (quarter_times num tr T) as Q. unfold forward_in_time, steps_not_growing.
    split; intros; repeat match goal with h : In _ _ |- _ => apply Q in h end; subst; rewrite ?plus_IZR; lra.
  Qed.
  Example ex_gn_rom_run : forall name (x0 : V1) num, name = BDF1 \/ name = CrankNicolson -> (Z.of_nat num < int32_max)%Z ->
    exists tr, integrated_std unit eps no xt cf (mat_ops eps 1 1) (tid 1) (rhs_jac_system gn_c) name 0 x0 tr /\
      map fst (reports tr) = quarters num /\ well_begun eps (tvec o 1) xip redf cf (1 * 1 ^ 3) name tr.
  Proof.
    intros name x0 num Hn Hnum.
    assert (K : exists g0, gn_g0 name = Ok g0) by (destruct Hn as [->| ->]; eexists; reflexivity). destruct K as [g0 K].
    destruct (C93_n_steps eps _ _ _ _ _ _ _ _ _ _ _ _ unit no (tapply o) (tapply o) (tuple_laws eps 1 1) (mat_ops eps 1 1) (tid 1) (mat_space eps 1 1)
                xt (mgs_linear eps 1 1 _ _) cf ex_newton_absolute _ _ _ _ _ _ _ _ _ _ _ _ _ _ ex_gn_rom name
                (fun _ _ _ w => (Ok tt, w)) _ _ _ _ (nr_ws eps) g0 (ex_nr_object eps) K
                (fun _ _ _ w => (Ok (1 / 4), w)) num 0 x0 tt Hnum (fun _ _ _ _ => eq_refl) (fun _ _ _ _ => ex_intro _ (1 / 4) eq_refl))
      as (yn & gn & [] & tr & l & E & _).
    exists tr. split.
    - unfold gn_g0 in K. eapply (IntegratedSteps o) with (num := num); [exists gn_obj; reflexivity|exact (ex_nr_object eps)|exact K|exact Hnum|exact E].
    - assert (T : map fst (reports tr) = quarters num).
      { eapply (n_steps_fixed o _ _ _ _ (1 / 4)) in E; [|intros k t d w dt w' Ep; cbv [split_pol] in Ep; injection Ep as <- _; reflexivity|exact Hnum].
        rewrite E. apply map_ext. intros k. rewrite fixed_quarter. reflexivity. }
      split; [exact T|]. apply (C91_bounded eps V1 (tvec o 1) xip (tuple_inner eps 1) redf 3 ex_gn_reduced_bounded cf (1 * 1 ^ 3) name (1 / 4) tr Hn); [lra| |exact (proj2 (ex_gn_begun name Hn))].
      intros k t1 y1 t2 y2 H1 H2. rewrite (quarter_times _ _ T _ _ _ H1), (quarter_times _ _ T _ _ _ H2), plus_IZR. lra.
  Qed.
  Example ex_gn_fom_run : forall name (y0 : V2) num, name = BDF1 \/ name = CrankNicolson -> (Z.of_nat num < int32_max)%Z ->
    exists tr, integrated_std unit eps no2 xt2 cf (mat_ops eps 2 2) (tid 2) gn_user name 0 y0 tr /\
      map fst (reports tr) = quarters num /\ well_begun eps (tvec o 2) ip gn_f cf 1 name tr.
  Proof.
    intros name y0 num Hn Hnum.
    assert (K : exists g0, gn_h0 name = Ok g0) by (destruct Hn as [->| ->]; eexists; reflexivity). destruct K as [g0 K].
    destruct (C91_n_steps eps _ _ _ _ nat unit no2 (tapply o) (tapply o) (tuple_laws eps 2 2) (mat_ops eps 2 2) (tid 2) (mat_space eps 2 2)
                xt2 (mgs_linear eps 2 2 _ _) cf ex_newton_absolute gn_user gn_f gn_D ex_gn_user name
                (fun _ _ _ w => (Ok tt, w)) _ _ _ _ gn_ws g0 ex_gn_object K
                (fun _ _ _ w => (Ok (1 / 4), w)) num 0 y0 tt Hnum (fun _ _ _ _ => eq_refl) (fun _ _ _ _ => ex_intro _ (1 / 4) eq_refl))
      as (yn & gn & [] & tr & l & E & _).
    exists tr. split.
    - unfold gn_h0 in K. eapply (IntegratedSteps o) with (num := num); [exists 0%nat; reflexivity|exact ex_gn_object|exact K|exact Hnum|exact E].
    - assert (T : map fst (reports tr) = quarters num).
      { eapply (n_steps_fixed o _ _ _ _ (1 / 4)) in E; [|intros k t d w dt w' Ep; cbv [split_pol] in Ep; injection Ep as <- _; reflexivity|exact Hnum].
        rewrite E. apply map_ext. intros k. rewrite fixed_quarter. reflexivity. }
      split; [exact T|]. apply (C91_bounded eps V2 (tvec o 2) ip (tuple_inner eps 2) gn_f 3 ex_gn_bounded cf 1 name (1 / 4) tr Hn); [lra| |exact (proj1 (ex_gn_begun name Hn))].
      intros k t1 y1 t2 y2 H1 H2. rewrite (quarter_times _ _ T _ _ _ H1), (quarter_times _ _ T _ _ _ H2), plus_IZR. lra.
  Qed.
  (** ROM and FOM from any states *)
  Example ex_gn_error : forall (y0 : V2) (x0 : V1) num, (Z.of_nat num < int32_max)%Z ->
    exists tr tr',
      integrated_std unit eps no2 xt2 cf (mat_ops eps 2 2) (tid 2) gn_user BDF1 0 y0 tr /\
      integrated_std unit eps no xt cf (mat_ops eps 1 1) (tid 1) (rhs_jac_system gn_c) BDF1 0 x0 tr' /\
      map fst (reports tr) = quarters num /\ map fst (reports tr') = quarters num /\
      forall k t y x, In (k, t, y) (reports tr) -> In (k, t, x) (reports tr') ->
      length_of ip (vminus o (tvec o 2) y (gn_recon x)) <= length_of ip (vminus o (tvec o 2) y0 (gn_recon x0)) + (IZR k * (2 / 1000) + t * 3).
  Proof.
    intros y0 x0 num Hnum.
    destruct (ex_gn_fom_run BDF1 y0 num (or_introl eq_refl) Hnum) as (tr & HT & T & HB).
    destruct (ex_gn_rom_run BDF1 x0 num (or_introl eq_refl) Hnum) as (tr' & HT' & T' & HB').
    exists tr, tr'. repeat (split; [assumption|]). intros k t y x Hy Hx.
    assert (Hs : same_times tr tr') by (unfold same_times; rewrite T, T'; reflexivity).
    pose proof (C93_error_bdf1 eps _ _ _ _ _ _ _ _ _ _ _ _ _ _ _ _ _ no (tapply o) (tapply o) no2 (tapply o) (tapply o) (tuple_laws eps 1 1) (tuple_laws eps 2 2)
      (fun _ _ => eq_refl) (fun _ _ => eq_refl)
      (mat_ops eps 1 1) (tid 1) (mat_ops eps 2 2) (tid 2) (mat_space eps 1 1) (proj2 (ex_tuple_matrices eps 1)) (mat_space eps 2 2) (proj2 (ex_tuple_matrices eps 2))
      xt xt2 (mgs_linear eps 1 1 _ _) (mgs_linear eps 2 2 _ _) cf cf ex_newton_absolute ex_newton_absolute eq_refl eq_refl _ _ _ _ _ _ gn_f gn_D _ _ _ _ ex_gn_rom
      gn_user ex_gn_user ex_gn_adjoint 1 1 Rle_0_1 ex_gn_basis Rle_0_1 ex_gn_derivative ex_gn_negative ex_gn_lipschitz (ex_lr_square eps 1) (ex_lr_square eps 2)
      0 y0 x0 tr tr' HT HB HT' HB' Hs (proj1 (quarter_forward num tr T)) 3 (fun k t x _ => ex_gn_missed x t) k t y x Hy Hx) as G.
    cbn [f_tol] in G. eapply Rle_trans; [exact G|]. apply Rplus_le_compat_l. lra.
  Qed.
  (** [C93_dissipative]: every step of the ROM's run ends with a reduced residual of at most 1/1000 *)
  Example ex_gn_residuals : forall name (x0 : V1) num, name = BDF1 \/ name = CrankNicolson -> (Z.of_nat num < int32_max)%Z ->
    exists tr l, map fst (reports tr) = quarters num /\ reports tr = numbered l /\ linked_from Rplus (fun past t dt x => forall x_n hist, past = x_n :: hist ->
      begun cf (weight_of o name past) (1 * 1 ^ 3) dt (length_of xip (scheme_residual o (tvec o 1) redf name past t dt x_n)) ->
      length_of xip (scheme_residual o (tvec o 1) redf name past t dt x) <= 1 / 1000) 0 x0 l.
  Proof.
    intros name x0 num Hn Hnum. destruct (ex_gn_rom_run name x0 num Hn Hnum) as (tr & HT & T & _). exists tr.
    destruct (C93_dissipative eps _ _ _ _ _ _ _ _ _ _ _ _ no (tapply o) (tapply o) (tuple_laws eps 1 1) (fun _ _ => eq_refl) (mat_ops eps 1 1) (tid 1)
      (mat_space eps 1 1) (proj2 (ex_tuple_matrices eps 1)) xt (mgs_linear eps 1 1 _ _) cf ex_newton_absolute eq_refl _ _ _ _ _ _ _ _ _ _ _ _ _ ex_gn_rom
      ip (tuple_inner eps 2) ex_gn_adjoint 1 1 Rle_0_1 ex_gn_basis Rle_0_1 ex_gn_derivative ex_gn_negative ex_gn_lipschitz (ex_lr_square eps 1) 0 x0 tr name HT)
      as (l & E & HL). exists l. split; [exact T|]. split; [exact E|exact HL].
  Qed.
End Ex.

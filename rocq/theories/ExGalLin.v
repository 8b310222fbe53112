(** Concrete cases meeting the hypotheses of the theorems in [PropGalLin.v]: FOM y1' = y2, y2' = t - y1, y3' = -y3, trial space {(x1, x2, 1)};
    the ROM is the driven oscillator and misses the velocity -1 of the third component. *)
From Coq Require Import Reals ZArith List Lra Lia.
From Verif Require Import Base RInst Laws LawInst AdvanceModel AdvanceSpec AdvanceProofs TargetProofs Track ExplicitModel ImplicitModel ImplicitSpec
  LspgModel RomSpec GalerkinModel GalerkinSpec
  NonlinDiag NonlinModel NonlinSpec NonlinLaws NonlinExact NonlinMoreSpec Tuples QrModel QrSpec QrProofs QrSolve QrExts QrEnd ExNonlin RomLsSpec CompleteRun StabilitySpec
  DissipSpec LinRunSpec LinRunClaims PropLinRun ExLinRun GalLinSpec PropGalLin.
Import ListNotations.
Local Open Scope R_scope.

Section Ex.
  Variable eps : R.
  Notation o := (Rops eps).
  Notation V2 := (tup R 2).
  Notation V3 := (tup R 3).
  Notation M33 := (mat (S:=R) 3 3).
  Notation M32 := (mat (S:=R) 3 2).
  Notation M22 := (mat (S:=R) 2 2).
  Notation no := (tuple_ops o sqrt 2 2).
  Notation no3 := (tuple_ops o sqrt 3 3).
  Notation xt := (mgs_exts eps 2 2 (fun r => r) (fun j => j) false).
  Notation xt3 := (mgs_exts eps 3 3 (fun r => r) (fun j => j) false).
  Notation cf := (mk_config 100 WhenRelResidual (1 / 1000) UStandard None).
  Definition gl_A (t : R) : M33 := ((0, (- (1), (0, tt))), ((1, (0, (0, tt))), ((0, (0, (- (1), tt))), tt))).
  Definition gl_b (t : R) : V3 := (0, (t, (0, tt))).
  Notation f := (linear_rhs (tvec o 3) (tapply o) gl_A gl_b).
  Definition gl_phi : M32 := ((1, (0, (0, tt))), ((0, (1, (0, tt))), tt)).
  Definition gl_off : V3 := (0, (0, (1, tt))).
  Notation bapp := (tapply o gl_phi).
  Definition gl_recon (x : V2) : V3 := vadd (tvec o 3) (bapp x) gl_off.
  (** the product with the transposed basis *)
  Definition gl_T (y : V3) : V2 := (tdot o y (fst gl_phi), (tdot o y (fst (snd gl_phi)), tt)).
  Definition gl_TJ (M : M32) : M22 := (gl_T (fst M), (gl_T (fst (snd M)), tt)).
  Definition gl_prodv (a : R) (phi : M32) (v : V3) (b : R) (r : V2) : V2 := vadd (tvec o 2) (vscale (tvec o 2) a (gl_T v)) (vscale (tvec o 2) b r).
  Definition gl_prodj (a : R) (phi : M32) (v : M32) (b : R) (r : M22) : M22 :=
    vadd (mat_ops eps 2 2) (vscale (mat_ops eps 2 2) a (gl_TJ v)) (vscale (mat_ops eps 2 2) b r).
  (** the FOM counts its evaluations *)
  Definition gl_fom : sfom (S:=R) (Y:=V3) (R:=V3) (J:=M32) (B:=M32) (W:=nat) :=
    mk_sfom (fun y t r w => (Ok tt, (f y t, Datatypes.S w))) (fun y phi t j w => (Ok tt, (tmap (tapply o (gl_A t)) phi, Datatypes.S w))).
  Definition gl_c := default_rhs_jac (Mf:=unit) (Rm:=unit) (Jm:=unit) (M:=unit) o gl_recon gl_phi gl_prodv gl_prodj gl_fom.
  Definition gl_AB (t : R) : M32 := tmap (tapply o (gl_A t)) gl_phi.
  Ltac gl_t := cbn; lr_pairs; ring.
  Example ex_gl_rom : linear_rom eps (tvec o 2) (tvec o 3) (tvec o 3) (mat_ops eps 2 2) (tapply o) (tapply o) gl_recon bapp gl_off gl_phi
    gl_fom f (fun t => tapply o (gl_A t)) gl_AB (fun _ => gl_T) (fun _ => gl_TJ) gl_c.
  Proof.
    split.
    - apply tvec_space, R_field.
    - split; [intros [a [b []]] [c [d []]]|intros e [a [b []]]]; gl_t.
    - reflexivity.
    - intros [a [b [c []]]] [a' [b' [c' []]]] t. cbv [linear_rhs gl_A gl_b]. gl_t.
    - intros y t r w _. repeat split.
    - exists (fun y phi t => tmap (tapply o (gl_A t)) phi). split; [intros y phi t j w _; repeat split|reflexivity].
    - intros t [a [b []]]. cbv [gl_AB gl_phi gl_A]. gl_t.
    - intros t. split; [intros [a [b [c []]]] [a' [b' [c' []]]]|intros e [a [b [c []]]]]; cbv [gl_T gl_phi]; gl_t.
    - intros t [[a [b [c []]]] [[a' [b' [c' []]]] []]] [x [y []]]. cbv [gl_TJ gl_T gl_phi]. gl_t.
    - apply DefaultRhsJac; intros a v b r; reflexivity.
  Qed.
  (** phi^T phi = I, and phi^T is the adjoint of the basis *)
  Example ex_gl_left : forall (t : R) x, gl_T (bapp x) = x.
  Proof. intros t [a [b []]]. cbv [gl_T gl_phi]. gl_t. Qed.
  Example ex_gl_adjoint : forall (t : R) y a, tdot o y (bapp a) = tdot o (gl_T y) a.
  Proof. intros t [a [b [c []]]] [x [y []]]. cbv [gl_T gl_phi]. cbn. ring. Qed.
  Example ex_gl_dissipative : dissipative eps (tvec o 3) (tdot o (n:=3)) f.
  Proof.
    intros [a [b [c []]]] [a' [b' [c' []]]] t. cbv [linear_rhs vminus gl_A gl_b]. cbn.
    pose proof (Rle_0_sqr (c - c')) as H. unfold Rsqr in H. match goal with |- ?e <= 0 => replace e with (- ((c - c') * (c - c'))) by ring end. lra.
  Qed.
  Definition gl_obj : gobj V3 V3 M32 unit unit unit nat :=
    mk_gobj (tconst 0 3) (tconst 0 3) (tconst (tconst 0 3) 2) tt tt tt 0%nat.
  Notation stp name := (implicit_step o (policy_std o (tvec o 2) (mat_ops eps 2 2) (tid 2) (rhs_jac_system gl_c)) (as_solver (root_solve o no xt cf)) name).
  Definition gl_g0 (name : scheme) := implicit_create o name ((0, (0, tt)) : V2) ((0, (0, tt)) : V2) (mk_ppol (-1) gl_obj) (0, (0, tt)) (lr_ws eps).
  (** the matrices of all steps forward in time are invertible *)
  Lemma gl_regular name (past : list V2) t dt :
    invertible (tvec o 2) (tapply o) (step_matrix o (mat_ops eps 2 2) (fun _ => tid 2) (fun t => gl_TJ (gl_AB t)) name past t dt).
  Proof.
    replace (step_matrix o (mat_ops eps 2 2) (fun _ => tid 2) (fun t => gl_TJ (gl_AB t)) name past t dt)
      with (step_matrix o (mat_ops eps 2 2) (fun _ => tid 2) osc name past t dt); [exact (proj1 (lr_weight eps name past t dt))|].
    unfold step_matrix. f_equal. cbv [gl_TJ gl_AB gl_T gl_phi gl_A osc]. cbn. lr_pairs; ring.
  Qed.
  (** Two steps of size 1 from (1, 0): the states of the oscillator *)
  Example ex_gl_run : forall name, name = BDF1 \/ name = BDF2 \/ name = CrankNicolson ->
    exists g0 x' g' tr, gl_g0 name = Ok g0 /\
      advance_n_steps o (mk_user (split_obs (fun _ _ _ w => (Ok tt, w))) (pol3 (split_pol (fun _ _ _ w => (Ok 1, w)))) noop_guess
        (split_step (implicit_fn (stp name)))) (Z.of_nat 2) 0 ((1, (0, tt)), (g0, tt), []) = (Ok tt, (x', (g', tt), tr)) /\
      reports tr = [(0%Z, 0, (1, (0, tt))); (1%Z, 0 + 1, lr_first name); (2%Z, 0 + 1 + 1, lr_second name)].
  Proof.
    intros name Hn.
    assert (K : exists g0, gl_g0 name = Ok g0) by (destruct Hn as [->|[->| ->]]; eexists; reflexivity). destruct K as [g0 K].
    destruct (C83_n_steps eps _ _ _ _ _ _ _ _ _ _ _ _ unit no (tapply o) (tapply o) (tuple_laws eps 2 2) (mat_ops eps 2 2) (tid 2) (mat_space eps 2 2)
                (proj2 (ex_tuple_matrices eps 2)) xt (ex_lr_linear eps) cf (ex_lr_settings _ (or_intror eq_refl)) _ _ _ _ _ _ _ _ _ _ _ _ _ _ ex_gl_rom name
                (fun _ _ _ w => (Ok tt, w)) _ _ _ _ (lr_ws eps) g0 (ex_lr_object eps) K
                (fun _ _ _ w => (Ok 1, w)) 2%nat 0 (1, (0, tt)) tt eq_refl (fun _ _ _ _ => eq_refl) (fun _ _ _ _ => ex_intro _ 1 eq_refl))
      as (x' & g' & [] & tr & l & E & _ & _ & _ & _ & HX).
    exists g0, x', g', tr. split; [exact K|]. split; [exact E|].
    set (m := [(0 + 1 + 1, 1, lr_second name); (0 + 1, 1, lr_first name); (0, 0, (1, (0, tt)))] : accepted R V2).
    apply (HX m).
    - split; [|exists 0, (firstn 2 m); reflexivity].
      destruct Hn as [->|[->| ->]]; cbn [linked m map snd]; (split; [reflexivity|]; split; [|split; [reflexivity|]; split; [|exact I]]);
        (split; [exact (gl_regular _ _ _ _)|]); cbn; cbv [bdf1_eq bdf2_eq cn_eq reduced gl_T gl_recon gl_phi gl_off gl_A gl_b linear_rhs]; cbn; lr_pairs; field.
    - eapply (n_steps_fixed o _ _ _ _ 1) in E; [rewrite E; reflexivity| |reflexivity].
      intros k t d w dt w' Ep. cbv [split_pol] in Ep. injection Ep as <- _. reflexivity.
  Qed.
  Ltac gl_times := unfold forward_in_time, steps_not_growing; intros;
    repeat match goal with h : In _ _ |- _ => cbn in h end;
    repeat match goal with h : _ \/ _ |- _ => destruct h | h : False |- _ => contradiction end;
    repeat match goal with h : (_, _, _) = (_, _, _) |- _ => injection h; clear h; intros; subst end; try lia; lra.
  Example ex_gl_integrated : forall name, name = BDF1 \/ name = BDF2 \/ name = CrankNicolson ->
    exists tr, integrated_std unit eps no xt cf (mat_ops eps 2 2) (tid 2) (rhs_jac_system gl_c) name 0 (1, (0, tt)) tr /\ forward_in_time tr /\ steps_not_growing tr /\
      reports tr = [(0%Z, 0, (1, (0, tt))); (1%Z, 0 + 1, lr_first name); (2%Z, 0 + 1 + 1, lr_second name)].
  Proof.
    intros name Hn. destruct (ex_gl_run name Hn) as (g0 & y' & g' & tr & E0 & E1 & E2). exists tr. split.
    - unfold gl_g0 in E0. eapply (IntegratedSteps o) with (num := 2%nat); [exists gl_obj; reflexivity|exact (ex_lr_object eps)|exact E0|reflexivity|exact E1].
    - split; [|split; [|exact E2]]; unfold forward_in_time, steps_not_growing; rewrite E2; gl_times.
  Qed.
  (** the FOM's own integration from (1, 0, 1) *)
  Definition gl_user : isys (S:=R) (V:=V3) (J:=M33) (W:=nat) :=
    mk_isys (fun y t r Jo w => (Ok tt, (f y t, option_map (fun _ => gl_A t) Jo, Datatypes.S w))) (fun y t M r Jo w => (NoFuel, (M, r, Jo, w))).
  Example ex_gl_user : linear_user (tvec o 3) (tapply o) gl_user gl_A gl_b.
  Proof. intros y t r Jo w. eexists. reflexivity. Qed.
  Example ex_gl_linear : linear_ok xt3 (if_solvable (normal_exact (tapply o))) (if_solvable (qr_exact no3 (tapply o)))
    (if_solvable (newton_exact (tapply o))) nothing.
  Proof. apply mgs_linear. Qed.
  Definition gl_ws : reg R V3 V3 M33 M33 (object eps 3 3) :=
    set_x (0, (0, (0, tt))) (new_reg o (tconst 0 3) (tconst 0 3) (tconst (tconst 0 3) 3) (tconst (tconst 0 3) 3) (new_object eps 3 3) root_diags).
  Example ex_gl_object : root_object o gl_ws.
  Proof. repeat split. Qed.
  Definition gl_third (name : scheme) : R * R := match name with CrankNicolson => (1 / 3, 1 / 9) | BDF2 => (1 / 2, 1 / 5) | _ => (1 / 2, 1 / 4) end.
  Definition gl_add (x : V2) (c : R) : V3 := (fst x, (fst (snd x), (c, tt))).
  Definition gl_h0 (name : scheme) := implicit_create o name (tconst 0 3 : V3) (tconst 0 3 : V3) (mk_ppol (-1) 0%nat) (tconst 0 3) gl_ws.
  Example ex_gl_fom_run : forall name, name = BDF1 \/ name = BDF2 \/ name = CrankNicolson ->
    exists tr, integrated_std unit eps no3 xt3 cf (mat_ops eps 3 3) (tid 3) gl_user name 0 (1, (0, (1, tt))) tr /\ forward_in_time tr /\ steps_not_growing tr /\
      reports tr = [(0%Z, 0, (1, (0, (1, tt)))); (1%Z, 0 + 1, gl_add (lr_first name) (fst (gl_third name)));
                    (2%Z, 0 + 1 + 1, gl_add (lr_second name) (snd (gl_third name)))].
  Proof.
    intros name Hn.
    assert (K : exists g0, gl_h0 name = Ok g0) by (destruct Hn as [->|[->| ->]]; eexists; reflexivity). destruct K as [g0 K].
    destruct (C82_n_steps eps _ _ _ _ nat unit no3 (tapply o) (tapply o) (tuple_laws eps 3 3) (mat_ops eps 3 3) (tid 3) (mat_space eps 3 3)
                (proj2 (ex_tuple_matrices eps 3)) xt3 ex_gl_linear cf (ex_lr_settings _ (or_intror eq_refl)) gl_user gl_A gl_b ex_gl_user name
                (fun _ _ _ w => (Ok tt, w)) _ _ _ _ gl_ws g0 ex_gl_object K
                (fun _ _ _ w => (Ok 1, w)) 2%nat 0 (1, (0, (1, tt))) tt eq_refl (fun _ _ _ _ => eq_refl) (fun _ _ _ _ => ex_intro _ 1 eq_refl))
      as (y' & g' & [] & tr & l & E & _ & _ & _ & _ & HX).
    assert (E2 : reports tr = [(0%Z, 0, (1, (0, (1, tt)))); (1%Z, 0 + 1, gl_add (lr_first name) (fst (gl_third name)));
                    (2%Z, 0 + 1 + 1, gl_add (lr_second name) (snd (gl_third name)))]).
    { set (m := [(0 + 1 + 1, 1, gl_add (lr_second name) (snd (gl_third name))); (0 + 1, 1, gl_add (lr_first name) (fst (gl_third name)));
                 (0, 0, (1, (0, (1, tt))))] : accepted R V3).
      apply (HX m).
      - assert (HG : forall (past : list V3) t, invertible (tvec o 3) (tapply o) (step_matrix o (mat_ops eps 3 3) (fun _ => tid 3) gl_A name past t 1)).
        { intros past t. unfold step_matrix. apply (dissip_invertible no3 (tapply o) (tapply o) (tuple_laws eps 3 3) (mat_ops eps 3 3) (tid 3)
            (proj2 (ex_tuple_matrices eps 3)) gl_A gl_b (tdot o (n:=3)) (proj1 (ex_lr_inner eps 3)) (proj2 (ex_lr_inner eps 3)) ex_gl_dissipative (ex_lr_square eps 3));
            [apply weight_pos|lra]. }
        split; [|exists 0, (firstn 2 m); reflexivity].
        destruct Hn as [->|[->| ->]]; cbn [linked m map snd]; (split; [reflexivity|]; split; [|split; [reflexivity|]; split; [|exact I]]);
          (split; [exact (HG _ _)|]); cbn; cbv [bdf1_eq bdf2_eq cn_eq gl_A gl_b gl_add linear_rhs]; cbn; lr_pairs; field.
      - eapply (n_steps_fixed o _ _ _ _ 1) in E; [rewrite E; reflexivity| |reflexivity].
        intros k t d w dt w' Ep. cbv [split_pol] in Ep. injection Ep as <- _. reflexivity. }
    exists tr. split.
    - unfold gl_h0 in K. eapply (IntegratedSteps o) with (num := 2%nat); [exists 0%nat; reflexivity|exact ex_gl_object|exact K|reflexivity|exact E].
    - split; [|split; [|exact E2]]; unfold forward_in_time, steps_not_growing; rewrite E2; gl_times.
  Qed.
  (** the missed velocity is (0, 0, -1) everywhere *)
  Example ex_gl_missed : forall x t, length_of (tdot o (n:=3)) (vminus o (tvec o 3) (f (gl_recon x) t) (bapp (gl_T (f (gl_recon x) t)))) = 1.
  Proof.
    intros [a [b []]] t. unfold length_of. rewrite <- sqrt_1. f_equal. cbv [vminus gl_recon gl_T gl_phi gl_off gl_A gl_b linear_rhs]. cbn. ring.
  Qed.
  (** so that the errors of BDF1 are at most the elapsed time; they are 0, 1/2, 3/4 *)
  Example ex_gl_error : forall tr tr',
    integrated_std unit eps no3 xt3 cf (mat_ops eps 3 3) (tid 3) gl_user BDF1 0 (1, (0, (1, tt))) tr ->
    integrated_std unit eps no xt cf (mat_ops eps 2 2) (tid 2) (rhs_jac_system gl_c) BDF1 0 (1, (0, tt)) tr' ->
    same_times tr tr' -> forward_in_time tr ->
    forall k t y x, In (k, t, y) (reports tr) -> In (k, t, x) (reports tr') ->
    length_of (tdot o (n:=3)) (vminus o (tvec o 3) y (gl_recon x)) <= t.
  Proof.
    intros tr tr' H1 H2 Hs Hf k t y x Hy Hx.
    pose proof (C83_error_bdf1 eps _ _ _ _ _ _ _ _ _ _ _ _ _ _ _ _ _ no (tapply o) (tapply o) no3 (tapply o) (tapply o) (tuple_laws eps 2 2) (tuple_laws eps 3 3)
      (mat_ops eps 2 2) (tid 2) (mat_ops eps 3 3) (tid 3) (mat_space eps 2 2) (proj2 (ex_tuple_matrices eps 2)) (mat_space eps 3 3) (proj2 (ex_tuple_matrices eps 3))
      xt xt3 (ex_lr_linear eps) ex_gl_linear cf cf (ex_lr_settings _ (or_intror eq_refl)) (ex_lr_settings _ (or_intror eq_refl)) _ _ _ _ _ _ gl_A gl_b _ _ _ _ _ ex_gl_rom
      gl_user ex_gl_user (tdot o (n:=3)) (tdot o (n:=2)) (proj1 (ex_lr_inner eps 3)) (proj1 (ex_lr_inner eps 2)) (proj2 (ex_lr_inner eps 3)) (proj2 (ex_lr_inner eps 2))
      (ex_lr_square eps 3) (ex_lr_square eps 2) ex_gl_adjoint ex_gl_dissipative 0 _ _ tr tr' H1 H2 Hs Hf 1) as G.
    eapply Rle_trans; [apply (G (fun k t x _ => Req_le _ _ (ex_gl_missed x t)) k t y x Hy Hx)|].
    replace (length_of (tdot o (n:=3)) (vminus o (n_vo no3) (1, (0, (1, tt))) (gl_recon (1, (0, tt))))) with 0; [lra|].
    unfold length_of. rewrite <- sqrt_0. f_equal. cbv [vminus gl_recon gl_phi gl_off]. cbn. ring.
  Qed.
End Ex.

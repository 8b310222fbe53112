(** Concrete cases meeting the hypotheses of the theorems in [PropLspgErr.v]: the ROM of [ExRomLs.v] against FOM states that leave its trial space. *)
From Coq Require Import Reals ZArith List Lra Lia.
From Verif Require Import Base RInst Laws LawInst AdvanceModel AdvanceSpec AdvanceProofs TargetProofs Track ExplicitModel ImplicitModel ImplicitSpec
  NonlinDiag NonlinModel NonlinSpec NonlinLaws NonlinExact Tuples QrModel QrSpec QrProofs QrSolve QrExts ExNonlin
  LspgModel LspgSpec RomRunSpec RomLsSpec CompleteRun RomLsClaims PropRomLs ExRomLs StabilitySpec DissipSpec OrderSpec SteadyNlSpec LspgErrSpec PropLspgErr.
Import ListNotations.
Local Open Scope R_scope.

Section Ex.
  Variable eps : R.
  Notation o := (Rops eps).
  Notation no := (tuple_ops o sqrt 3 2).
  Notation xt := (mgs_exts eps 3 2 exwr exwj false).
  Notation cf := (mk_config 100 WhenRelGradient (1 / 1000) UStandard None).
  Notation recon := (fun x => vadd (tvec o 3) rl_ref (tapply o rl_phi x)).
  Notation f := (fun y t => vadd (tvec o 3) (tapply o (rl_A t) y) (rl_b t)).
  Notation stp tag := (implicit_step o (default_policy o (tvec o 3) (mat_ops eps 3 2) recon (rl_fom eps rl_A rl_b) rl_phi)
    (as_solver (ls_solve o no xt tag cf)) BDF1).
  (** A = diag(-1, -1, 0) *)
  Example ex_le_dissipative : dissipative_bounded (n_rdot no) 1 (fun t => tapply o (rl_A t)).
  Proof.
    intros t [a [b [c []]]]. cbn. split.
    - pose proof (Rle_0_sqr a). pose proof (Rle_0_sqr b). unfold Rsqr in *. lra.
    - rewrite Rmult_1_l. unfold length_of. cbn. apply sqrt_le_1_alt. pose proof (Rle_0_sqr c). unfold Rsqr in *. lra.
  Qed.
  Example ex_le_basis : full_rank no (tvec o 3) (tapply o) rl_phi.
  Proof. apply (rl_rank eps 1). lra. Qed.
  (** FOM states outside the trial space: their last entry is 11/2, not 5. *)
  Fixpoint le_z (k : nat) : tup R 3 :=
    match k with O => (7, (4, (11 / 2, tt)))
    | Datatypes.S j => let '(a, (b, (c, _))) := le_z j in ((a + 1) / 2, (b / 2, (c, tt))) end.
  Lemma le_last k : exists a b, le_z k = (a, (b, (11 / 2, tt))).
  Proof. induction k as [|k (a & b & E)]; [exists 7, 4; reflexivity|]. cbn [le_z]. rewrite E. eexists _, _. reflexivity. Qed.
  Example ex_le_near n : near_bdf1 eps (tvec o 3) (n_rdot no) f INR (fun _ => 0) n le_z.
  Proof.
    intros k _. rewrite S_INR. replace (INR k + 1 - INR k) with 1 by ring. cbn [le_z]. destruct (le_last k) as (a & b & E). rewrite E.
    unfold length_of, bdf1_R, vminus. cbn. apply Req_le. match goal with |- sqrt ?x = _ => replace x with 0 by field end. apply sqrt_0.
  Qed.
  Example ex_le_approx k : exists a, distance eps (tvec o 3) (n_rdot no) (recon a) (le_z k) <= 1 / 2.
  Proof.
    destruct (le_last k) as (a & b & E). rewrite E. exists (a - b, (b, tt)). unfold distance, length_of, vminus. cbn.
    apply Req_le. match goal with |- sqrt ?x = _ => replace x with (1 / 2 * (1 / 2)) by field end. apply sqrt_square. lra.
  Qed.
  (** The solution of the FOM's equations from the same state, outside the trial space by 1/2 at all times. *)
  Definition le_sol (t : R) : tup R 3 := (1 + 6 * exp (- t), (4 * exp (- t), (11 / 2, tt))).
  Lemma le_exp c t : derivable_pt_lim (fun t => c * exp (- t)) t (- c * exp (- t)).
  Proof.
    replace (- c * exp (- t)) with (c * (exp (- t) * (- (1)))) by ring.
    apply (derivable_pt_lim_scal (fun t => exp (- t))). apply (derivable_pt_lim_comp (fun t => - t) exp); [|apply derivable_pt_lim_exp].
    apply (derivable_pt_lim_opp id). apply derivable_pt_lim_id.
  Qed.
  Lemma le_affine (g : R -> R) c d t e : (forall s, g s = c * exp (- s) + d) -> e = - c * exp (- t) -> derivable_pt_lim g t e.
  Proof.
    intros Hg ->. apply (derivable_pt_lim_ext (fun s => c * exp (- s) + d)); [intros s; symmetry; apply Hg|].
    replace (- c * exp (- t)) with (- c * exp (- t) + 0) by ring.
    apply (derivable_pt_lim_plus (fun s => c * exp (- s)) (fun _ => d)); [apply le_exp|apply derivable_pt_lim_const].
  Qed.
  Example ex_le_solution T : solution (n_rdot no) f le_sol 0 T /\ twice_smooth (n_rdot no) f le_sol 0 T 8 /\
    (forall t, 0 <= t <= 0 + T -> exists a, distance eps (tvec o 3) (n_rdot no) (recon a) (le_sol t) <= 1 / 2).
  Proof.
    split; [|split].
    - intros [a [b [c []]]] t _. apply (le_affine _ (6 * a + 4 * b) (a + 11 / 2 * c)); intros; cbn; ring.
    - exists (fun t => (6 * exp (- t), (4 * exp (- t), (0, tt)))). split.
      + intros [a [b [c []]]] t _. apply (le_affine _ (- (6 * a + 4 * b)) 0); intros; cbn; ring.
      + intros t [Ht _]. unfold length_of. cbn. rewrite <- (sqrt_square 8) by lra. apply sqrt_le_1_alt.
        assert (E : exp (- t) <= 1) by (rewrite <- exp_0; destruct Ht as [Ht| <-]; [left; apply exp_increasing; lra|rewrite Ropp_0; lra]).
        pose proof (exp_pos (- t)) as P. assert (exp (- t) * exp (- t) <= 1 * 1) by (apply Rmult_le_compat; lra). lra.
    - intros t _. exists (1 + 2 * exp (- t), (4 * exp (- t), tt)). unfold distance, length_of, le_sol, vminus. cbn.
      apply Req_le. match goal with |- sqrt ?x = _ => replace x with (1 / 2 * (1 / 2)) by field end. apply sqrt_square. lra.
  Qed.
  (** Ten steps of size 1 from the projection of the first FOM state. *)
  Example ex_le_run : forall tag, tag = GaussNewton \/ tag = GaussNewtonQr ->
    exists g0 y' g' tr, rl_g0 eps BDF1 = Ok g0 /\
      advance_n_steps o (mk_user (split_obs (fun _ _ _ w => (Ok tt, w))) (pol3 (split_pol (fun _ _ _ w => (Ok 1, w)))) noop_guess
        (split_step (implicit_fn (stp tag)))) (Z.of_nat 10) 0 ((3, (4, tt)), (g0, tt), []) = (Ok tt, (y', (g', tt), tr)) /\
      length (reports tr) = 11%nat /\
      (forall k t x, In (k, t, x) (reports tr) -> distance eps (tvec o 3) (n_rdot no) (recon x) (le_sol t) <=
        distance eps (tvec o 3) (n_rdot no) (recon (3, (4, tt))) (le_sol 0) + (IZR k + 8 * t)) /\
      forall k t x, In (Z.of_nat k, t, x) (reports tr) ->
        distance eps (tvec o 3) (n_rdot no) (recon x) (le_z k) <= distance eps (tvec o 3) (n_rdot no) (recon (3, (4, tt))) (le_z 0) + INR k.
  Proof.
    intros tag Ht.
    assert (K : exists g0, rl_g0 eps BDF1 = Ok g0) by (eexists; reflexivity). destruct K as [g0 K].
    destruct (C100_n_steps eps _ _ _ _ _ nat unit no (tvec o 3) (mat_ops eps 3 2) (tapply o) (tapply o) (tuple_laws eps 3 2)
                (ex_rl_tall eps 3 2) (mat_space eps 3 2) rl_ref rl_phi _ _ _ _ (ex_rl_fom eps 3 2 rl_A rl_b rl_phi) ex_le_basis 1 Rle_0_1
                ex_le_dissipative xt (ex_linear eps) _ _
                (ex_weights eps false nothing) tag cf (ex_rl_settings tag _ Ht (or_intror eq_refl)) (fun j => ex_rl_regular eps 3 2 j tag)
                (fun _ _ _ w => (Ok tt, w)) 0%nat _ _ _ _ (rl_ws eps) g0 (proj1 (ex_objects eps)) K
                (fun _ _ _ w => (Ok 1, w)) 10%nat 0 (3, (4, tt)) tt eq_refl (fun _ _ _ _ => eq_refl) (fun _ _ _ _ => ex_intro _ 1 eq_refl))
      as (y' & g' & [] & tr & E & El & HX & HSol).
    exists g0, y', g', tr. split; [exact K|]. split; [exact E|]. split; [exact El|].
    assert (HT : forall k t x, In (Z.of_nat k, t, x) (reports tr) -> t = INR k).
    { intros k t x Hin. eapply (n_steps_fixed o _ _ _ _ 1) in E; [| |reflexivity].
      - apply (in_map fst) in Hin. rewrite E in Hin. apply in_map_iff in Hin. destruct Hin as (j & Ej & _). cbn [fst] in Ej.
        pose proof (f_equal fst Ej) as E1. pose proof (f_equal snd Ej) as E2. cbn [fst snd] in E1, E2. apply Nat2Z.inj in E1. subst j. rewrite <- E2.
        clear. induction k as [|k IH]; [reflexivity|]. rewrite S_INR, <- IH. reflexivity.
      - intros k' t' d w dt w' Ep. cbv [split_pol] in Ep. injection Ep as <- _. reflexivity. }
    assert (HN : forall k t x, In (k, t, x) (reports tr) -> exists j, k = Z.of_nat j /\ (j <= 10)%nat).
    { intros k t x Hin. eapply (n_steps_fixed o _ _ _ _ 1) in E; [| |reflexivity].
      - apply (in_map fst) in Hin. rewrite E in Hin. apply in_map_iff in Hin. destruct Hin as (j & Ej & Hj). apply in_seq in Hj.
        exists j. split; [symmetry; exact (f_equal fst Ej)|lia].
      - intros k' t' d w dt w' Ep. cbv [split_pol] in Ep. injection Ep as <- _. reflexivity. }
    split.
    { intros k t x Hin. destruct (ex_le_solution 10) as (S1 & S2 & S3). destruct (HN _ _ _ Hin) as (j & -> & Hj).
      pose proof (HT _ _ _ Hin) as Et.
      assert (Hu : INR j <= 10) by (replace 10 with (INR 10) by (cbn; lra); apply le_INR; exact Hj).
      eapply Rle_trans; [apply (HSol le_sol 10 8 1 (1 / 2) S1 S2 S3) with (k := Z.of_nat j) (t := t) (x := x); [| |exact Hin|lra]|].
      - intros k' t' s' t'' s'' A B. destruct (HN _ _ _ A) as (i & -> & _). replace (Z.of_nat i + 1)%Z with (Z.of_nat (Datatypes.S i)) in B by lia.
        apply HT in A. apply HT in B. rewrite S_INR in B. lra.
      - intros k' t' s' t'' s'' A B. destruct (HN _ _ _ A) as (i & -> & _). replace (Z.of_nat i + 1)%Z with (Z.of_nat (Datatypes.S i)) in B by lia.
        apply HT in A. apply HT in B. rewrite S_INR in B. lra.
      - apply Rplus_le_compat_l. lra. }
    intros k t x Hin.
    eapply Rle_trans; [apply (HX INR (fun _ => 0) (fun _ => 1 / 2) k le_z HT) with (k := k) (t := t)|].
    - intros j _. rewrite S_INR. lra.
    - apply ex_le_near.
    - intros j _. apply ex_le_approx.
    - apply le_n.
    - exact Hin.
    - apply Rplus_le_compat_l. clear. induction k as [|k IH]; [apply Rle_refl|]. cbn [elapsed]. rewrite S_INR in *. lra.
  Qed.
  (** From 0 to 5/2: at most three steps of size 1 *)
  Example ex_le_target : forall tag recovery fuel, 0 <= eps -> tag = GaussNewton \/ tag = GaussNewtonQr -> (3 < fuel)%nat ->
    exists g0 y' g' tr, rl_g0 eps BDF1 = Ok g0 /\
      to_target o (mk_user (split_obs (fun _ _ _ w => (Ok tt, w))) (split_pol (fun _ _ _ w => (Ok (1, 1 / 10, 2), w))) noop_guess
        (split_step (implicit_fn (stp tag)))) recovery fuel 0 (5 / 2) ((3, (4, tt)), (g0, tt), []) = (Ok tt, (y', (g', tt), tr)) /\
      tracks eps (tvec o 3) (n_rdot no) recon f 1 (3, (4, tt)) tr.
  Proof.
    intros tag recovery fuel He Ht Hf.
    assert (K : exists g0, rl_g0 eps BDF1 = Ok g0) by (eexists; reflexivity). destruct K as [g0 K].
    destruct (C100_to_target eps _ _ _ _ _ nat unit no (tvec o 3) (mat_ops eps 3 2) (tapply o) (tapply o) (tuple_laws eps 3 2)
                (ex_rl_tall eps 3 2) (mat_space eps 3 2) rl_ref rl_phi _ _ _ _ (ex_rl_fom eps 3 2 rl_A rl_b rl_phi) ex_le_basis 1 Rle_0_1
                ex_le_dissipative xt (ex_linear eps) _ _
                (ex_weights eps false nothing) tag cf (ex_rl_settings tag _ Ht (or_intror eq_refl)) (fun j => ex_rl_regular eps 3 2 j tag)
                (fun _ _ _ w => (Ok tt, w)) 0%nat _ _ _ _ (rl_ws eps) g0 (proj1 (ex_objects eps)) K
                (fun _ _ _ w => (Ok (1, 1 / 10, 2), w)) recovery 1 3%nat fuel 0 (5 / 2) (3, (4, tt)) tt He (fun _ _ _ _ => eq_refl))
      as (y' & g' & [] & tr & E & _ & HX & _); [|lra|cbn; lra|exact Hf|reflexivity|].
    - intros k t x u. exists 1, (1 / 10), 2. repeat split; lra.
    - exists g0, y', g', tr. split; [exact K|]. split; [exact E|exact HX].
  Qed.
End Ex.

(** A concrete case meeting the hypotheses of the theorems in [PropLspgBasis.v]: the ROM of [ExRomLs.v] and one with another basis and
    another reference state, ten steps of size 1. *)
From Coq Require Import Reals ZArith List Lra Lia.
From Verif Require Import Base RInst Laws LawInst AdvanceModel AdvanceSpec AdvanceProofs TargetProofs Track ExplicitModel ImplicitModel ImplicitSpec
  NonlinDiag NonlinModel NonlinSpec NonlinLaws NonlinExact Tuples QrModel QrSpec QrProofs QrSolve QrExts ExNonlin
  LspgModel LspgSpec RomRunSpec RomLsSpec CompleteRun RomLsClaims PropRomLs ExRomLs StabilitySpec DissipSpec SteadyNlSpec LspgErrSpec ExLspgErr
  LspgBasisSpec PropLspgBasis.
Import ListNotations.
Local Open Scope R_scope.

Section Ex.
  Variable eps : R.
  Notation o := (Rops eps).
  Notation no := (tuple_ops o sqrt 3 2).
  Notation xt := (mgs_exts eps 3 2 exwr exwj false).
  Notation cf := (mk_config 100 WhenRelGradient (1 / 1000) UStandard None).
  (** (1, -1, 5) + span{(2, 0, 0), (0, 1, 0)} is (0, 0, 5) + span{(1, 0, 0), (1, 1, 0)} *)
  Definition lb_phi : mat (S:=R) 3 2 := ((2, (0, (0, tt))), ((0, (1, (0, tt))), tt)).
  Definition lb_ref : tup R 3 := (1, (-1, (5, tt))).
  Notation recon := (trial (tvec o 3) (tapply o) rl_ref rl_phi).
  Notation recon' := (trial (tvec o 3) (tapply o) lb_ref lb_phi).
  Example ex_lb_space : (forall x, exists x', recon' x' = recon x) /\ (forall x', exists x, recon x = recon' x') /\
    recon (3, (4, tt)) = recon' (3, (5, tt)).
  Proof.
    unfold trial, rl_ref, rl_phi, lb_ref, lb_phi. split; [|split].
    - intros [x [y []]]. exists ((x + y - 1) / 2, (y + 1, tt)). cbn. rl_pairs; field.
    - intros [a [b []]]. exists (2 + 2 * a - b, (b - 1, tt)). cbn. rl_pairs; field.
    - cbn. rl_pairs; ring.
  Qed.
  Example ex_lb_basis : full_rank no (tvec o 3) (tapply o) lb_phi.
  Proof.
    intros [x [y []]] E. cbn in E.
    assert (E1 := f_equal fst E). assert (E2 := f_equal (fun z => fst (snd z)) E). cbn [fst snd] in E1, E2. cbn. rl_pairs; lra.
  Qed.
  Example ex_lb_regular : forall tag, steps_regular eps no (tvec o 3) (tapply o) (tapply o) rl_phi (fun t => tapply o (rl_A t)) tag /\
    steps_regular eps no (tvec o 3) (tapply o) (tapply o) lb_phi (fun t => tapply o (rl_A t)) tag.
  Proof.
    intros tag. split; apply C101_dissipative; try exact (tuple_laws eps 3 2); try exact (fun j => ex_rl_regular eps 3 2 j tag);
      try exact (fun t v => proj1 (ex_le_dissipative eps t v)); [exact (ex_le_basis eps)|exact ex_lb_basis].
  Qed.
  (** there are such runs *)
  Lemma lb_run ref phi y0 tag name : tag = GaussNewton \/ tag = GaussNewtonQr -> name = BDF1 \/ name = BDF2 ->
    exists tr, lspg_run eps no (tvec o 3) (mat_ops eps 3 2) (tapply o) (tapply o) ref phi (fun t => tapply o (rl_A t)) rl_b name tag 0 y0 tr /\
      map fst (reports tr) = map (fun k => (Z.of_nat k, fixed_time Rplus 0 1 k)) (seq 0 11).
  Proof.
    intros Ht Hn.
    assert (K : exists g0, rl_g0 eps name = Ok g0) by (destruct Hn as [-> | ->]; eexists; reflexivity). destruct K as [g0 K].
    destruct (C81_n_steps eps _ _ _ _ _ nat unit no (tvec o 3) (mat_ops eps 3 2) (tapply o) (tapply o) (tuple_laws eps 3 2)
                (ex_rl_tall eps 3 2) (mat_space eps 3 2) ref phi _ _ _ _ (ex_rl_fom eps 3 2 rl_A rl_b phi) xt (ex_linear eps) _ _
                (ex_weights eps false nothing) tag cf (ex_rl_settings tag _ Ht (or_intror eq_refl))
                (fun _ _ _ w => (Ok tt, w)) 0%nat name _ _ _ _ (rl_ws eps) g0 (proj1 (ex_objects eps)) K
                (fun _ _ _ w => (Ok 1, w)) 10%nat 0 y0 tt eq_refl (fun _ _ _ _ => eq_refl) (fun _ _ _ _ => ex_intro _ 1 eq_refl))
      as (y' & g' & [] & tr & l & E & _).
    exists tr. split.
    - exact (RunSteps eps no (tvec o 3) (mat_ops eps 3 2) (tapply o) (tapply o) ref phi (fun t => tapply o (rl_A t)) rl_b name tag 0 y0
        _ nat unit _ _ xt _ _ cf (fun _ _ _ w => (Ok tt, w)) 0%nat _ _ _ _ (rl_ws eps) g0 (fun _ _ _ w => (Ok 1, w)) 10%nat tt y' g' tt tr
        (ex_rl_fom eps 3 2 rl_A rl_b phi) (ex_linear eps) (ex_weights eps false nothing) (ex_rl_settings tag _ Ht (or_intror eq_refl))
        (proj1 (ex_objects eps)) K eq_refl (fun _ _ _ _ => eq_refl) (fun _ _ _ _ => ex_intro _ 1 eq_refl) E).
    - eapply (n_steps_fixed o _ _ _ _ 1) in E; [rewrite E; reflexivity| |reflexivity].
      intros k' t' d w dt w' Ep. cbv [split_pol] in Ep. injection Ep as <- _. reflexivity.
  Qed.
  (** The two ROMs, one with the normal equations and one with QR, report the same full states. *)
  Example ex_lb_same : forall name, name = BDF1 \/ name = BDF2 -> exists tr tr',
    lspg_run eps no (tvec o 3) (mat_ops eps 3 2) (tapply o) (tapply o) rl_ref rl_phi (fun t => tapply o (rl_A t)) rl_b name GaussNewton 0 (3, (4, tt)) tr /\
    lspg_run eps no (tvec o 3) (mat_ops eps 3 2) (tapply o) (tapply o) lb_ref lb_phi (fun t => tapply o (rl_A t)) rl_b name GaussNewtonQr 0 (3, (5, tt)) tr' /\
    same_times tr tr' /\ forward_in_time tr /\ length (reports tr) = 11%nat /\
    full_reports (tvec o 3) (tapply o) rl_ref rl_phi tr = full_reports (tvec o 3) (tapply o) lb_ref lb_phi tr'.
  Proof.
    intros name Hn.
    destruct (lb_run rl_ref rl_phi (3, (4, tt)) GaussNewton name (or_introl eq_refl) Hn) as (tr & HR & Et).
    destruct (lb_run lb_ref lb_phi (3, (5, tt)) GaussNewtonQr name (or_intror eq_refl) Hn) as (tr' & HR' & Et').
    assert (Hs : same_times tr tr') by exact (eq_trans Et (eq_sym Et')).
    assert (Hf : forward_in_time tr).
    { intros k t s t' s' A B. apply (in_map fst) in A. apply (in_map fst) in B. cbn [fst] in A, B. rewrite Et in A, B.
      apply in_map_iff in A. apply in_map_iff in B. destruct A as (i & A & _). destruct B as (j & B & _).
      pose proof (f_equal fst A) as A1. pose proof (f_equal snd A) as A2. pose proof (f_equal fst B) as B1. pose proof (f_equal snd B) as B2.
      cbn [fst snd] in A1, A2, B1, B2. replace j with (Datatypes.S i) in * by lia. cbn [fixed_time] in B2. rewrite A2 in B2. lra. }
    exists tr, tr'. split; [exact HR|]. split; [exact HR'|]. split; [exact Hs|]. split; [exact Hf|].
    split; [rewrite <- (map_length fst), Et, map_length, seq_length; reflexivity|].
    exact (C101_same_trial_space eps _ _ _ _ _ _ _ no no (tvec o 3) (mat_ops eps 3 2) (mat_ops eps 3 2) (tapply o) (tapply o) (tapply o) (tapply o)
      (tuple_laws eps 3 2) (ex_rl_tall eps 3 2) (mat_space eps 3 2) (tuple_laws eps 3 2) (ex_rl_tall eps 3 2) (mat_space eps 3 2) (fun _ => eq_refl)
      rl_ref lb_ref rl_phi lb_phi (fun t => tapply o (rl_A t)) rl_b name GaussNewton GaussNewtonQr
      (proj1 (ex_lb_regular GaussNewton)) (proj2 (ex_lb_regular GaussNewtonQr)) (proj1 ex_lb_space) (proj1 (proj2 ex_lb_space))
      0 0 _ _ tr tr' HR HR' (proj2 (proj2 ex_lb_space)) Hs Hf).
  Qed.
End Ex.

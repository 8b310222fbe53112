(** Concrete cases meeting the hypotheses of the theorems in [PropRomLs.v]: full states of m entries, reduced states of n, linear solves by
    the modified Gram-Schmidt factorisation; a run of three entries, two unknowns. *)
From Coq Require Import Reals ZArith List Lra Lia.
From Verif Require Import Base RInst Laws LawInst AdvanceModel AdvanceSpec AdvanceProofs TargetProofs Track ExplicitModel ImplicitModel ImplicitSpec
  NonlinDiag NonlinModel NonlinSpec NonlinLaws NonlinExact Tuples QrModel QrSpec QrProofs QrSolve QrExts ExNonlin
  LspgModel LspgSpec RomRunSpec RomLsSpec CompleteRun RomLsClaims PropRomLs.
Import ListNotations.
Local Open Scope R_scope.

Ltac rl_pairs := repeat match goal with |- (_, _) = (_, _) => apply f_equal2 | |- tt = tt => reflexivity end.
Ltac rl_eq := cbn; cbv [bdf1_eq bdf2_eq vminus]; cbn; rl_pairs; field.
Section Ex.
  Variable eps : R.
  Notation o := (Rops eps).
  Example ex_rl_tall : forall m n, tall (tvec o n) (tvec o m) (mat_ops eps m n) (tapply o).
  Proof. intros m n. split; [apply mat_add|apply mat_scale]. Qed.
  Lemma tapply_comp : forall m n (a : mat (S:=R) m m) (p : mat (S:=R) m n) x, tapply o (tmap (tapply o a) p) x = tapply o a (tapply o p x).
  Proof.
    intros m n a p x. pose proof (tapply_lin o (R_field eps) m m a) as HL. induction n as [|n IH].
    - cbn [tapply]. pose proof (tuple_inner eps m) as HI.
      rewrite <- (vs_0 _ _ (in_space _ _ HI) (vzero (tvec o m))) at 2. rewrite (lin_scale _ _ _ HL).
      symmetry. apply (vs_0 _ _ (in_space _ _ HI)).
    - cbn [tapply tmap fst snd]. rewrite IH, (lin_add _ _ _ HL), (lin_scale _ _ _ HL). reflexivity.
  Qed.
  (** y' = A(t) y + b(t), with any matrices and vectors *)
  Definition rl_fom {m n} (a : R -> mat (S:=R) m m) (b : R -> tup R m) :
    sfom (S:=R) (Y:=tup R m) (R:=tup R m) (J:=mat (S:=R) m n) (B:=mat (S:=R) m n) (W:=nat) :=
    mk_sfom (fun y t r w => (Ok tt, (vadd (tvec o m) (tapply o (a t) y) (b t), Datatypes.S w)))
            (fun y p t j w => (Ok tt, (tmap (tapply o (a t)) p, w))).
  Example ex_rl_fom : forall m n (a : R -> mat (S:=R) m m) b (phi : mat (S:=R) m n),
    linear_fom (tvec o m) (tapply o) (rl_fom a b) phi (fun t => tapply o (a t)) b (fun t => tmap (tapply o (a t)) phi).
  Proof.
    intros m n a b phi. split; [intros t; apply tapply_lin; apply R_field|]. split; [intros t x; apply tapply_comp|].
    split; [intros y t r w; exists (Datatypes.S w)|intros y t j w; exists w]; reflexivity.
  Qed.
  (** independent columns are enough *)
  Example ex_rl_regular : forall m n (j : mat (S:=R) m n) tag, full_rank (tuple_ops o sqrt m n) (tvec o m) (tapply o) j ->
    regular (tuple_ops o sqrt m n) (tvec o m) (tapply o) (tapply o) tag j.
  Proof.
    intros m n j tag Hf. split; [exact Hf|]. intros r.
    assert (K : exists d, qr_exact (tuple_ops o sqrt m n) (tapply o) j r d).
    { eexists. apply solution_qr. apply diag_of_indep. apply (proj1 (full_rank_indep eps m n j)). exact Hf. }
    destruct K as [d K]. exists d. pose proof (qr_normal _ _ _ _ (tuple_laws eps m n) j r d K) as N.
    destruct tag; first [exact K|exact N].
  Qed.
  Example ex_rl_settings : forall tag st, tag = GaussNewton \/ tag = GaussNewtonQr -> st = WhenRelCorrection \/ st = WhenRelGradient ->
    full_steps tag (mk_config 100 st (1 / 1000) UStandard None).
  Proof. intros tag st Ht Hs. repeat split; cbn; try assumption; try reflexivity; try lra; unfold int32_max; lia. Qed.

  (** A = diag(-1, -1, 0), b = (1, 0, 0), trial space (0, 0, 5) + span{(1, 0, 0), (1, 1, 0)} *)
  Definition rl_A (t : R) : mat (S:=R) 3 3 := ((-1, (0, (0, tt))), ((0, (-1, (0, tt))), ((0, (0, (0, tt))), tt))).
  Definition rl_b (t : R) : tup R 3 := (1, (0, (0, tt))).
  Definition rl_phi : mat (S:=R) 3 2 := ((1, (0, (0, tt))), ((1, (1, (0, tt))), tt)).
  Definition rl_ref : tup R 3 := (0, (0, (5, tt))).
  Definition rl_ws : reg R (tup R 2) (tup R 3) (mat (S:=R) 3 2) (mat (S:=R) 2 2) (object eps 3 2) := exreg eps ls_diags.
  Notation no := (tuple_ops o sqrt 3 2).
  Notation xt := (mgs_exts eps 3 2 exwr exwj false).
  Notation cf := (mk_config 100 WhenRelGradient (1 / 1000) UStandard None).
  Notation recon := (fun x => vadd (tvec o 3) rl_ref (tapply o rl_phi x)).
  Notation stp tag name := (implicit_step o (default_policy o (tvec o 3) (mat_ops eps 3 2) recon (rl_fom rl_A rl_b) rl_phi)
    (as_solver (ls_solve o no xt tag cf)) name).
  Definition rl_g0 (name : scheme) : outcome (@sst R (tup R 2) (tup R 3) (lpol (Y:=tup R 3) (W:=nat)) _) :=
    lspg_create o name (0, (0, tt)) (tconst 0 3) (tconst 0 3) (fresh_policy 0%nat) (0, (0, tt)) rl_ws.
  Lemma rl_rank c : c <> 0 -> full_rank no (tvec o 3) (tapply o) ((c, (0, (0, tt))), ((c, (c, (0, tt))), tt)).
  Proof.
    intros Hc [x [y []]] E. cbn in E.
    assert (E1 := f_equal fst E). assert (E2 := f_equal (fun z => fst (snd z)) E). cbn [fst snd] in E1, E2.
    assert (y * c = 0) by lra. apply Rmult_integral in H. destruct H as [->|]; [|contradiction].
    assert (x * c = 0) by lra. apply Rmult_integral in H. destruct H as [->|]; [|contradiction]. reflexivity.
  Qed.
  (** Two steps of size 1: the library's run is the FOM's trajectory. *)
  Example ex_rl_run : forall tag name, tag = GaussNewton \/ tag = GaussNewtonQr -> name = BDF1 \/ name = BDF2 ->
    exists g0 y' g' tr, rl_g0 name = Ok g0 /\
      advance_n_steps o (mk_user (split_obs (fun _ _ _ w => (Ok tt, w))) (pol3 (split_pol (fun _ _ _ w => (Ok 1, w)))) noop_guess
        (split_step (implicit_fn (stp tag name)))) (Z.of_nat 2) 0 ((3, (4, tt)), (g0, tt), []) = (Ok tt, (y', (g', tt), tr)) /\
      reports tr = [(0%Z, 0, (3, (4, tt))); (1%Z, 0 + 1, (2, (2, tt)));
                    (2%Z, 0 + 1 + 1, match name with BDF1 => (3 / 2, (1, tt)) | _ => (7 / 5, (4 / 5, tt)) end)].
  Proof.
    intros tag name Ht Hn.
    assert (K : exists g0, rl_g0 name = Ok g0) by (destruct Hn as [-> | ->]; eexists; reflexivity). destruct K as [g0 K].
    destruct (C81_n_steps eps _ _ _ _ _ nat unit no (tvec o 3) (mat_ops eps 3 2) (tapply o) (tapply o) (tuple_laws eps 3 2)
                (ex_rl_tall 3 2) (mat_space eps 3 2) rl_ref rl_phi _ _ _ _ (ex_rl_fom 3 2 rl_A rl_b rl_phi) xt (ex_linear eps) _ _
                (ex_weights eps false nothing) tag cf (ex_rl_settings tag _ Ht (or_intror eq_refl))
                (fun _ _ _ w => (Ok tt, w)) 0%nat name _ _ _ _ rl_ws g0 (proj1 (ex_objects eps)) K
                (fun _ _ _ w => (Ok 1, w)) 2%nat 0 (3, (4, tt)) tt eq_refl (fun _ _ _ _ => eq_refl) (fun _ _ _ _ => ex_intro _ 1 eq_refl))
      as (y' & g' & [] & tr & l & E & _ & _ & _ & HX).
    exists g0, y', g', tr. split; [exact K|]. split; [exact E|].
    set (m := [(0 + 1 + 1, 1, match name with BDF1 => (3 / 2, (1, tt)) | _ => (7 / 5, (4 / 5, tt)) end);
               (0 + 1, 1, (2, (2, tt))); (0, 0, (3, (4, tt)))] : accepted R (tup R 2)).
    apply (HX m).
    - split; [|exists 0, (firstn 2 m); reflexivity].
      assert (Hr : forall c past t, c <> -1 -> lspg_jacobian o (mat_ops eps 3 2) recon (fun _ _ t => tmap (tapply o (rl_A t)) rl_phi) rl_phi name past t 1 (vzero (n_vo no))
        = scheme_J o (mat_ops eps 3 2) rl_phi c 1 (tmap (tapply o (rl_A (t + 1))) rl_phi) ->
        regular no (tvec o 3) (tapply o) (tapply o) tag
          (lspg_jacobian o (mat_ops eps 3 2) recon (fun _ _ t => tmap (tapply o (rl_A t)) rl_phi) rl_phi name past t 1 (vzero (n_vo no)))).
      { intros c past t Hc E1. rewrite E1. apply ex_rl_regular.
        replace (scheme_J o (mat_ops eps 3 2) rl_phi c 1 (tmap (tapply o (rl_A (t + 1))) rl_phi))
          with (((1 + c, (0, (0, tt))), ((1 + c, (1 + c, (0, tt))), tt)) : mat (S:=R) 3 2); [apply rl_rank; lra|].
        cbn. rl_pairs; ring. }
      destruct Hn as [-> | ->]; cbn [linked m map snd]; (split; [reflexivity|]; split; [|split; [reflexivity|]; split; [|exact I]]); split.
      + apply (Hr 1); [lra|reflexivity].
      + rl_eq.
      + apply (Hr 1); [lra|reflexivity].
      + rl_eq.
      + apply (Hr (frac o 2 3)); [cbn; lra|reflexivity].
      + rl_eq.
      + apply (Hr 1); [lra|reflexivity].
      + rl_eq.
    - eapply (n_steps_fixed o _ _ _ _ 1) in E; [rewrite E; reflexivity| |reflexivity].
      intros k t d w dt w' Ep. cbv [split_pol] in Ep. injection Ep as <- _. reflexivity.
  Qed.
  (** From 0 to 5/2, with or without recovery: at most three steps of size 1 *)
  Example ex_rl_target : forall tag name recovery fuel, 0 <= eps -> tag = GaussNewton \/ tag = GaussNewtonQr -> name = BDF1 \/ name = BDF2 -> (3 < fuel)%nat ->
    exists g0 y' g' tr, rl_g0 name = Ok g0 /\
      to_target o (mk_user (split_obs (fun _ _ _ w => (Ok tt, w))) (split_pol (fun _ _ _ w => (Ok (1, 1 / 10, 2), w))) noop_guess
        (split_step (implicit_fn (stp tag name)))) recovery fuel 0 (5 / 2) ((3, (4, tt)), (g0, tt), []) = (Ok tt, (y', (g', tt), tr)).
  Proof.
    intros tag name recovery fuel He Ht Hn Hf.
    assert (K : exists g0, rl_g0 name = Ok g0) by (destruct Hn as [-> | ->]; eexists; reflexivity). destruct K as [g0 K].
    destruct (C81_to_target eps _ _ _ _ _ nat unit no (tvec o 3) (mat_ops eps 3 2) (tapply o) (tapply o) (tuple_laws eps 3 2)
                (ex_rl_tall 3 2) (mat_space eps 3 2) rl_ref rl_phi _ _ _ _ (ex_rl_fom 3 2 rl_A rl_b rl_phi) xt (ex_linear eps) _ _
                (ex_weights eps false nothing) tag cf (ex_rl_settings tag _ Ht (or_intror eq_refl))
                (fun _ _ _ w => (Ok tt, w)) 0%nat name _ _ _ _ rl_ws g0 (proj1 (ex_objects eps)) K
                (fun _ _ _ w => (Ok (1, 1 / 10, 2), w)) recovery 1 3%nat fuel 0 (5 / 2) (3, (4, tt)) tt He (fun _ _ _ _ => eq_refl))
      as (y' & g' & [] & tr & l & E & _); [|lra|cbn; lra|exact Hf|reflexivity|exists g0, y', g', tr; split; [exact K|exact E]].
    intros k t x u. exists 1, (1 / 10), 2. split; [reflexivity|]. repeat split; lra.
  Qed.
End Ex.

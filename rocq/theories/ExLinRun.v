(** Concrete cases meeting the hypotheses of the theorems in [PropLinRun.v]: the driven oscillator y1' = y2, y2' = t - y1, linear solves by the
    modified Gram-Schmidt factorisation. *)
From Coq Require Import Reals ZArith List Lra Lia.
From Verif Require Import Base RInst Laws LawInst AdvanceModel AdvanceSpec AdvanceProofs TargetProofs Track ExplicitModel ImplicitModel ImplicitSpec
  NonlinDiag NonlinModel NonlinSpec NonlinLaws NonlinExact NonlinMoreSpec Tuples QrModel QrSpec QrProofs QrSolve QrExts QrEnd ExNonlin RomLsSpec CompleteRun StabilitySpec
  DissipSpec LinRunSpec LinRunClaims PropLinRun.
Import ListNotations.
Local Open Scope R_scope.

Ltac lr_pairs := repeat match goal with |- (_, _) = (_, _) => apply f_equal2 | |- tt = tt => reflexivity end.
Ltac lr_eq := cbn; cbv [bdf1_eq bdf2_eq cn_eq vminus linear_rhs osc drive mass23]; cbn; lr_pairs; field.
Section Ex.
  Variable eps : R.
  Notation o := (Rops eps).
  Notation V2 := (tup R 2).
  Notation no := (tuple_ops o sqrt 2 2).
  Notation xt := (mgs_exts eps 2 2 (fun r => r) (fun j => j) false).
  Notation cf := (mk_config 100 WhenRelResidual (1 / 1000) UStandard None).
  (** square matrices of any size *)
  Example ex_lr_square : forall n, square (tvec o n) (tapply o (m:=n) (n:=n)).
  Proof. intros n K Hk. exact (square_onto eps n K Hk). Qed.
  Example ex_lr_inner : forall n, DissipSpec.inner (tvec o n) (tdot o (n:=n)) /\ definite (tvec o n) (tdot o (n:=n)).
  Proof.
    intros n. pose proof (tuple_inner eps n) as HI. split; [split|].
    - exact (in_sym _ _ HI).
    - exact (in_add _ _ HI).
    - exact (in_scale _ _ HI).
    - exact (in_pos _ _ HI).
    - exact (in_zero _ _ HI).
  Qed.
  Example ex_lr_settings : forall st, st = WhenRelCorrection \/ st = WhenRelResidual -> newton_settings (mk_config 100 st (1 / 1000) UStandard None).
  Proof. intros st Hs. repeat split; cbn; try assumption; try reflexivity; try lra; unfold int32_max; lia. Qed.
  (** the oscillator, counting its evaluations *)
  Definition lr_user : isys (S:=R) (V:=V2) (J:=mat (S:=R) 2 2) (W:=nat) :=
    mk_isys (fun y t f Jo w => (Ok tt, (linear_rhs (tvec o 2) (tapply o) osc drive y t, option_map (fun _ => osc t) Jo, Datatypes.S w)))
            (fun y t M f Jo w => (Ok tt, (mass23 t, linear_rhs (tvec o 2) (tapply o) osc drive y t, Some (osc t), Datatypes.S w))).
  Example ex_lr_user : linear_user (tvec o 2) (tapply o) lr_user osc drive.
  Proof. intros y t r Jo w. eexists. reflexivity. Qed.
  Example ex_lr_user_mm : linear_ode_mm (tvec o 2) (tapply o) lr_user mass23 osc drive.
  Proof. intros y t M f Jo w. eexists _, _. split; [reflexivity|intros _; reflexivity]. Qed.
  Example ex_lr_dissipative : dissipative eps (tvec o 2) (tdot o (n:=2)) (linear_rhs (tvec o 2) (tapply o) osc drive).
  Proof.
    intros [a [b []]] [c [d []]] t. cbv [linear_rhs vminus osc drive tdot]. cbn. apply Req_le. ring.
  Qed.
  Definition lr_ws : reg R V2 V2 (mat (S:=R) 2 2) (mat (S:=R) 2 2) (object eps 2 2) :=
    set_x (0, (0, tt)) (new_reg o (tconst 0 2) (tconst 0 2) (tconst (tconst 0 2) 2) (tconst (tconst 0 2) 2) (new_object eps 2 2) root_diags).
  Example ex_lr_object : root_object o lr_ws.
  Proof. repeat split. Qed.
  Example ex_lr_linear : linear_ok xt (if_solvable (normal_exact (tapply o))) (if_solvable (qr_exact no (tapply o)))
    (if_solvable (newton_exact (tapply o))) nothing.
  Proof. apply mgs_linear. Qed.
  Lemma lr_weight name (past : list V2) t dt : invertible (tvec o 2) (tapply o) (step_matrix o (mat_ops eps 2 2) (fun _ => tid 2) osc name past t dt) /\
    invertible (tvec o 2) (tapply o) (step_matrix o (mat_ops eps 2 2) mass23 osc name past t dt).
  Proof. exact (ex_invertible eps _ _ _). Qed.
  Definition lr_first (name : scheme) : V2 := match name with CrankNicolson => (4 / 5, (- 2 / 5, tt)) | _ => (1, (0, tt)) end.
  Definition lr_second (name : scheme) : V2 :=
    match name with CrankNicolson => (19 / 25, (8 / 25, tt)) | BDF2 => (17 / 13, (6 / 13, tt)) | _ => (3 / 2, (1 / 2, tt)) end.
  Definition lr_g0 (name : scheme) := implicit_create o name ((0, (0, tt)) : V2) ((0, (0, tt)) : V2) (mk_ppol (-1) 0%nat) (0, (0, tt)) lr_ws.
  Notation stp name := (implicit_step o (policy_std o (tvec o 2) (mat_ops eps 2 2) (tid 2) lr_user) (as_solver (root_solve o no xt cf)) name).
  (** Two steps of size 1 from (1, 0) *)
  Example ex_lr_run : forall name, name = BDF1 \/ name = BDF2 \/ name = CrankNicolson ->
    exists g0 y' g' tr, lr_g0 name = Ok g0 /\
      advance_n_steps o (mk_user (split_obs (fun _ _ _ w => (Ok tt, w))) (pol3 (split_pol (fun _ _ _ w => (Ok 1, w)))) noop_guess
        (split_step (implicit_fn (stp name)))) (Z.of_nat 2) 0 ((1, (0, tt)), (g0, tt), []) = (Ok tt, (y', (g', tt), tr)) /\
      reports tr = [(0%Z, 0, (1, (0, tt))); (1%Z, 0 + 1, lr_first name); (2%Z, 0 + 1 + 1, lr_second name)].
  Proof.
    intros name Hn.
    assert (K : exists g0, lr_g0 name = Ok g0) by (destruct Hn as [->|[->| ->]]; eexists; reflexivity). destruct K as [g0 K].
    destruct (C82_n_steps eps _ _ _ _ nat unit no (tapply o) (tapply o) (tuple_laws eps 2 2) (mat_ops eps 2 2) (tid 2) (mat_space eps 2 2)
                (proj2 (ex_tuple_matrices eps 2)) xt ex_lr_linear cf (ex_lr_settings _ (or_intror eq_refl)) lr_user osc drive ex_lr_user name
                (fun _ _ _ w => (Ok tt, w)) _ _ _ _ lr_ws g0 ex_lr_object K
                (fun _ _ _ w => (Ok 1, w)) 2%nat 0 (1, (0, tt)) tt eq_refl (fun _ _ _ _ => eq_refl) (fun _ _ _ _ => ex_intro _ 1 eq_refl))
      as (y' & g' & [] & tr & l & E & _ & _ & _ & _ & HX).
    exists g0, y', g', tr. split; [exact K|]. split; [exact E|].
    set (m := [(0 + 1 + 1, 1, lr_second name); (0 + 1, 1, lr_first name); (0, 0, (1, (0, tt)))] : accepted R V2).
    apply (HX m).
    - split; [|exists 0, (firstn 2 m); reflexivity].
      destruct Hn as [->|[->| ->]]; cbn [linked m map snd]; (split; [reflexivity|]; split; [|split; [reflexivity|]; split; [|exact I]]);
        (split; [exact (proj1 (lr_weight _ _ _ _))|]); lr_eq.
    - eapply (n_steps_fixed o _ _ _ _ 1) in E; [rewrite E; reflexivity| |reflexivity].
      intros k t d w dt w' Ep. cbv [split_pol] in Ep. injection Ep as <- _. reflexivity.
  Qed.
  (** ... of which the theorems on dissipative equations speak *)
  Example ex_lr_integrated : forall name, name = BDF1 \/ name = BDF2 \/ name = CrankNicolson ->
    exists tr, integrated_std unit eps no xt cf (mat_ops eps 2 2) (tid 2) lr_user name 0 (1, (0, tt)) tr /\ forward_in_time tr /\ steps_not_growing tr /\
      reports tr = [(0%Z, 0, (1, (0, tt))); (1%Z, 0 + 1, lr_first name); (2%Z, 0 + 1 + 1, lr_second name)].
  Proof.
    intros name Hn. destruct (ex_lr_run name Hn) as (g0 & y' & g' & tr & E0 & E1 & E2). exists tr. split.
    - unfold lr_g0 in E0. eapply (IntegratedSteps o) with (num := 2%nat); [exists 0%nat; reflexivity|exact ex_lr_object|exact E0|reflexivity|exact E1].
    - split; [|split; [|exact E2]]; unfold forward_in_time, steps_not_growing; rewrite E2; intros.
      + repeat match goal with h : In _ _ |- _ => cbn in h end.
        repeat match goal with h : _ \/ _ |- _ => destruct h | h : False |- _ => contradiction end;
          repeat match goal with h : (_, _, _) = (_, _, _) |- _ => injection h; clear h; intros; subst end; try lia; lra.
      + repeat match goal with h : In _ _ |- _ => cbn in h end.
        repeat match goal with h : _ \/ _ |- _ => destruct h | h : False |- _ => contradiction end;
          repeat match goal with h : (_, _, _) = (_, _, _) |- _ => injection h; clear h; intros; subst end; try lia; lra.
  Qed.
  (** ... so that BDF1 never increases the distance from another start *)
  Example ex_lr_apart : forall y0 tr tr', integrated_std unit eps no xt cf (mat_ops eps 2 2) (tid 2) lr_user BDF1 0 (1, (0, tt)) tr ->
    integrated_std unit eps no xt cf (mat_ops eps 2 2) (tid 2) lr_user BDF1 0 y0 tr' -> same_times tr tr' -> forward_in_time tr ->
    apart eps (tvec o 2) (tdot o (n:=2)) (fun _ => length_of (tdot o (n:=2)) (vminus o (tvec o 2) (1, (0, tt)) y0)) tr tr'.
  Proof.
    intros y0 tr tr' H1 H2 Hs Hf.
    exact (C82_stable_bdf1 eps _ _ _ _ nat unit _ nat unit no (tapply o) (tapply o) (tuple_laws eps 2 2) (mat_ops eps 2 2) (tid 2) (mat_space eps 2 2)
             (proj2 (ex_tuple_matrices eps 2)) xt xt ex_lr_linear ex_lr_linear cf cf (ex_lr_settings _ (or_intror eq_refl)) (ex_lr_settings _ (or_intror eq_refl))
             lr_user lr_user osc drive _ (proj1 (ex_lr_inner 2)) (proj2 (ex_lr_inner 2)) (ex_lr_square 2) ex_lr_dissipative ex_lr_user ex_lr_user
             0 0 _ y0 tr tr' H1 H2 Hs Hf).
  Qed.
  (** From 0 to 5/2, with or without recovery: at most three steps of size 1 *)
  Example ex_lr_target : forall name recovery fuel, 0 <= eps -> name = BDF1 \/ name = BDF2 \/ name = CrankNicolson -> (3 < fuel)%nat ->
    exists g0 y' g' tr, lr_g0 name = Ok g0 /\
      to_target o (mk_user (split_obs (fun _ _ _ w => (Ok tt, w))) (split_pol (fun _ _ _ w => (Ok (1, 1 / 10, 2), w))) noop_guess
        (split_step (implicit_fn (stp name)))) recovery fuel 0 (5 / 2) ((1, (0, tt)), (g0, tt), []) = (Ok tt, (y', (g', tt), tr)).
  Proof.
    intros name recovery fuel He Hn Hf.
    assert (K : exists g0, lr_g0 name = Ok g0) by (destruct Hn as [->|[->| ->]]; eexists; reflexivity). destruct K as [g0 K].
    destruct (C82_to_target eps _ _ _ _ nat unit no (tapply o) (tapply o) (tuple_laws eps 2 2) (mat_ops eps 2 2) (tid 2) (mat_space eps 2 2)
                (proj2 (ex_tuple_matrices eps 2)) xt ex_lr_linear cf (ex_lr_settings _ (or_intror eq_refl)) lr_user osc drive ex_lr_user name
                (fun _ _ _ w => (Ok tt, w)) _ _ _ _ lr_ws g0 ex_lr_object K
                (fun _ _ _ w => (Ok (1, 1 / 10, 2), w)) recovery 1 3%nat fuel 0 (5 / 2) (1, (0, tt)) tt He (fun _ _ _ _ => eq_refl))
      as (y' & g' & [] & tr & l & E & _); [|lra|cbn; lra|exact Hf|reflexivity|exists g0, y', g', tr; split; [exact K|exact E]].
    intros k t x u. exists 1, (1 / 10), 2. split; [reflexivity|]. repeat split; lra.
  Qed.
  (** Mass matrix diag(2, 3) *)
  Definition lr_g0m (name : scheme) :=
    implicit_create o name ((0, (0, tt)) : V2) ((0, (0, tt)) : V2) (mk_mpol (tid 2) ((0, (0, tt)) : V2) (0, (0, tt)) (-1) 0%nat) (0, (0, tt)) lr_ws.
  Definition lr_second_mm (name : scheme) : V2 := match name with BDF2 => (31 / 29, (6 / 29, tt)) | _ => (8 / 7, (2 / 7, tt)) end.
  Notation stpm name := (implicit_step o (policy_mm o (tvec o 2) (mat_ops eps 2 2) (tapply o) lr_user) (as_solver (root_solve o no xt cf)) name).
  Example ex_lr_run_mm : forall name, name = BDF1 \/ name = BDF2 ->
    exists g0 y' g' tr, lr_g0m name = Ok g0 /\
      advance_n_steps o (mk_user (split_obs (fun _ _ _ w => (Ok tt, w))) (pol3 (split_pol (fun _ _ _ w => (Ok 1, w)))) noop_guess
        (split_step (implicit_fn (stpm name)))) (Z.of_nat 2) 0 ((1, (0, tt)), (g0, tt), []) = (Ok tt, (y', (g', tt), tr)) /\
      reports tr = [(0%Z, 0, (1, (0, tt))); (1%Z, 0 + 1, (1, (0, tt))); (2%Z, 0 + 1 + 1, lr_second_mm name)].
  Proof.
    intros name Hn.
    assert (K : exists g0, lr_g0m name = Ok g0) by (destruct Hn as [->| ->]; eexists; reflexivity). destruct K as [g0 K].
    destruct (C82_n_steps_mass_matrix eps _ _ _ _ nat unit no (tapply o) (tapply o) (tuple_laws eps 2 2) (mat_ops eps 2 2) (tid 2) (mat_space eps 2 2)
                (proj2 (ex_tuple_matrices eps 2)) xt ex_lr_linear cf (ex_lr_settings _ (or_intror eq_refl)) lr_user osc drive mass23 ex_lr_user_mm name Hn
                (fun _ _ _ w => (Ok tt, w)) _ _ _ _ lr_ws g0 ex_lr_object K
                (fun _ _ _ w => (Ok 1, w)) 2%nat 0 (1, (0, tt)) tt eq_refl (fun _ _ _ _ => eq_refl) (fun _ _ _ _ => ex_intro _ 1 eq_refl))
      as (y' & g' & [] & tr & l & E & _ & _ & _ & _ & HX).
    exists g0, y', g', tr. split; [exact K|]. split; [exact E|].
    set (m := [(0 + 1 + 1, 1, lr_second_mm name); (0 + 1, 1, (1, (0, tt))); (0, 0, (1, (0, tt)))] : accepted R V2).
    apply (HX m).
    - split; [|exists 0, (firstn 2 m); reflexivity].
      destruct Hn as [->| ->]; cbn [linked m map snd]; (split; [reflexivity|]; split; [|split; [reflexivity|]; split; [|exact I]]);
        (split; [exact (proj2 (lr_weight _ _ _ _))|]); lr_eq.
    - eapply (n_steps_fixed o _ _ _ _ 1) in E; [rewrite E; reflexivity| |reflexivity].
      intros k t d w dt w' Ep. cbv [split_pol] in Ep. injection Ep as <- _. reflexivity.
  Qed.
End Ex.

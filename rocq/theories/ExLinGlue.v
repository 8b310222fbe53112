(** Concrete cases meeting the hypotheses of the theorems in [PropLinGlue.v]: LAPACK as in [LapackInst.v]. *)
From Coq Require Import Reals ZArith List Lra Lia.
From Verif Require Import Base RInst Laws LawInst AdvanceModel AdvanceSpec AdvanceProofs Track ExplicitModel ImplicitModel ImplicitSpec
  NonlinDiag NonlinModel NonlinSpec NonlinLaws NonlinExact NonlinMoreSpec ExLinRun CompleteRun Tuples QrModel QrSpec QrProofs QrSolve QrExts QrEnd ExNonlin TupleMats
  LinRunSpec LinRunClaims LinsolveModel LinsolveSpec LapackInst LinGlue LinGlueProofs LinGlueRuns PropLinGlue.
Import ListNotations.
Local Open Scope R_scope.

Section Ex.
  Notation eps := 0.
  Notation o := (Rops 0).
  Notation lp := (Rlp 32 false).
  Example ex_lg_lapack : lapack_ok o lp.
  Proof. apply Rlp_ok. Qed.
  Definition lg_getrs n := C85_getrs eps lp ex_lg_lapack (S n) (Nat.lt_0_succ n).
  Definition lg_potrs n := C85_potrs eps lp ex_lg_lapack (S n) (Nat.lt_0_succ n) true.
  Definition lg_geqrf n := C85_geqrf eps lp ex_lg_lapack (S n) (Nat.lt_0_succ n).
  (** new objects *)
  Definition new_getrs : {x : mtx R | True} := exist _ (mk_mtx 0 0 (fun _ _ => 0)) I.
  Definition new_geqrf n : {x | geqrf_fit n x} := exist _ (gobj_new o) (or_introl eq_refl).
  (** Eigen: the factorisation is the matrix *)
  Definition lg_solve (A : mtx R) (b : vct R) : vct R := mk_vct (size b) (qr_solve (rows A) (ent A) (at_ b)).
  Example ex_lg_eigen : factorises eps (fun A => A) lg_solve.
  Proof. intros n A b H1 H2 H3. split; [exact H3|]. intros Hn. cbn. rewrite H1. exact (qr_solve_ok n (ent A) (at_ b) Hn). Qed.
  (** 2 x + y = 3, 7 x + 4 y = 10 *)
  Definition lgA : mat (S:=R) 2 2 := ((2, (7, tt)), ((1, (4, tt)), tt)).
  Definition lgb : tup R 2 := (-3, (-10, tt)).
  Example ex_lg_nonsingular : nonsingular o 2 (ent (as_mtx lgA)).
  Proof. apply nonsingular_rank. intros [x [y []]] E. cbn in E. injection E as E1 E2. cbn. repeat f_equal; lra. Qed.
  Definition lgsys (v r : tup R 2) (j : option (mat (S:=R) 2 2)) (w : nat) : outcome unit * (tup R 2 * option (mat (S:=R) 2 2) * nat) :=
    (Ok tt, (affine (tvec o 2) (tapply o) lgA lgb v, match j with Some _ => Some lgA | None => None end, Datatypes.S w)).
  Example ex_lg_computes : computes lgsys (affine (tvec o 2) (tapply o) lgA lgb) (fun _ => lgA).
  Proof. intros y r j w. eexists. eexists. split; [reflexivity|]. destruct j; reflexivity. Qed.
  Definition lg_cf := mk_config 100 WhenRelResidual (1 / 1000) UStandard None : config R.
  Definition lg_ws {X} (x : X) (v : tup R 2) : reg R (tup R 2) (tup R 2) (mat (S:=R) 2 2) (mat (S:=R) 2 2) (X * object eps 2 2) :=
    set_x v (new_reg o (tconst 0 2) (tconst 0 2) (tconst (tconst 0 2) 2) (tconst (tconst 0 2) 2) (x, new_object eps 2 2) root_diags).
  (** Newton's method from (0, 0) with a new geqrf object finds (2, -1). *)
  Example ex_lg_newton : forall w r s' w',
    exec lgsys (root_solve o (tuple_ops o sqrt 2 2) (root_exts (lg_geqrf 1) (mgs_exts eps 2 2 (fun r => r) (fun j => j) false)) lg_cf)
      (lg_ws (new_geqrf 2) (0, (0, tt)), w) = (r, (s', w')) ->
    r = Ok tt /\ (g_x s' = (2, (-1, tt)) \/ g_x s' = (0, (0, tt))).
  Proof.
    intros w r s' w' E.
    destruct (C85_newton eps 2 _ _ _ _ (lg_geqrf 1) (fun _ => I) (fun r => r) (fun j => j) nat lgsys lgA lgb ex_lg_computes ex_lg_nonsingular lg_cf
      (lg_ws (new_geqrf 2) (0, (0, tt))) w r s' w') as (ls & _ & Hr & K & _).
    - repeat split.
    - split; [exact I|]. cbn. exact I.
    - reflexivity.
    - cbn. lra.
    - cbn. unfold int32_max. lia.
    - exact E.
    - split; [exact Hr|]. destruct K as [[_ K]|[_ K]]; [right; exact K|left].
      destruct (g_x s') as [x [y []]]. cbn in K. injection K as K1 K2. repeat f_equal; lra.
  Qed.
  (** Gauss-Newton with potrs: three equations, two unknowns *)
  Definition lg_ls (v : tup R 2) : reg R (tup R 2) (tup R 3) (mat (S:=R) 3 2) (mat (S:=R) 2 2) ({x : mtx R | True} * object eps 3 2) :=
    set_x v (new_reg o (tconst 0 2) (tconst 0 3) (tconst (tconst 0 3) 2) (tconst (tconst 0 2) 2) (new_getrs, new_object eps 3 2) ls_diags).
  Example ex_lg_gauss_newton : forall w r s' w',
    exec (exaff eps) (ls_solve o (tuple_ops o sqrt 3 2) (ls_exts (lg_potrs 1) (mgs_exts eps 3 2 (fun r => r) (fun j => j) false)) GaussNewton
      (mk_config 100 WhenAbsCorrection (1 / 1000) UStandard None)) (lg_ls (5, (7, tt)), w) = (r, (s', w')) -> r = Ok tt.
  Proof.
    intros w r s' w' E.
    destruct (C85_gauss_newton eps 2 _ _ _ _ (lg_potrs 1) (fun _ h => h) 3 (fun r => r) (fun j => j) _ (exaff eps) (exA) (1, (2, (3, tt)))
      (proj1 (ex_affine eps)) (proj2 (ex_affine eps)) (mk_config 100 WhenAbsCorrection (1 / 1000) UStandard None) (lg_ls (5, (7, tt))) w r s' w') as (ls & _ & Hr & _).
    - repeat split.
    - reflexivity.
    - left. reflexivity.
    - cbn. lra.
    - cbn. unfold int32_max. lia.
    - exact E.
    - exact Hr.
  Qed.
  (** Two steps of size 1 of the oscillator from (1, 0), linear solves by a new getrs object *)
  Notation cf := (mk_config 100 WhenRelResidual (1 / 1000) UStandard None).
  Definition lg_g0 (name : scheme) :=
    implicit_create o name ((0, (0, tt)) : tup R 2) ((0, (0, tt)) : tup R 2) (mk_ppol (-1) 0%nat) (0, (0, tt)) (lg_ws new_getrs (0, (0, tt))).
  Notation xt := (root_exts (lg_getrs 1) (mgs_exts eps 2 2 (fun r => r) (fun j => j) false)).
  Notation stp name := (implicit_step o (policy_std o (tvec o 2) (mat_ops eps 2 2) (tid 2) (lr_user eps)) (as_solver (root_solve o (tuple_ops o sqrt 2 2) xt cf)) name).
  Example ex_lg_run : forall name, name = BDF1 \/ name = BDF2 \/ name = CrankNicolson ->
    exists g0 y' g' tr, lg_g0 name = Ok g0 /\
      advance_n_steps o (mk_user (split_obs (fun _ _ _ w => (Ok tt, w))) (pol3 (split_pol (fun _ _ _ w => (Ok 1, w)))) noop_guess
        (split_step (implicit_fn (stp name)))) (Z.of_nat 2) 0 ((1, (0, tt)), (g0, tt), []) = (Ok tt, (y', (g', tt), tr)) /\
      reports tr = [(0%Z, 0, (1, (0, tt))); (1%Z, 0 + 1, lr_first name); (2%Z, 0 + 1 + 1, lr_second name)].
  Proof.
    intros name Hn.
    assert (K : exists g0, lg_g0 name = Ok g0) by (destruct Hn as [->|[->| ->]]; eexists; reflexivity). destruct K as [g0 K].
    assert (Hob : root_object o (lg_ws new_getrs (0, (0, tt)))) by (repeat split).
    destruct (C85_n_steps eps 2 _ _ _ _ (lg_getrs 1) (fun _ => I) nat unit (fun r => r) (fun j => j) cf (ex_lr_settings _ (or_intror eq_refl))
                (lr_user eps) osc drive (ex_lr_user eps) name
                (fun _ _ _ w => (Ok tt, w)) _ _ _ _ (lg_ws new_getrs (0, (0, tt))) g0 Hob K
                (fun _ _ _ w => (Ok 1, w)) 2%nat 0 (1, (0, tt)) tt eq_refl (fun _ _ _ _ => eq_refl) (fun _ _ _ _ => ex_intro _ 1 eq_refl))
      as (y' & g' & [] & tr & l & E & _ & _ & _ & _ & HX).
    exists g0, y', g', tr. split; [exact K|]. split; [exact E|].
    set (m := [(0 + 1 + 1, 1, lr_second name); (0 + 1, 1, lr_first name); (0, 0, (1, (0, tt)))] : accepted R (tup R 2)).
    apply (HX m).
    - split; [|exists 0, (firstn 2 m); reflexivity].
      destruct Hn as [->|[->| ->]]; cbn [linked m map snd]; (split; [reflexivity|]; split; [|split; [reflexivity|]; split; [|exact I]]);
        (split; [apply nonsingular_rank; exact (proj1 (proj1 (lr_weight eps _ _ _ _)))|]); lr_eq.
    - eapply (n_steps_fixed o _ _ _ _ 1) in E; [rewrite E; reflexivity| |reflexivity].
      intros k t d w dt w' Ep. cbv [split_pol] in Ep. injection Ep as <- _. reflexivity.
  Qed.
End Ex.

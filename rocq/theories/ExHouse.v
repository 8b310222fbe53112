(** Concrete cases meeting the hypotheses of the theorems in [PropHouse.v]. *)
From Coq Require Import Reals ZArith List Bool Lra Lia.
From Verif Require Import Base RInst Laws NonlinDiag NonlinModel NonlinSpec NonlinLaws Tuples QrModel QrSpec QrSolve
  ExNonlin HouseModel HouseSpec HouseProofs HouseEnd HouseExts HouseInst PropHouse.
Import ListNotations.
Local Open Scope R_scope.

Section Ex.
  Variable eps : R.
  Notation o := (Rops eps).
  (** A factorisation as Eigen documents it exists. *)
  Example ex_house_householder : householder eps (hh_gs eps).
  Proof. apply hh_gs_ok. Qed.
  (** An object that has factorised a matrix of another size before. *)
  Definition used : hst (S:=R) := snd (compute_house o (hh_gs eps) (mk_dmat 2 [[1; 0]]) ([], new_house)).
  Example ex_house_used : valid used.
  Proof. unfold used, valid. cbn. lia. Qed.
  Example ex_house_last : exists g, compute_house o (hh_gs eps) (dense exA) used = (Ok tt, g) /\
    same_answers o g (snd (compute_house o (hh_gs eps) (dense exA) ([], new_house))).
  Proof.
    pose proof ex_house_used as V. destruct used as [st h].
    destruct (C87_last_matrix R o (hh_gs eps) (dense exA) st h V) as (g & E & _ & K). eauto.
  Qed.
  (** Three equations, two unknowns. *)
  Example ex_house_least_squares : exists g q d, compute_house o (hh_gs eps) (dense exA) used = (Ok tt, g) /\
    apply_qt_house o [1; 2; 3] [0; 0] g = (Ok q, g) /\ solve_house o q [0; 0] g = (Ok (tlist d), g) /\
    forall z, n_rnorm (tuple_ops o sqrt 3 2) (vadd (tvec o 3) (tapply o exA d) (vscale (tvec o 3) (-1) (1, (2, (3, tt))))) <=
              n_rnorm (tuple_ops o sqrt 3 2) (vadd (tvec o 3) (tapply o exA z) (vscale (tvec o 3) (-1) (1, (2, (3, tt))))).
  Proof.
    pose proof ex_house_used as V. destruct used as [st h].
    exact (C87_least_squares eps (hh_gs eps) ex_house_householder 3 2 exA (proj2 (ex_affine eps)) st h (1, (2, (3, tt))) [0; 0] [0; 0] V eq_refl eq_refl).
  Qed.
  Definition hcf := mk_config 100 WhenAbsCorrection (1 / 1000) UStandard None : config R.
  Definition hls (v : tup R 2) : reg R (tup R 2) (tup R 3) (mat (S:=R) 3 2) (mat (S:=R) 2 2) hobject :=
    set_x v (new_reg o (tconst 0 2) (tconst 0 3) (tconst (tconst 0 3) 2) (tconst (tconst 0 2) 2) new_hobject ls_diags).
  Example ex_house_gauss_newton : forall w r s' w',
    exec (exaff eps) (ls_solve o (tuple_ops o sqrt 3 2) (house_exts eps (hh_gs eps) 3 2 (fun r => r) (fun j => j)) GaussNewtonQr hcf)
      (hls (5, (7, tt)), w) = (r, (s', w')) -> r = Ok tt.
  Proof.
    intros w r s' w' E.
    destruct (C87_gauss_newton eps (hh_gs eps) ex_house_householder 3 2 (fun r => r) (fun j => j) _ (exaff eps) exA (1, (2, (3, tt)))
      (proj1 (ex_affine eps)) (proj2 (ex_affine eps)) hcf (hls (5, (7, tt))) w r s' w') as (ls & _ & Hr & _).
    - repeat split.
    - reflexivity.
    - left. reflexivity.
    - cbn. lra.
    - cbn. unfold int32_max. lia.
    - exact E.
    - exact Hr.
  Qed.
  (** Copies: a 3 by 1 matrix has neither the rows nor the columns of a 2 by 2 one; a 2 by 1 matrix shares the rows. *)
  Example ex_house_other_size : exists st1 h1 st2 h2,
    compute_house o (hh_gs eps) (mk_dmat 2 [[1; 0]; [1; 1]]) ([], new_house) = (Ok tt, (st1, h1)) /\
    compute_house o (hh_gs eps) (mk_dmat 3 [[1; 2; 2]]) (st1, h1) = (Ok tt, (st2, h2)) /\ same_answers o (st2, h1) (st1, h1).
  Proof.
    destruct (compute_ok o (hh_gs eps) (mk_dmat 2 [[1; 0]; [1; 1]]) [] new_house I) as (st1 & p & E & _).
    eexists st1, _. destruct (C88_other_size_partial R o (hh_gs eps) (mk_dmat 2 [[1; 0]; [1; 1]]) (mk_dmat 3 [[1; 2; 2]]) [] new_house st1 _ I E) as (st2 & h2 & E2 & K);
      [cbn; lia|cbn; lia|]. exists st2, h2. split; [exact E|]. split; [exact E2|exact K].
  Qed.
  Example ex_house_same_size : exists st1 h1 st2 h2,
    compute_house o (hh_gs eps) (mk_dmat 2 [[1; 0]; [1; 1]]) ([], new_house) = (Ok tt, (st1, h1)) /\
    compute_house o (hh_gs eps) (mk_dmat 2 [[3; 4]]) (st1, h1) = (Ok tt, (st2, h2)) /\
    fst (q_factor (st2, h1)) = fst (q_factor (snd (compute_house o (hh_gs eps) (mk_dmat 2 [[3; 4]]) ([], new_house)))).
  Proof.
    destruct (compute_ok o (hh_gs eps) (mk_dmat 2 [[1; 0]; [1; 1]]) [] new_house I) as (st1 & p & E & _).
    eexists st1, _. destruct (C88_same_size R o (hh_gs eps) (mk_dmat 2 [[1; 0]; [1; 1]]) (mk_dmat 2 [[3; 4]]) [] new_house st1 _ I E) as (st2 & h2 & E2 & K);
      [left; reflexivity|]. exists st2, h2. split; [exact E|]. split; [exact E2|exact K].
  Qed.
  (** A second object, not a copy. *)
  Example ex_house_unrelated : exists st2 h2, compute_house o (hh_gs eps) (mk_dmat 2 [[3; 4]]) (fst used, new_house) = (Ok tt, (st2, h2)) /\
    same_answers o (st2, snd used) used.
  Proof.
    pose proof ex_house_used as V. assert (D : h_Q (snd used) = Some 0%nat) by reflexivity. destruct used as [st h]. cbn [fst snd] in *.
    destruct (C88_unrelated_objects R o (hh_gs eps) (mk_dmat 2 [[3; 4]]) st new_house h I V) as (st2 & h2 & E & _ & K); [rewrite D; discriminate|]. eauto.
  Qed.
  Example ex_house_tpetra : exists g, compute_thouse o (hh_gs eps) (dense exA) ([], new_thouse) = (Ok tt, g) /\
    same_answers_t o g (snd (compute_house o (hh_gs eps) (dense exA) ([], new_house))).
  Proof. destruct (C87_tpetra R o (hh_gs eps) (dense exA) [] new_thouse I) as (g & E & _ & K). eauto. Qed.
  Example ex_house_tpetra_copy : exists st1 t1 st2 t2, compute_thouse o (hh_gs eps) (dense exA) ([], new_thouse) = (Ok tt, (st1, t1)) /\
    compute_thouse o (hh_gs eps) (mk_dmat 3 [[1; 2; 2]]) (st1, t1) = (Ok tt, (st2, t2)) /\ fst (q_factor_t (st2, t1)) = fst (q_factor_t (st1, t1)).
  Proof.
    destruct (C87_tpetra R o (hh_gs eps) (dense exA) [] new_thouse I) as ([st1 t1] & E & V & _). cbn [fst snd] in V.
    destruct (C88_tpetra R o (hh_gs eps) (mk_dmat 3 [[1; 2; 2]]) st1 t1 V) as (st2 & t2 & E2 & K & _). eauto 10.
  Qed.
End Ex.

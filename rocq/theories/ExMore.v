(** Concrete cases meeting the hypotheses of the theorems in [PropMore.v]. *)
From Coq Require Import Reals ZArith List Bool Lra Lia QArith Qcanon.
From Verif Require Import Base RInst QcInst AdvanceModel AdvanceSpec NonlinDiag NonlinModel NonlinSpec NonlinClaims NonlinLaws Tuples
  QrModel QrSpec QrSolve QrExts QrEnd PropQr ExNonlin LspgModel ProblemObjects ProblemObjectsSpec ProblemObjectsProofs MoreSpec MoreClaims PropMore.
Import ListNotations.

Section Ex.
  Local Open Scope R_scope.
  Variable eps : R.
  Notation o := (Rops eps).
  Definition dls (v : tup R 2) : reg R (tup R 2) (tup R 3) (mat (S:=R) 3 2) (mat (S:=R) 2 2) (object eps 3 2) :=
    set_x v (new_reg o (tconst 0 2) (tconst 0 3) (tconst (tconst 0 3) 2) (tconst (tconst 0 2) 2) (new_object eps 3 2) ls_diags).
  Lemma ex_tol : 0 < f_tol (default_config o).
  Proof. unfold default_config, f_tol. change (sdiv o (s1 o)) with (Rdiv 1). rewrite NonlinReal.sZ_R. lra. Qed.
  (** Three equations, two unknowns, Gauss-Newton with Gram-Schmidt, default settings. *)
  Example ex_default : forall w r s' w',
    exec (exaff eps) (ls_solve o (tuple_ops o sqrt 3 2) (mgs_exts eps 3 2 (fun r => r) (fun j => j) false) GaussNewtonQr (default_config o))
      (dls (5, (7, tt)), w) = (r, (s', w')) -> exists ls, g_log s' = ls /\ default_rule (g_x s') ls.
  Proof.
    intros w r s' w' E. pose proof E as E'.
    destruct (gn_mgs eps 3 2 (fun r => r) (fun j => j) _ (exaff eps) exA (1, (2, (3, tt)))
      (proj1 (ex_affine eps)) (proj2 (ex_affine eps)) GaussNewtonQr (default_config o) (dls (5, (7, tt))) w r s' w') as (ls & _ & Hr & _).
    - repeat split.
    - right. reflexivity.
    - reflexivity.
    - left. reflexivity.
    - exact ex_tol.
    - cbn. unfold int32_max. lia.
    - exact E.
    - subst r. destruct (C21_default_least_squares eps _ _ _ _ _ _ (tuple_ops o sqrt 3 2) (mgs_exts eps 3 2 (fun r => r) (fun j => j) false) (exaff eps) (fun r => r) (fun j => j) GaussNewtonQr (dls (5, (7, tt))) w s' w') as (l & K1 & K2).
      + repeat split.
      + intros y r j w0 e z Ez. pose proof (f_equal fst Ez) as Q. unfold exaff in Q. cbn [fst] in Q. rewrite <- Q. exact I.
      + pose proof (mgs_weights eps 3 2 (fun r => r) (fun j => j) false) as [W1 W2 W3 W4]. clear E E'.
        split; [exact W1|exact W2| |]; intros ? ? ? e z Ew En.
        * exact (False_ind _ (W3 _ _ _ _ _ Ew En)).
        * exact (False_ind _ (W4 _ _ _ _ _ Ew En)).
      + exact E'.
      + exists l. split; [exact K1|exact K2].
  Qed.
End Ex.
Example ex_moved_from : Forall not_copied [UCreate 0; UStep 0] /\ correct_use ([UCreate 0; UStep 0] ++ [UMove 0 1; UDestroy 1]) nothing.
Proof. split; [repeat constructor|]. cbn. repeat split; discriminate. Qed.
Example ex_short : (length [tt; tt] < asserted_size NMinusOne)%nat.
Proof. cbn. lia. Qed.
(** One step of size 1 that throws: no retry, or two retries. *)
Definition fails_above (limit : Qc) (s : Qc) (t : Qc) (k : Z) (h : Qc) (w : nat) : outcome unit * (Qc * nat) :=
  if sltb QcS limit h then (Throw ETimeStep, (s, w)) else (Ok tt, (Qcplus s h, S w)).
Example ex_point : fst (advance_to_target_point QcS noop_obs (fun _ _ _ w => (Ok (Q2Qc 1), w)) (fails_above (Q2Qc (1 # 4))) 20 (Q2Qc 0) (Q2Qc 1) (Q2Qc 0, O, [])) = Throw ETimeStep.
Proof. vm_compute. reflexivity. Qed.
Example ex_recovery : fst (with_step_recovery_args QcS noop_obs (fun _ _ _ w => (Ok (Q2Qc 1, Q2Qc (1 # 100), Q2Qc 2), w)) (fails_above (Q2Qc (1 # 4))) 20 (Q2Qc 0) (Q2Qc 1) (Q2Qc 0, O, [])) = Ok tt.
Proof. vm_compute. reflexivity. Qed.

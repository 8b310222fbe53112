(** Concrete cases meeting the hypotheses of the theorems in [PropReuse.v]. *)
From Coq Require Import Reals ZArith List Bool Lia Lra.
From Verif Require Import Base QcInst RInst Laws LawInst NonlinDiag NonlinModel NonlinSpec Tuples
  QrModel QrSpec QrProofs QrSolve QrExts QrEnd ReuseSpec ReuseProofs ReuseProofs2 ExNonlin.
Import ListNotations.
Local Open Scope R_scope.

Section Ex.
  Variable eps : R.
  Notation o := (Rops eps).
  (** linear solves by modified Gram-Schmidt, of any size, which throw or not if the
      matrix is singular; the QR object keeps its factors *)
  Example ex_reproducible : forall m n wr wj b,
    reproducible (mgs_exts eps m n wr wj b) (fun _ => True)
      (fun l l' => mg_Q (proj1_sig l') = mg_Q (proj1_sig l) /\ mg_R (proj1_sig l') = mg_R (proj1_sig l)).
  Proof.
    intros m n wr wj b. split.
    - intros j r c c' l l' _ _. cbn [mgs_exts x_newton]. destruct b; [destruct (tup_dec _ _ _)|];
        (split; [exact I|split; [exact I|split; [reflexivity|intro Hx; first [discriminate Hx|repeat split; auto]]]]).
    - intros j r c c' l l' _ _. cbn [mgs_exts x_normal]. destruct b; [destruct (tup_dec _ _ _)|];
        (split; [exact I|split; [exact I|split; [reflexivity|intro Hx; first [discriminate Hx|repeat split; auto]]]]).
    - intros j l l' _ _. cbn [mgs_exts x_thin].
      destruct (thin_stored eps m n j l) as [A1 [A2 A3]]. destruct (thin_stored eps m n j l') as [B1 [B2 B3]].
      split; [exact I|]. split; [exact I|]. rewrite A1, B1. cbn [fst].
      split; [reflexivity|]. intros _. rewrite A2, A3, B2, B3. split; reflexivity.
    - intros r c c' l l' _ _ [E1 E2]. cbn [mgs_exts x_qtr]. destruct (mg_Q (proj1_sig l)) eqn:E0; rewrite E1;
        (split; [exact I|split; [exact I|split; [reflexivity|intro Hx; first [discriminate Hx|split; [reflexivity|split; congruence]]]]]).
    - intros q c c' l l' _ _ [E1 E2]. cbn [mgs_exts x_rsolve]. rewrite E2. repeat split.
    - intros r c c' l l' _ _. cbn. repeat split.
    - intros r c c' l l' _ _. cbn. repeat split.
  Qed.
  Example ex_overwrites : overwrites exsys /\ keeps_jacobian exsys.
  Proof.
    split.
    - intros y r r' j j' w F. cbn. repeat split. destruct j, j'; try reflexivity; exfalso; [destruct F as [_ F]|destruct F as [F _]];
        specialize (F eq_refl); discriminate.
    - intros y r j w. cbn. discriminate.
  Qed.
  Notation xt := (mgs_exts eps 3 2 exwr exwj false).
  Notation no := (tuple_ops o sqrt 3 2).
  (** a new object, and one that has made a Gauss-Newton solve with a line search *)
  Example ex_used : exists g g2, used o (ls_solve o no xt GaussNewton) (fun _ => True) ls_diags g /\
    used o (ls_solve o no xt GaussNewton) (fun _ => True) ls_diags g2 /\ g_log g = [] /\
    exists w, exec exsys (ls_solve o no xt GaussNewton (mk_config 5 WhenAbsResidual (1 / 1000) UBacktrack None))
                (set_x (3, (1, tt)) g, 0%nat) = (fst w, (g2, snd w)).
  Proof.
    set (g := new_reg o (tconst 0 2) (tconst 0 3) (tconst (tconst 0 3) 2) (tconst (tconst 0 2) 2) (new_object eps 3 2) ls_diags).
    destruct (exec exsys (ls_solve o no xt GaussNewton (mk_config 5 WhenAbsResidual (1 / 1000) UBacktrack None))
                (set_x (3, (1, tt)) g, 0%nat)) as [r [g2 w]] eqn:E.
    exists g, g2. split; [apply used_new; exact I|]. split; [|split; [reflexivity|]].
    - eapply used_solve; [apply ex_overwrites|apply used_new; exact I|exact E].
    - exists (r, w). exact E.
  Qed.
End Ex.

(** A case meeting the hypotheses of [PropMatrixFree.v]: the system of [ExNonlin.v]
    without its first equation, and a linear solver that finds the matrix from its products
    with the unit vectors. *)
From Coq Require Import Reals ZArith List Bool Lra.
From Verif Require Import Base RInst Laws LawInst NonlinDiag NonlinModel NonlinSpec NonlinLaws NonlinExact NonlinTheory
  Tuples QrModel QrSpec QrProofs QrSolve QrExts ExNonlin MatrixFreeModel MatrixFreeSpec.
Local Open Scope R_scope.

Section Ex.
  Variable eps : R.
  Notation o := (Rops eps).
  Fixpoint columns {L n k} : tup (tup R n) k -> (tup (tup R n) k -> ktree (tup R n) L) -> ktree (tup R n) L :=
    match k with
    | O => fun _ cont => cont tt
    | Datatypes.S m => fun us cont => KApply (fst us) (tconst 0 n) (fun a => columns (snd us) (fun m => cont (a, m)))
    end.
  Definition by_columns {L} n (r c : tup R n) (l : L) : ktree (tup R n) L :=
    columns (tid n) (fun m => KDone (Ok tt) (direct eps n m r) l).
  Lemma columns_pure : forall L n k (no : nlops R (tup R n) (tup R n) (mat (S:=R) n n) (mat (S:=R) n n)) (A : tup R n -> tup R n)
      (us : tup (tup R n) k) (cont : tup (tup R n) k -> ktree (tup R n) L), n_vo no = tvec o n ->
    kpure o no A (columns us cont) = kpure o no A (cont (tmap A us)).
  Proof.
    intros L n k no A us cont Hvo. induction k as [|k IH]; [destruct us; reflexivity|]. cbn [columns kpure tmap].
    rewrite IH. f_equal. f_equal. f_equal. rewrite Hvo. pose proof (tuple_inner eps n) as HI. unfold upd1.
    apply (dot_ext _ _ HI). intros z. rewrite (in_add _ _ HI), !(in_scale _ _ HI).
    change (tconst 0 n) with (vzero (tvec o n)). rewrite (dot_0_l _ _ HI). change (s1 o) with 1. ring.
  Qed.
  Lemma unit_columns : forall m n (j : mat (S:=R) m n), tmap (tapply o j) (tid n) = j.
  Proof.
    intros m n j. pose proof (tuple_inner eps m) as HI. induction n as [|n IH]; [destruct j; reflexivity|].
    destruct j as [c j]. cbn [tid tmap]. f_equal.
    - cbn [tapply fst snd]. apply (dot_ext _ _ HI). intros z. rewrite (in_add _ _ HI), (in_scale _ _ HI).
      change (tconst 0 n) with (vzero (tvec o n)). pose proof (lin_scale _ _ _ (tapply_lin o (R_field eps) m n j) 0 (vzero (tvec o n))) as E.
      assert (E0 : vscale (tvec o n) 0 (vzero (tvec o n)) = vzero (tvec o n)).
      { pose proof (tuple_inner eps n) as HN. apply (dot_ext _ _ HN). intros y. rewrite (in_scale _ _ HN). ring_simplify. symmetry. apply (dot_0_l _ _ HN). }
      rewrite E0 in E. rewrite E, (in_scale _ _ HI). cbn [fst snd]. ring.
    - transitivity (tmap (tapply o j) (tid n)); [|apply IH]. generalize (tid n) as us. clear IH. 
      assert (K : forall k (us : tup (tup R n) k), tmap (tapply (m:=m) (n:=Datatypes.S n) o (c, j)) (tmap2 pair (tconst 0 k) us) = tmap (tapply o j) us).
      { induction k as [|k IHk]; intros us; [destruct us; reflexivity|]. cbn [tmap tmap2 tconst fst snd]. rewrite IHk. f_equal.
        cbn [tapply fst snd]. apply (dot_ext _ _ HI). intros z. rewrite (in_add _ _ HI), (in_scale _ _ HI). ring. }
      apply K.
  Qed.
  Example ex_same_corrections : forall n wr wj,
    same_corrections o (tuple_ops o sqrt n n) (mgs_exts eps n n wr wj false) (by_columns n) (tapply o).
  Proof.
    intros n wr wj j r c l. unfold by_columns. rewrite columns_pure by reflexivity. rewrite unit_columns. reflexivity.
  Qed.
  (** x + y^2 = 0, x = 1, failing when the first unknown is negative *)
  Definition mfF (v : tup R 2) : tup R 2 := let '(x, (y, _)) := v in (x + y * y, (x - 1, tt)).
  Definition mfDF (v : tup R 2) : mat (S:=R) 2 2 := let '(x, (y, _)) := v in ((1, (1, tt)), ((2 * y, (0, tt)), tt)).
  Definition mf_res (v r : tup R 2) (w : nat) : outcome unit * (tup R 2 * nat) :=
    if Rlt_dec (fst v) 0 then (Throw EResidualEvaluation, (r, w)) else (Ok tt, (mfF v, S w)).
  Definition mf_rj (v r : tup R 2) (j : option (mat (S:=R) 2 2)) (w : nat) : outcome unit * (tup R 2 * option (mat (S:=R) 2 2) * nat) :=
    if Rlt_dec (fst v) 0 then (Throw EResidualEvaluation, (r, j, w))
    else (Ok tt, (mfF v, match j with Some _ => Some (mfDF v) | None => None end, S w)).
  Definition mf_app (v x out : tup R 2) (u : nat) : outcome unit * (tup R 2 * nat) := (Ok tt, (tapply o (mfDF v) x, S u)).
  Example ex_same_problem : same_residual mf_rj mf_res mfDF /\ jacobian_action (tuple_ops o sqrt 2 2) mf_app mfDF (tapply o).
  Proof.
    split.
    - intros y r j w. unfold mf_rj, mf_res. destruct (Rlt_dec (fst y) 0).
      + do 4 eexists. repeat split. discriminate.
      + do 4 eexists. repeat split.
    - intros y x u. eexists. reflexivity.
  Qed.
End Ex.

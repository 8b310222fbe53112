(** Matrices as a vector space, and the identity matrix. *)
From Coq Require Import Reals List Lra.
From Verif Require Import Base RInst Laws LawInst NonlinDiag NonlinModel NonlinLaws NonlinExact Tuples NonlinWitness ImplicitModel ImplicitSpec NonlinMoreSpec QrSpec QrSolve.
Local Open Scope R_scope.

Section Mats.
  Variable eps : R.
  Notation o := (Rops eps).
  Definition mat_ops (m n : nat) : vops R (mat (S:=R) m n) :=
    mk_vops (tconst (vzero (tvec o m)) n) (tmap2 (vadd (tvec o m))) (fun a => tmap (vscale (tvec o m) a)).
  Lemma mat_space : forall m n, vspace o (mat_ops m n).
  Proof.
    intros m n. pose proof (tvec_space o (R_field eps) m) as HV.
    split; cbn [vadd vscale vzero mat_ops]; induction n as [|n IH]; intros;
      repeat match goal with x : mat _ 0 |- _ => destruct x | x : mat _ (Datatypes.S _) |- _ => destruct x as [? x] end;
      cbn [tmap2 tmap tconst fst snd]; try reflexivity; f_equal; try apply IH; try apply HV.
  Qed.
  Fixpoint tid (n : nat) : mat (S:=R) n n :=
    match n with
    | O => tt
    | Datatypes.S k => ((1, tconst 0 k), tmap2 pair (tconst 0 k) (tid k))
    end.
  Lemma mat_add : forall m n (a b : mat (S:=R) m n) x, tapply o (vadd (mat_ops m n) a b) x = vadd (tvec o m) (tapply o a x) (tapply o b x).
  Proof.
    intros m n a b x. pose proof (tuple_inner eps m) as HI. induction n as [|n IH].
    - cbn [tapply]. apply (dot_ext _ _ HI). intros z. rewrite (in_add _ _ HI), !(dot_0_l _ _ HI). ring.
    - cbn [tapply]. cbn [mat_ops vadd tmap2 fst snd] in *. rewrite IH. apply (dot_ext _ _ HI). intros z.
      change (tmap2 (sadd o) (fst a) (fst b)) with (vadd (tvec o m) (fst a) (fst b)).
      change (vadd (tvec o m)) with (vadd (tvec o m)).
      repeat (rewrite (in_add _ _ HI) || rewrite (in_scale _ _ HI)). ring.
  Qed.
  Lemma mat_scale : forall m n c (a : mat (S:=R) m n) x, tapply o (vscale (mat_ops m n) c a) x = vscale (tvec o m) c (tapply o a x).
  Proof.
    intros m n c a x. pose proof (tuple_inner eps m) as HI. induction n as [|n IH].
    - cbn [tapply]. apply (dot_ext _ _ HI). intros z. rewrite (in_scale _ _ HI), !(dot_0_l _ _ HI). ring.
    - cbn [tapply]. cbn [mat_ops vscale tmap fst snd] in *. rewrite IH. apply (dot_ext _ _ HI). intros z.
      repeat (rewrite (in_add _ _ HI) || rewrite (in_scale _ _ HI)). ring.
  Qed.
  Lemma mat_id : forall n x, tapply o (tid n) x = x.
  Proof.
    induction n as [|n IH]; intros x; [destruct x; reflexivity|]. destruct x as [a x]. cbn [tapply tid fst snd].
    rewrite (tapply_row o (R_field eps)), IH. cbn [vadd vscale tvec tmap2 tmap fst snd]. f_equal.
    - change (a * 1 + tdot o (vzero (tvec o n)) x = a). rewrite (tdot_zero o (R_field eps)). change (a * 1 + 0 = a). ring.
    - change (vadd (tvec o n) (vscale (tvec o n) a (vzero (tvec o n))) x = x). pose proof (tuple_inner eps n) as HI.
      apply (dot_ext _ _ HI). intros z. rewrite (in_add _ _ HI), (in_scale _ _ HI), (dot_0_l _ _ HI). ring.
  Qed.
  Lemma tuple_matrices : forall n, vspace o (mat_ops n n) /\ matrices (tvec o n) (mat_ops n n) (tid n) (tapply o).
  Proof.
    intros n. split; [apply mat_space|]. split.
    - apply mat_add.
    - apply mat_scale.
    - apply mat_id.
    - intros a x y. apply (lin_add _ _ _ (tapply_lin o (R_field eps) n n a)).
    - intros a c x. apply (lin_scale _ _ _ (tapply_lin o (R_field eps) n n a)).
  Qed.
End Mats.

(** Vectors of n entries and matrices of m rows and n columns over any scalar type, and
    the laws of [NonlinLaws] for the real ones, of every size. Used in examples. *)
From Coq Require Import Reals ZArith List Lra Lia.
From Verif Require Import Base RInst Laws LawInst NonlinDiag NonlinModel NonlinSpec NonlinLaws.
Import ListNotations.

Fixpoint tup (A : Type) (n : nat) : Type :=
  match n with O => unit | Datatypes.S m => (A * tup A m)%type end.
Fixpoint tmap {A B} (f : A -> B) {n} : tup A n -> tup B n :=
  match n with
  | O => fun _ => tt
  | Datatypes.S m => fun v => (f (fst v), tmap f (snd v))
  end.
Fixpoint tmap2 {A B C} (f : A -> B -> C) {n} : tup A n -> tup B n -> tup C n :=
  match n with
  | O => fun _ _ => tt
  | Datatypes.S m => fun v w => (f (fst v) (fst w), tmap2 f (snd v) (snd w))
  end.
Fixpoint tconst {A} (a : A) n : tup A n :=
  match n with O => tt | Datatypes.S m => (a, tconst a m) end.

Section Ops.
  Context {S : Type} (o : sops S).
  Definition tvec n : vops S (tup S n) :=
    mk_vops (tconst (s0 o) n) (tmap2 (sadd o)) (fun a => tmap (smul o a)).
  Fixpoint tsum {n} : tup S n -> S :=
    match n with O => fun _ => s0 o | Datatypes.S m => fun v => sadd o (fst v) (tsum (snd v)) end.
  Definition tdot {n} (v w : tup S n) : S := tsum (tmap2 (smul o) v w).
  (** matrices: tuples of columns *)
  Definition mat m n := tup (tup S m) n.
  Fixpoint tapply {m n} : mat m n -> tup S n -> tup S m :=
    match n with
    | O => fun _ _ => vzero (tvec m)
    | Datatypes.S k => fun j v => vadd (tvec m) (vscale (tvec m) (fst v) (fst j)) (tapply (snd j) (snd v))
    end.
  Definition ttr {m n} (j : mat m n) (r : tup S m) : tup S n := tmap (fun col => tdot col r) j.
  Definition tjtj {m n k} (a : mat m n) (b : mat m k) : mat n k := tmap (fun col => ttr a col) b.
  Fixpoint tdiag {n} : mat n n -> tup S n :=
    match n with
    | O => fun _ => tt
    | Datatypes.S k => fun h => (fst (fst h), tdiag (tmap snd (snd h)))
    end.
  Fixpoint tadddiag {n} (mu : S) : mat n n -> mat n n :=
    match n with
    | O => fun h => h
    | Datatypes.S k => fun h =>
        ((sadd o (fst (fst h)) (smul o mu (fst (fst h))), snd (fst h)),
         tmap2 pair (tmap fst (snd h)) (tadddiag mu (tmap snd (snd h))))
    end.
  Definition tuple_ops (root : S -> S) m n : nlops S (tup S n) (tup S m) (mat m n) (mat n n) :=
    mk_nlops (tvec n) (fun v => root (tdot v v)) tdot (fun r => root (tdot r r)) tdot
      ttr tjtj (fun h mu => tadddiag mu h) (fun h v => tmap2 (smul o) v (tdiag h)).
End Ops.

Section AlgebraLaws.
  Context {S : Type} (o : sops S).
  Hypothesis HF : sfield o.
  Add Field tuple_field : (sfield_th o HF).
  Lemma tup_eq : forall A n (v w : tup A (Datatypes.S n)), fst v = fst w -> snd v = snd w -> v = w.
  Proof. intros A n [a v] [b w]; cbn; intros -> ->; reflexivity. Qed.
  Lemma tvec_space : forall n, vspace o (tvec o n).
  Proof.
    intros n. split; cbn; induction n as [|n IH]; intros;
      repeat match goal with x : tup _ 0 |- _ => destruct x | x : tup _ (Datatypes.S _) |- _ => destruct x as [? x] end;
      cbn in *; try reflexivity; f_equal; try apply IH; ring.
  Qed.
  Lemma tsum_add : forall n (v w : tup S n), tsum o (tmap2 (sadd o) v w) = sadd o (tsum o v) (tsum o w).
  Proof. induction n as [|n IH]; intros v w; cbn; [ring|]. rewrite IH. ring. Qed.
  Lemma tdot_sym : forall n (v w : tup S n), tdot o v w = tdot o w v.
  Proof. unfold tdot. induction n as [|n IH]; intros v w; cbn; [reflexivity|]. rewrite (IH (snd v) (snd w)). ring. Qed.
  Lemma tdot_add : forall n (x y z : tup S n), tdot o (vadd (tvec o n) x y) z = sadd o (tdot o x z) (tdot o y z).
  Proof. unfold tdot. induction n as [|n IH]; intros x y z; cbn; [ring|]. cbn in IH. rewrite IH. ring. Qed.
  Lemma tdot_scale : forall n a (x z : tup S n), tdot o (vscale (tvec o n) a x) z = smul o a (tdot o x z).
  Proof. unfold tdot. induction n as [|n IH]; intros a x z; cbn; [ring|]. cbn in IH. rewrite IH. ring. Qed.
  Lemma tdot_zero : forall n (z : tup S n), tdot o (vzero (tvec o n)) z = s0 o.
  Proof. unfold tdot. induction n as [|n IH]; intros z; cbn; [ring|]. cbn in IH. rewrite IH. ring. Qed.
  Lemma tapply_lin : forall m n (j : mat (S:=S) m n), linear (tvec o n) (tvec o m) (tapply o j).
  Proof.
    intros m n j. pose proof (tvec_space m) as HV. split.
    - induction n as [|n IH]; intros x y; cbn [tapply].
      + symmetry. apply (va_0_l _ _ HV).
      + change (snd (vadd (tvec o (Datatypes.S n)) x y)) with (vadd (tvec o n) (snd x) (snd y)). rewrite IH.
        change (fst (vadd (tvec o (Datatypes.S n)) x y)) with (sadd o (fst x) (fst y)).
        rewrite (vs_add_l _ _ HV). rewrite <- !(va_assoc _ _ HV). f_equal.
        rewrite !(va_assoc _ _ HV). f_equal. apply (va_comm _ _ HV).
    - induction n as [|n IH]; intros a x; cbn [tapply].
      + rewrite <- (vs_0 _ _ HV (vzero (tvec o m))) at 2. rewrite (vs_mul _ _ HV).
        replace (smul o a (s0 o)) with (s0 o) by ring. symmetry. apply (vs_0 _ _ HV).
      + change (snd (vscale (tvec o (Datatypes.S n)) a x)) with (vscale (tvec o n) a (snd x)). rewrite IH.
        change (fst (vscale (tvec o (Datatypes.S n)) a x)) with (smul o a (fst x)).
        rewrite (vs_add_r _ _ HV), (vs_mul _ _ HV). reflexivity.
  Qed.
  Lemma ttr_adjoint : forall m n (j : mat (S:=S) m n) r v, tdot o (ttr o j r) v = tdot o r (tapply o j v).
  Proof.
    intros m. induction n as [|n IH]; intros j r v.
    - cbn [tapply]. rewrite tdot_sym, (tdot_sym _ r), tdot_zero. reflexivity.
    - cbn [tapply]. rewrite (tdot_sym _ r), tdot_add, tdot_scale, (tdot_sym _ _ r), (tdot_sym _ (tapply o (snd j) (snd v)) r), <- IH.
      unfold tdot at 1. cbn. fold (tdot o (tmap (fun col => tdot o col r) (snd j)) (snd v)).
      unfold ttr. rewrite (tdot_sym _ r (fst j)). ring.
  Qed.
  Lemma ttr_lin : forall m n (j : mat (S:=S) m n), linear (tvec o m) (tvec o n) (ttr o j).
  Proof.
    intros m n j. split.
    - intros x y. unfold ttr. induction n as [|n IH]; [reflexivity|]. apply tup_eq; cbn; [|apply IH].
      rewrite tdot_sym. change (tmap2 (sadd o) x y) with (vadd (tvec o m) x y). rewrite tdot_add, !(tdot_sym _ (fst j)). reflexivity.
    - intros a x. unfold ttr. induction n as [|n IH]; [reflexivity|]. apply tup_eq; cbn; [|apply IH].
      rewrite tdot_sym. change (tmap (smul o a) x) with (vscale (tvec o m) a x). rewrite tdot_scale, (tdot_sym _ (fst j)). reflexivity.
  Qed.
  Lemma lin_zero : forall (V V' : Type) (vo : vops S V) (vo' : vops S V') f, vspace o vo -> vspace o vo' -> linear vo vo' f -> f (vzero vo) = vzero vo'.
  Proof. intros V V' vo vo' f H1 H2 Hl. rewrite <- (vs_0 _ _ H1 (vzero vo)), (lin_scale _ _ _ Hl). apply (vs_0 _ _ H2). Qed.
  Lemma tjtj_apply : forall m n k (a : mat (S:=S) m n) (b : mat (S:=S) m k) v,
    tapply o (tjtj o a b) v = ttr o a (tapply o b v).
  Proof.
    intros m n. induction k as [|k IH]; intros a b v; cbn [tapply].
    - symmetry. apply lin_zero; [apply tvec_space|apply tvec_space|apply ttr_lin].
    - rewrite (lin_add _ _ _ (ttr_lin m n a)), (lin_scale _ _ _ (ttr_lin m n a)), <- IH. reflexivity.
  Qed.
  (** a matrix with a row on top *)
  Lemma tapply_row : forall m n (row : tup S n) (M : mat (S:=S) m n) v,
    tapply o (n:=n) (m:=Datatypes.S m) (tmap2 pair row M) v = (tdot o row v, tapply o M v).
  Proof.
    intros m. induction n as [|n IH]; intros row M v; cbn [tapply]; [reflexivity|].
    cbn [tmap2 snd fst]. rewrite IH. cbn. f_equal. unfold tdot. cbn. ring.
  Qed.
  Lemma pair_split : forall A B n (M : tup (A * B) n), M = tmap2 pair (tmap fst M) (tmap snd M).
  Proof. intros A B. induction n as [|n IH]; intros M; [destruct M; reflexivity|]. destruct M as [[a b] M]. cbn. f_equal. apply IH. Qed.
  Lemma tadddiag_apply : forall n (h : mat (S:=S) n n) mu v,
    tapply o (tadddiag o mu h) v =
    vadd (tvec o n) (tapply o h v) (vscale (tvec o n) mu (tmap2 (smul o) v (tdiag h))).
  Proof.
    induction n as [|n IH]; intros h mu v; [reflexivity|].
    destruct h as [[a c] rest]. destruct v as [x v]. cbn [tadddiag tapply fst snd tdiag tmap2].
    rewrite tapply_row, IH.
    replace (tapply o rest v) with (tapply o (m:=Datatypes.S n) (n:=n) (tmap2 pair (tmap fst rest) (tmap snd rest)) v) by (f_equal; symmetry; apply (pair_split S (tup S n))).
    rewrite tapply_row. cbn [vadd vscale tvec tmap2 tmap fst snd]. apply tup_eq; cbn [fst snd]; [ring|].
    pose proof (tvec_space n) as HV. cbn in HV.
    exact (va_assoc _ _ (tvec_space n) _ _ _).
  Qed.
  Lemma tdiag_jtj : forall m n (a b : mat (S:=S) m n), tdiag (tjtj o a b) = tmap2 (tdot o) a b.
  Proof.
    intros m. induction n as [|n IH]; intros a b; [reflexivity|].
    cbn [tdiag tmap2]. apply tup_eq; cbn [fst snd]; [reflexivity|]. rewrite <- IH. f_equal.
    unfold tjtj. cbn. generalize (snd b). clear. intros b. 
    assert (K : forall k (b : mat m k), tmap snd (tmap (fun col => ttr o a col) b) = tmap (fun col => ttr o (snd a) col) b).
    { induction k as [|k IH]; intros b'; [reflexivity|]. cbn. f_equal. apply IH. }
    apply K.
  Qed.
End AlgebraLaws.

Section RealLaws.
  Local Open Scope R_scope.
  Variable eps : R.
  Notation o := (Rops eps).
  Notation HF := (R_field eps).
  Lemma tdot_pos : forall n (v : tup R n), 0 <= tdot o v v.
  Proof.
    unfold tdot. induction n as [|n IH]; intros v; cbn; [apply Rle_refl|].
    change (0 <= fst v * fst v + tsum o (tmap2 (smul o) (snd v) (snd v))). specialize (IH (snd v)).
    pose proof (Rle_0_sqr (fst v)) as K. unfold Rsqr in K. lra.
  Qed.
  Lemma tdot_zero_inv : forall n (v : tup R n), tdot o v v = 0 -> v = vzero (tvec o n).
  Proof.
    induction n as [|n IH]; intros v Hv; [destruct v; reflexivity|].
    unfold tdot in Hv. cbn in Hv. change (fst v * fst v + tdot o (snd v) (snd v) = 0) in Hv.
    pose proof (tdot_pos n (snd v)) as P. pose proof (Rle_0_sqr (fst v)) as K. unfold Rsqr in K.
    apply tup_eq; cbn; [|apply IH; lra].
    assert (E : fst v * fst v = 0) by lra. apply Rmult_integral in E. destruct E; assumption.
  Qed.
  Lemma tuple_inner : forall n, inner eps (tvec o n) (tdot o).
  Proof.
    intros n. split.
    - apply tvec_space, HF.
    - intros x y. apply (tdot_sym o HF).
    - intros x y z. apply (tdot_add o HF).
    - intros a x y. apply (tdot_scale o HF).
    - apply tdot_pos.
    - apply tdot_zero_inv.
  Qed.
  Theorem tuple_laws : forall m n, nl_laws eps (tuple_ops o sqrt m n) (tvec o m) (tapply o) (tapply o).
  Proof.
    intros m n. split; cbn [n_vo n_norm n_dot n_rnorm n_rdot n_jtr n_jtj n_adddiag n_diagmul tuple_ops].
    - apply tuple_inner.
    - apply tuple_inner.
    - reflexivity.
    - reflexivity.
    - intros j. apply (tapply_lin o HF).
    - intros h. apply (tapply_lin o HF).
    - intros j r v. apply (ttr_adjoint o HF).
    - intros a b v. apply (tjtj_apply o HF).
    - intros h mu v. apply (tadddiag_apply o HF).
    - intros h. generalize (tdiag h). clear h. intros d v w. unfold tdot. induction n as [|n IH]; cbn; [reflexivity|].
      rewrite IH. change (fst v * fst d * fst w + tsum o (tmap2 (smul o) (snd v) (tmap2 (smul o) (snd w) (snd d))) =
                          fst v * (fst w * fst d) + tsum o (tmap2 (smul o) (snd v) (tmap2 (smul o) (snd w) (snd d)))). ring.
    - intros h. generalize (tdiag h). clear h. intros d. split.
      + induction n as [|n IH]; intros x y; [reflexivity|]. apply tup_eq; cbn; [|apply IH].
        change ((fst x + fst y) * fst d = fst x * fst d + fst y * fst d). ring.
      + induction n as [|n IH]; intros a x; [reflexivity|]. apply tup_eq; cbn; [|apply IH].
        change ((a * fst x) * fst d = a * (fst x * fst d)). ring.
    - intros j v. rewrite (tdiag_jtj o). unfold tdot at 1. induction n as [|n IH]; cbn; [apply Rle_refl|].
      specialize (IH (snd j) (snd v)).
      change (0 <= fst v * (fst v * tdot o (fst j) (fst j)) + tsum o (tmap2 (smul o) (snd v) (tmap2 (smul o) (snd v) (tmap2 (tdot o) (snd j) (snd j))))).
      pose proof (tdot_pos m (fst j)) as P. pose proof (Rle_0_sqr (fst v)) as K. unfold Rsqr in K.
      pose proof (Rmult_le_pos _ _ K P). lra.
  Qed.
End RealLaws.

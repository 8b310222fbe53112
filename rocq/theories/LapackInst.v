(** The documented behaviour of LAPACK ([lapack_ok]) is satisfiable: Householder
    QR (as in dgeqr2, dorm2r), back substitution, over the real numbers. *)
From Coq Require Import Reals Lra List Arith Lia Bool ZArith.
From Verif Require Import Base RInst Laws LawInst LinsolveModel LinsolveSpec LinsolveProofs.
Import ListNotations.
Local Open Scope R_scope.

Notation o := (Rops 0).
Notation sm := (ssum o).

Lemma sm_S : forall m k f, sm (S m) k f = f k + sm m (S k) f.
Proof. reflexivity. Qed.
Lemma sm_last : forall m k f, sm (S m) k f = sm m k f + f (k + m)%nat.
Proof.
  intros. replace (S m) with (m + 1)%nat by lia. rewrite (ssum_split o (R_field 0)). cbn. lra.
Qed.
Lemma sm_lin : forall m k a f g, sm m k (fun j => f j - a * g j) = sm m k f - a * sm m k g.
Proof. induction m; intros k a f g; [cbn; lra|]. rewrite !sm_S, IHm. lra. Qed.
Lemma sm_swap : forall m m' k k' f,
  sm m k (fun i => sm m' k' (fun j => f i j)) = sm m' k' (fun j => sm m k (fun i => f i j)).
Proof.
  induction m; intros m' k k' f.
  - cbn. symmetry. exact (ssum_0 o (R_field 0) m' k').
  - rewrite sm_S, IHm. rewrite <- (ssum_add o (R_field 0)). apply ssum_ext. intros j _.
    rewrite sm_S. reflexivity.
Qed.
Lemma sm_scale : forall m k c f, sm m k (fun j => c * f j) = c * sm m k f.
Proof. intros. exact (ssum_scale o (R_field 0) m k c f). Qed.
Lemma sm_ext : forall m k f g, (forall j, (k <= j < k + m)%nat -> f j = g j) -> sm m k f = sm m k g.
Proof. intros. apply ssum_ext. assumption. Qed.
Lemma sm_0 : forall m k f, (forall j, (k <= j < k + m)%nat -> f j = 0) -> sm m k f = 0.
Proof.
  intros. rewrite (sm_ext m k f (fun _ => 0)) by assumption. exact (ssum_0 o (R_field 0) m k).
Qed.
Lemma sm_pos : forall m k f, (forall j, 0 <= f j) -> 0 <= sm m k f.
Proof. induction m; intros k f H; [cbn; lra|]. rewrite sm_S. specialize (H k) as Hk. specialize (IHm (S k) f H). lra. Qed.
Lemma sm_sq_0 : forall m k f, sm m k (fun j => f j * f j) = 0 ->
  forall j, (k <= j < k + m)%nat -> f j = 0.
Proof.
  induction m; intros k f H j Hj; [lia|]. rewrite sm_S in H.
  pose proof (sm_pos m (S k) (fun j => f j * f j) (fun j => Rle_0_sqr (f j))) as Hp.
  pose proof (Rle_0_sqr (f k)) as Hk. unfold Rsqr in Hk.
  destruct (Nat.eq_dec j k) as [->|Hne].
  - assert (f k * f k = 0) as Hz by lra. apply Rmult_integral in Hz. tauto.
  - apply (IHm (S k) f); [lra|lia].
Qed.

Section N.
  Variable n : nat.

  (** I - tau v v' on the entries k .. n-1 *)
  Definition refl (k : nat) (tau : R) (v x : nat -> R) : nat -> R :=
    let c := sm (n - k) k (fun j => v j * x j) in
    fun i => if (k <=? i)%nat && (i <? n)%nat then x i - tau * c * v i else x i.
  Definition unitary (k : nat) (tau : R) (v : nat -> R) : Prop :=
    tau = 0 \/ tau * sm (n - k) k (fun j => v j * v j) = 2.

  Lemma refl_in : forall k tau v x i, (k <= i < n)%nat ->
    refl k tau v x i = x i - tau * sm (n - k) k (fun j => v j * x j) * v i.
  Proof.
    intros k tau v x i H. unfold refl.
    rewrite (proj2 (Nat.leb_le _ _)), (proj2 (Nat.ltb_lt _ _)) by lia. reflexivity.
  Qed.
  Lemma refl_out : forall k tau v x i, (i < k)%nat -> refl k tau v x i = x i.
  Proof.
    intros k tau v x i H. unfold refl. rewrite (proj2 (Nat.leb_gt k i)) by lia. reflexivity.
  Qed.
  Lemma refl_ext : forall k tau v v' x x', (forall i, (k <= i < n)%nat -> v i = v' i) ->
    (forall i, (i < n)%nat -> x i = x' i) ->
    forall i, (i < n)%nat -> refl k tau v x i = refl k tau v' x' i.
  Proof.
    intros k tau v v' x x' Hv Hx i Hi. destruct (Nat.le_gt_cases k i) as [H|H].
    - rewrite !refl_in by lia. rewrite (sm_ext _ _ _ (fun j => v' j * x' j)).
      + rewrite Hx, Hv by lia. reflexivity.
      + intros j Hj. rewrite Hx, Hv by lia. reflexivity.
    - rewrite !refl_out by lia. apply Hx. lia.
  Qed.
  Lemma refl_twice : forall k tau v x i, unitary k tau v -> (i < n)%nat ->
    refl k tau v (refl k tau v x) i = x i.
  Proof.
    intros k tau v x i Hu Hi. destruct (Nat.le_gt_cases k i) as [H|H].
    - rewrite (refl_in k tau v (refl k tau v x)) by lia.
      rewrite (sm_ext (n - k) k _ (fun j => v j * x j - (tau * sm (n - k) k (fun j => v j * x j)) * (v j * v j))).
      + rewrite sm_lin. rewrite refl_in by lia. set (c := sm (n - k) k (fun j => v j * x j)).
        set (w := sm (n - k) k (fun j => v j * v j)) in *.
        destruct Hu as [Hu|Hu]; fold w in Hu; [rewrite Hu; lra|].
        replace (tau * (c - tau * c * w)) with (tau * c - tau * w * (tau * c)) by lra.
        rewrite Hu. lra.
      + intros j Hj. rewrite refl_in by lia. lra.
    - rewrite !refl_out by lia. reflexivity.
  Qed.

  Definition col (A : nat -> nat -> R) (j : nat) : nat -> R := fun i => A i j.
  Definition mulv (A : nat -> nat -> R) (y : nat -> R) : nat -> R :=
    fun i => sm n 0 (fun j => A i j * y j).

  Lemma refl_mulv : forall k tau v A y i, (i < n)%nat ->
    mulv (fun i j => refl k tau v (col A j) i) y i = refl k tau v (mulv A y) i.
  Proof.
    intros k tau v A y i Hi. unfold mulv at 1. destruct (Nat.le_gt_cases k i) as [H|H].
    - rewrite refl_in by lia.
      rewrite (sm_ext n 0 _ (fun j => A i j * y j - (tau * v i) * (sm (n - k) k (fun l => v l * A l j) * y j))).
      + rewrite sm_lin. unfold mulv. f_equal.
        replace (sm (n - k) k (fun j => v j * sm n 0 (fun j0 => A j j0 * y j0)))
          with (sm n 0 (fun j => sm (n - k) k (fun l => v l * A l j) * y j)); [lra|].
        rewrite (sm_ext (n - k) k _ (fun l => sm n 0 (fun j => v l * A l j * y j))).
        * rewrite sm_swap. apply sm_ext. intros j _. rewrite Rmult_comm, <- sm_scale.
          apply sm_ext. intros l _. lra.
        * intros l _. rewrite <- sm_scale. apply sm_ext. intros j _. lra.
      + intros j Hj. rewrite refl_in by lia. unfold col. lra.
    - rewrite refl_out by lia. unfold mulv. apply sm_ext. intros j _.
      rewrite refl_out by lia. reflexivity.
  Qed.

  Lemma refl_solves : forall k tau v A y c, unitary k tau v ->
    solves o n (fun i j => refl k tau v (col A j) i) y (refl k tau v c) <-> solves o n A y c.
  Proof.
    intros k tau v A y c Hu.
    assert (forall i, (i < n)%nat -> sm n 0 (fun j => refl k tau v (col A j) i * y j) =
              refl k tau v (mulv A y) i) as Hm by (intros i Hi; apply refl_mulv; exact Hi).
    split; intros H i Hi.
    - assert (forall i, (i < n)%nat -> refl k tau v (mulv A y) i = refl k tau v c i) as He.
      { intros l Hl. rewrite <- Hm by exact Hl. apply H. exact Hl. }
      change (mulv A y i = c i). rewrite <- (refl_twice k tau v (mulv A y) i Hu Hi).
      rewrite <- (refl_twice k tau v c i Hu Hi). apply refl_ext; [reflexivity|exact He|exact Hi].
    - etransitivity; [apply Hm; exact Hi|]. apply refl_ext; [reflexivity|exact H|exact Hi].
  Qed.

  (** step k of dgeqr2 *)
  Definition norm2 (k : nat) (A : nat -> nat -> R) : R :=
    sm (n - S k) (S k) (fun j => A j k * A j k).
  Definition beta (k : nat) (A : nat -> nat -> R) : R :=
    let r := sqrt (A k k * A k k + norm2 k A) in if Rltb (A k k) 0 then r else - r.
  Definition hv (k : nat) (A : nat -> nat -> R) : nat -> R :=
    fun i => if (i =? k)%nat then 1 else A i k / (A k k - beta k A).
  Definition htau (k : nat) (A : nat -> nat -> R) : R :=
    if Reqb (norm2 k A) 0 then 0 else (beta k A - A k k) / beta k A.
  Definition hstep (k : nat) (A : nat -> nat -> R) : nat -> nat -> R :=
    if Reqb (norm2 k A) 0 then A else
    fun i j =>
      if (j <? k)%nat then A i j
      else if (j =? k)%nat
           then if (i <? k)%nat then A i j else if (i =? k)%nat then beta k A else hv k A i
           else refl k (htau k A) (hv k A) (col A j) i.

  Lemma beta_facts : forall k A, norm2 k A <> 0 ->
    beta k A * beta k A = A k k * A k k + norm2 k A /\ beta k A <> 0 /\ A k k - beta k A <> 0.
  Proof.
    intros k A Hn. assert (0 < norm2 k A) as Hp.
    { pose proof (sm_pos (n - S k) (S k) (fun j => A j k * A j k) (fun j => Rle_0_sqr (A j k))) as H.
      unfold norm2 in *. lra. }
    pose proof (Rle_0_sqr (A k k)) as Hs. unfold Rsqr in Hs.
    set (r := sqrt (A k k * A k k + norm2 k A)).
    assert (r * r = A k k * A k k + norm2 k A) as Hr by (apply sqrt_sqrt; lra).
    assert (0 < r) as Hr0 by (apply sqrt_lt_R0; lra).
    unfold beta. fold r. destruct (Rltb (A k k) 0) eqn:E.
    - apply Rltb_true in E. repeat split; lra.
    - apply Rltb_false in E. repeat split; try lra.
  Qed.
  Lemma unitary_h : forall k A, (k < n)%nat -> unitary k (htau k A) (hv k A).
  Proof.
    intros k A Hk. unfold unitary, htau. destruct (Reqb (norm2 k A) 0) eqn:E; [left; reflexivity|].
    right. apply Reqb_false in E. destruct (beta_facts k A E) as (Hb & Hb0 & Hd).
    replace (n - k)%nat with (S (n - S k)) by lia. rewrite sm_S.
    rewrite (sm_ext _ _ _ (fun j => / ((A k k - beta k A) * (A k k - beta k A)) * (A j k * A j k))).
    - rewrite sm_scale. fold (norm2 k A). unfold hv at 1 2. rewrite Nat.eqb_refl.
      replace (norm2 k A) with (beta k A * beta k A - A k k * A k k) by lra.
      field. split; assumption.
    - intros j Hj. unfold hv. rewrite (proj2 (Nat.eqb_neq _ _)) by lia. field. exact Hd.
  Qed.

  (** the matrix represented after k steps: zeros below the diagonal *)
  Definition clean (k : nat) (A : nat -> nat -> R) : nat -> nat -> R :=
    fun i j => if (j <? k)%nat && (j <? i)%nat then 0 else A i j.

  Lemma clean_step : forall k A, (k < n)%nat -> forall i j, (i < n)%nat -> (j < n)%nat ->
    clean (S k) (hstep k A) i j = refl k (htau k A) (hv k A) (col (clean k A) j) i.
  Proof.
    intros k A Hk i j Hi Hj. unfold hstep. destruct (Reqb (norm2 k A) 0) eqn:E.
    - (* nothing to do: tau = 0, the column is already zero *)
      assert (htau k A = 0) as -> by (unfold htau; rewrite E; reflexivity).
      assert (refl k 0 (hv k A) (col (clean k A) j) i = clean k A i j) as ->.
      { destruct (Nat.le_gt_cases k i); [rewrite refl_in by lia; unfold col; lra|].
        rewrite refl_out by lia. reflexivity. }
      unfold clean. apply Reqb_true in E. destruct (Nat.lt_trichotomy j k) as [H|[->|H]].
      + rewrite (proj2 (Nat.ltb_lt j (S k))), (proj2 (Nat.ltb_lt j k)) by lia. reflexivity.
      + rewrite (proj2 (Nat.ltb_lt k (S k))), (proj2 (Nat.ltb_ge k k)) by lia. cbn [andb].
        destruct (Nat.ltb_spec k i); [|reflexivity]. symmetry.
        apply (sm_sq_0 (n - S k) (S k) (fun j => A j k)); [exact E|lia].
      + rewrite (proj2 (Nat.ltb_ge j (S k))), (proj2 (Nat.ltb_ge j k)) by lia. reflexivity.
    - apply Reqb_false in E. destruct (beta_facts k A E) as (Hb & Hb0 & Hd).
      unfold clean at 1. destruct (Nat.lt_trichotomy j k) as [H|[->|H]].
      + (* earlier columns are zero in the rows k .. *)
        assert (refl k (htau k A) (hv k A) (col (clean k A) j) i = clean k A i j) as ->.
        { destruct (Nat.le_gt_cases k i) as [Hc|Hc]; [|rewrite refl_out by lia; reflexivity].
          rewrite refl_in by lia. rewrite sm_0; [unfold col; lra|].
          intros l Hl. unfold col, clean.
          rewrite (proj2 (Nat.ltb_lt j k)), (proj2 (Nat.ltb_lt j l)) by lia. cbn. lra. }
        unfold clean. rewrite (proj2 (Nat.ltb_lt j (S k))), (proj2 (Nat.ltb_lt j k)) by lia.
        reflexivity.
      + (* column k *)
        rewrite (proj2 (Nat.ltb_lt k (S k))) by lia. rewrite Nat.ltb_irrefl, Nat.eqb_refl.
        cbn [andb].
        assert (forall l, clean k A l k = A l k) as Hc.
        { intros l. unfold clean. rewrite Nat.ltb_irrefl. reflexivity. }
        destruct (Nat.le_gt_cases k i) as [H|H].
        * rewrite refl_in by lia.
          assert (sm (n - k) k (fun j => hv k A j * col (clean k A) k j) = - beta k A) as Hs.
          { replace (n - k)%nat with (S (n - S k)) by lia. rewrite sm_S.
            rewrite (sm_ext _ _ _ (fun j => / (A k k - beta k A) * (A j k * A j k))).
            - rewrite sm_scale. fold (norm2 k A). unfold hv, col. rewrite Nat.eqb_refl, Hc.
              replace (norm2 k A) with (beta k A * beta k A - A k k * A k k) by lra.
              field. exact Hd.
            - intros l Hl. unfold hv, col. rewrite (proj2 (Nat.eqb_neq l k)), Hc by lia.
              field. exact Hd. }
          rewrite Hs. unfold col. rewrite Hc. unfold htau.
          rewrite (proj2 (Reqb_false _ _) E).
          destruct (Nat.eqb_spec i k) as [->|Hne].
          -- rewrite !Nat.ltb_irrefl. unfold hv. rewrite Nat.eqb_refl. field. exact Hb0.
          -- rewrite (proj2 (Nat.ltb_lt k i)) by lia. unfold hv.
             rewrite (proj2 (Nat.eqb_neq _ _)) by lia. field. split; assumption.
        * rewrite (proj2 (Nat.ltb_ge k i)), (proj2 (Nat.ltb_lt i k)) by lia.
          rewrite refl_out by lia. unfold col. rewrite Hc. reflexivity.
      + rewrite (proj2 (Nat.ltb_ge j (S k))), (proj2 (Nat.ltb_ge j k)) by lia. cbn [andb].
        rewrite (proj2 (Nat.eqb_neq j k)) by lia. apply refl_ext; [reflexivity| |exact Hi].
        intros l Hl. unfold col, clean. rewrite (proj2 (Nat.ltb_ge j k)) by lia. reflexivity.
  Qed.

  (** columns before k, and the stored reflector *)
  Lemma hstep_before : forall k A i j, (j < k)%nat -> hstep k A i j = A i j.
  Proof.
    intros k A i j H. unfold hstep. destruct (Reqb _ _); [reflexivity|].
    rewrite (proj2 (Nat.ltb_lt _ _)) by lia. reflexivity.
  Qed.
  Definition stored (k : nat) (d : nat -> nat -> R) : nat -> R :=
    fun i => if (i =? k)%nat then 1 else d i k.
  Lemma stored_step : forall k A i, htau k A <> 0 -> (k <= i)%nat ->
    stored k (hstep k A) i = hv k A i.
  Proof.
    intros k A i Ht Hi. unfold stored, hstep, htau in *. destruct (Reqb _ _); [lra|].
    unfold hv. destruct (Nat.eqb_spec i k) as [->|Hne]; [reflexivity|].
    rewrite Nat.ltb_irrefl, Nat.eqb_refl, (proj2 (Nat.ltb_ge i k)) by lia.
    reflexivity.
  Qed.

  (** steps 0 .. k-1 *)
  Fixpoint steps (k : nat) (A : nat -> nat -> R) : (nat -> nat -> R) * list R :=
    match k with
    | 0 => (A, [])
    | S k => let (d, t) := steps k A in (hstep k d, t ++ [htau k d])
    end.
  Fixpoint qt (k : nat) (d : nat -> nat -> R) (t : list R) (b : nat -> R) : nat -> R :=
    match k with
    | 0 => b
    | S k => refl k (nth k t 0) (stored k d) (qt k d t b)
    end.

  Lemma steps_len : forall k A, length (snd (steps k A)) = k.
  Proof.
    induction k; intros A; [reflexivity|]. cbn. specialize (IHk A).
    destruct (steps k A) as [d t]. cbn in *. rewrite app_length, IHk. cbn. lia.
  Qed.
  Lemma qt_ext : forall k d d' t t' b, (forall i j, (j < k)%nat -> d i j = d' i j) ->
    (forall j, (j < k)%nat -> nth j t 0 = nth j t' 0) ->
    forall i, (i < n)%nat -> qt k d t b i = qt k d' t' b i.
  Proof.
    induction k; intros d d' t t' b Hd Ht i Hi; [reflexivity|]. cbn [qt].
    rewrite Ht by lia. apply refl_ext; [| |exact Hi].
    - intros l Hl. unfold stored. rewrite Hd by lia. reflexivity.
    - intros l Hl. apply IHk; auto.
  Qed.
  Lemma refl_tau0 : forall k v x i, refl k 0 v x i = x i.
  Proof.
    intros k v x i. unfold refl. destruct (_ && _); [lra|reflexivity].
  Qed.

  Lemma solves_ext2 : forall A A' y b b',
    (forall i j, (i < n)%nat -> (j < n)%nat -> A i j = A' i j) ->
    (forall i, (i < n)%nat -> b i = b' i) -> solves o n A y b -> solves o n A' y b'.
  Proof.
    intros A A' y b b' HA Hb H i Hi. rewrite <- (Hb i Hi), <- (H i Hi). apply sm_ext.
    intros j Hj. rewrite HA by lia. reflexivity.
  Qed.

  Lemma steps_solves : forall k A y b, (k <= n)%nat ->
    solves o n (clean k (fst (steps k A))) y (qt k (fst (steps k A)) (snd (steps k A)) b)
    <-> solves o n A y b.
  Proof.
    induction k; intros A y b Hk.
    - cbn. split; apply solves_ext2; reflexivity.
    - rewrite <- (IHk A y b) by lia. pose proof (steps_len k A) as Hlen. cbn [steps qt].
      destruct (steps k A) as [d t] eqn:Ed. cbn [fst snd] in *.
      rewrite <- (refl_solves k (htau k d) (hv k d) (clean k d) y (qt k d t b))
        by (apply unitary_h; lia).
      assert (forall i, (i < n)%nat ->
        refl k (nth k (t ++ [htau k d]) 0) (stored k (hstep k d)) (qt k (hstep k d) (t ++ [htau k d]) b) i =
        refl k (htau k d) (hv k d) (qt k d t b) i) as Hq.
      { intros i Hi. rewrite app_nth2, Hlen, Nat.sub_diag by lia. cbn [nth].
        assert (forall l, (l < n)%nat ->
                 qt k (hstep k d) (t ++ [htau k d]) b l = qt k d t b l) as Hx.
        { apply qt_ext; [intros; apply hstep_before; assumption|].
          intros j Hj. apply app_nth1. lia. }
        destruct (Req_EM_T (htau k d) 0) as [E|E].
        - rewrite E, !refl_tau0. rewrite <- E. apply Hx. exact Hi.
        - apply refl_ext; [|exact Hx|exact Hi]. intros l Hl. apply stored_step; [exact E|lia]. }
      split; apply solves_ext2.
      + intros i j Hi Hj. apply clean_step; lia.
      + exact Hq.
      + intros i j Hi Hj. symmetry. apply clean_step; lia.
      + intros i Hi. symmetry. apply Hq; exact Hi.
  Qed.

  Lemma clean_upper : forall d y c, solves o n (clean n d) y c <-> upper_solves o n d y c.
  Proof.
    intros d y c.
    assert (forall i, (i < n)%nat -> sm n 0 (fun j => clean n d i j * y j) =
              sm (n - i) i (fun j => d i j * y j)) as H.
    { intros i Hi. replace n with (i + (n - i))%nat at 1 by lia.
      rewrite (ssum_split o (R_field 0)). rewrite sm_0.
      - cbn [sadd Rops]. rewrite Rplus_0_l. apply sm_ext. intros j Hj. unfold clean.
        rewrite (proj2 (Nat.ltb_ge j i)), andb_false_r by lia. reflexivity.
      - intros j Hj. unfold clean. rewrite (proj2 (Nat.ltb_lt j n)), (proj2 (Nat.ltb_lt j i)) by lia.
        cbn. lra. }
    split; intros Hs i Hi; specialize (Hs i Hi).
    - rewrite <- Hs. symmetry. apply H. exact Hi.
    - rewrite <- Hs. apply H. exact Hi.
  Qed.

  Lemma qt_0 : forall k d t i, (i < n)%nat -> qt k d t (fun _ => 0) i = 0.
  Proof.
    induction k; intros d t i Hi; [reflexivity|]. cbn [qt].
    destruct (Nat.le_gt_cases k i); [|rewrite refl_out by lia; apply IHk; exact Hi].
    rewrite refl_in by lia. rewrite IHk by exact Hi. rewrite sm_0; [lra|].
    intros j Hj. rewrite IHk by lia. lra.
  Qed.
  Lemma qt_tau0 : forall k d b i, (k <= n)%nat -> qt k d (repeat 0 n) b i = b i.
  Proof.
    induction k; intros d b i Hk; [reflexivity|]. cbn [qt].
    replace (nth k (repeat 0 n) 0) with 0; [rewrite refl_tau0; apply IHk; lia|].
    symmetry. apply nth_repeat.
  Qed.

  (** back substitution: rows n-m .. n-1 *)
  Fixpoint back (m : nat) (d : nat -> nat -> R) (b : nat -> R) : nat -> R :=
    match m with
    | 0 => fun _ => 0
    | S m =>
        let y := back m d b in
        let i := (n - S m)%nat in
        fun j => if (j =? i)%nat
                 then (b i - sm (n - S i) (S i) (fun l => d i l * y l)) / d i i
                 else y j
    end.
  Lemma back_solves : forall m d b, (m <= n)%nat ->
    (forall i, (i < n)%nat -> d i i <> 0) ->
    forall i, (n - m <= i < n)%nat ->
      sm (n - i) i (fun j => d i j * back m d b j) = b i.
  Proof.
    induction m; intros d b Hm Hd i Hi; [lia|].
    assert (forall j, (n - m <= j)%nat -> back (S m) d b j = back m d b j) as Hsame.
    { intros j Hj. cbn [back]. rewrite (proj2 (Nat.eqb_neq _ _)) by lia. reflexivity. }
    destruct (Nat.eq_dec i (n - S m)) as [E|E].
    - replace (n - i)%nat with (S (n - S i)) by lia. rewrite sm_S.
      rewrite (sm_ext _ _ _ (fun l => d i l * back m d b l)).
      + cbn [back]. rewrite <- E, Nat.eqb_refl. field. apply Hd. lia.
      + intros j Hj. rewrite Hsame by lia. reflexivity.
    - rewrite <- (IHm d b ltac:(lia) Hd i ltac:(lia)). apply sm_ext.
      intros j Hj. rewrite Hsame by lia. reflexivity.
  Qed.
End N.

Lemma diagonal : forall n d,
  (forall y, upper_solves o n d y (fun _ => 0) -> forall i, (i < n)%nat -> y i = 0) ->
  forall i, (i < n)%nat -> d i i <> 0.
Proof.
  intros n d H i. induction i as [i IH] using lt_wf_ind. intros Hi E.
  set (z := back i i d (fun j => - d j i)).
  set (y := fun j => if (j <? i)%nat then z j else if (j =? i)%nat then 1 else 0).
  assert (forall r, (r < i)%nat -> sm (i - r) r (fun j => d r j * z j) = - d r i) as Hz.
  { intros r Hr. apply (back_solves i i d (fun j => - d j i)); [lia| |lia].
    intros j Hj. apply IH; lia. }
  assert (forall j, (j < i)%nat -> y j = z j) as Hlo
    by (intros j Hj; unfold y; rewrite (proj2 (Nat.ltb_lt _ _)) by lia; reflexivity).
  assert (y i = 1) as Hy by (unfold y; rewrite Nat.ltb_irrefl, Nat.eqb_refl; reflexivity).
  assert (forall j, (i < j)%nat -> y j = 0) as Hhi.
  { intros j Hj. unfold y. rewrite (proj2 (Nat.ltb_ge j i)), (proj2 (Nat.eqb_neq j i)) by lia.
    reflexivity. }
  enough (y i = 0) by lra. apply H; [|exact Hi]. intros r Hr. cbn [smul Rops].
  destruct (Nat.lt_trichotomy r i) as [Hc|[->|Hc]].
  - replace (n - r)%nat with ((i - r) + S (n - S i))%nat by lia.
    rewrite (ssum_split o (R_field 0)). replace (r + (i - r))%nat with i by lia. rewrite sm_S.
    rewrite (sm_ext (i - r) r _ (fun j => d r j * z j)) by (intros j Hj; rewrite Hlo by lia; reflexivity).
    rewrite (Hz r Hc), Hy. rewrite sm_0; [cbn [sadd Rops]; lra|].
    intros j Hj. rewrite Hhi by lia. lra.
  - replace (n - i)%nat with (S (n - S i)) by lia. rewrite sm_S, E.
    rewrite sm_0; [lra|]. intros j Hj. rewrite Hhi by lia. lra.
  - apply sm_0. intros j Hj. rewrite Hhi by lia. lra.
Qed.
Lemma diagonal_conv : forall n d, (forall i, (i < n)%nat -> d i i <> 0) ->
  forall y, upper_solves o n d y (fun _ => 0) -> forall i, (i < n)%nat -> y i = 0.
Proof.
  intros n d Hd y Hy.
  assert (forall m i, (m <= n)%nat -> (n - m <= i < n)%nat -> y i = 0) as H.
  { induction m; intros i Hm Hi; [lia|]. destruct (Nat.eq_dec i (n - S m)) as [E|E].
    - specialize (Hy i ltac:(lia)). cbn [smul Rops] in Hy.
      replace (n - i)%nat with (S (n - S i)) in Hy by lia. rewrite sm_S in Hy.
      rewrite sm_0 in Hy.
      + rewrite Rplus_0_r in Hy. apply Rmult_integral in Hy. destruct Hy as [Hy|Hy]; [|exact Hy].
        exfalso. exact (Hd i ltac:(lia) Hy).
      + intros j Hj. rewrite (IHm j) by lia. lra.
    - apply IHm; lia. }
  intros i Hi. apply (H n); lia.
Qed.

Definition qr_d n A := fst (steps n n A).
Definition qr_t n A := snd (steps n n A).
Definition qr_solve (n : nat) (A : nat -> nat -> R) (b : nat -> R) : nat -> R :=
  back n n (qr_d n A) (qt n n (qr_d n A) (qr_t n A) b).
Definition qr_info (n : nat) (A : nat -> nat -> R) : Z :=
  if forallb (fun i => negb (Reqb (qr_d n A i i) 0)) (seq 0 n) then 0%Z else 1%Z.

(** [block]: the size reported by a query is block * n (dgeqrf: 32 n) *)
Definition Rlp (block : nat) (stops : bool) : lapack R := mk_lapack
  (fun n => Nat.max 1 (Nat.max n (block * n))) stops
  (fun n A => steps n n A) (fun n d t b => qt n n d t b) (fun n d b => back n n d b)
  (fun n A => (A, [], qr_info n A)) (fun n d _ b => qr_solve n d b)
  (fun up n A => (symm up A, qr_info n (symm up A))) (fun _ n d b => qr_solve n d b).

Lemma qr_iff : forall n A y b,
  upper_solves o n (qr_d n A) y (qt n n (qr_d n A) (qr_t n A) b) <-> solves o n A y b.
Proof.
  intros n A y b. unfold qr_d, qr_t. rewrite <- clean_upper. apply steps_solves. lia.
Qed.
Lemma qr_nonsingular : forall n A, nonsingular o n A <-> forall i, (i < n)%nat -> qr_d n A i i <> 0.
Proof.
  intros n A. split.
  - intros H. apply diagonal. intros y Hy. apply H. apply qr_iff.
    intros i Hi. rewrite (Hy i Hi). symmetry. apply qt_0. exact Hi.
  - intros H y Hy. apply (diagonal_conv n (qr_d n A) H). apply qr_iff in Hy.
    intros i Hi. rewrite (Hy i Hi). apply qt_0. exact Hi.
Qed.
Lemma qr_info_0 : forall n A, qr_info n A = 0%Z <-> nonsingular o n A.
Proof.
  intros n A. rewrite qr_nonsingular. unfold qr_info.
  destruct (forallb _ (seq 0 n)) eqn:E; split; intros H; try reflexivity; try discriminate.
  - rewrite forallb_forall in E. intros i Hi. specialize (E i).
    apply Reqb_false. apply negb_true_iff. apply E. apply in_seq. lia.
  - exfalso. rewrite <- not_true_iff_false in E. apply E. apply forallb_forall.
    intros i Hi. apply in_seq in Hi. apply negb_true_iff, Reqb_false. apply H. lia.
Qed.
Lemma qr_solve_ok : forall n A b, nonsingular o n A -> solves o n A (qr_solve n A b) b.
Proof.
  intros n A b H. apply qr_iff. intros i Hi. unfold qr_solve.
  apply (back_solves n n (qr_d n A)); [lia| |lia]. apply qr_nonsingular. exact H.
Qed.
Lemma pd_nonsingular : forall n A, positive_definite o n A -> nonsingular o n A.
Proof.
  intros n A H y Hy i Hi. destruct (Req_EM_T (y i) 0) as [E|E]; [exact E|exfalso].
  specialize (H y (ex_intro _ i (conj Hi E))). cbn [sltb Rops s0] in H. apply Rltb_true in H.
  rewrite sm_0 in H; [lra|]. intros j Hj. cbn [smul Rops].
  pose proof (Hy j ltac:(lia)) as Ej. cbn [smul Rops s0] in Ej. rewrite Ej. lra.
Qed.

Lemma Rlp_ok : forall block stops, lapack_ok o (Rlp block stops).
Proof.
  intros block stops. constructor; cbn [Rlp lp_optimal lp_geqrf lp_ormqr lp_trsm lp_getrf lp_getrs lp_potrf lp_potrs].
  - intros n. lia.
  - intros n A d t E. pose proof (steps_len n n A) as Hl. pose proof (qr_iff n A) as Hq.
    unfold qr_d, qr_t in Hq. rewrite E in Hl, Hq. cbn [fst snd] in *.
    split; [exact Hl|]. split; [exact Hq|]. intros i Hi. apply qt_0. exact Hi.
  - intros n d b i Hi. apply qt_tau0. lia.
  - intros A. cbn. unfold htau, norm2. cbn. rewrite (proj2 (Reqb_true 0 0) eq_refl). reflexivity.
  - intros n d b H i Hi. apply (back_solves n n d b); [lia| |lia]. apply diagonal. exact H.
  - intros n A d p info E. injection E as <- <- <-. split; [apply qr_info_0|].
    intros Hi b. apply qr_solve_ok. apply qr_info_0. exact Hi.
  - intros up n A d info E. injection E as <- <-. split.
    + intros H. apply qr_info_0. apply pd_nonsingular. exact H.
    + intros Hi b. apply qr_solve_ok. apply qr_info_0. exact Hi.
Qed.

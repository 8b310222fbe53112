(** Proofs about subspaces (C33, C59). *)
From Coq Require Import ZArith List Bool Lia.
From Verif Require Import Base ExplicitModel ExplicitProofs SubspaceModel SubspaceSpec.
Import ListNotations.

Lemma nth_put {A} (l : list A) a v b : (a < length l)%nat ->
  nth_error (firstn a l ++ v :: skipn (Datatypes.S a) l) b = if Nat.eqb a b then Some v else nth_error l b.
Proof.
  revert a b. induction l as [|x l IH]; intros [|a] [|b] H; cbn in *; try lia; try reflexivity.
  apply IH. lia.
Qed.
Lemma length_put {A} (l : list A) a v : (a < length l)%nat ->
  length (firstn a l ++ v :: skipn (Datatypes.S a) l) = length l.
Proof.
  intros H. rewrite app_length. cbn [length]. rewrite firstn_length, skipn_length. lia.
Qed.
Lemma list_set_put {A} (l : list A) a v : (a < length l)%nat ->
  list_set l a v = Some (firstn a l ++ v :: skipn (Datatypes.S a) l).
Proof.
  revert a. induction l as [|x l IH]; intros [|a] H; cbn in *; try lia; try reflexivity.
  rewrite IH by lia. reflexivity.
Qed.
Lemma nth_error_lt {A} (l : list A) a v : nth_error l a = Some v -> (a < length l)%nat.
Proof. intros H. apply nth_error_Some. congruence. Qed.
Lemma nth_app_old {A} (l : list A) a v w : nth_error l a = Some v -> nth_error (l ++ [w]) a = Some v.
Proof. intros H. rewrite nth_error_app1; [exact H|]. apply nth_error_lt in H. exact H. Qed.
Lemma nth_app_lt {A} (l : list A) a w : (a < length l)%nat -> nth_error (l ++ [w]) a = nth_error l a.
Proof. intros H. apply nth_error_app1. exact H. Qed.
Lemma nth_app_new {A} (l : list A) w : nth_error (l ++ [w]) (length l) = Some w.
Proof. rewrite nth_error_app2 by lia. rewrite Nat.sub_diag. reflexivity. Qed.
Lemma put_new {A} (l : list A) v w :
  firstn (length l) (l ++ [v]) ++ w :: skipn (Datatypes.S (length l)) (l ++ [v]) = l ++ [w].
Proof.
  rewrite firstn_app, Nat.sub_diag, firstn_all. cbn [firstn]. rewrite app_nil_r. f_equal.
  rewrite skipn_all2; [reflexivity|]. rewrite app_length. cbn. lia.
Qed.

Lemma nth_error_same {A} (l l' : list A) : (forall i, nth_error l i = nth_error l' i) -> l = l'.
Proof.
  revert l'. induction l as [|x l IH]; intros [|y l'] H; [reflexivity|..].
  - specialize (H 0%nat). discriminate.
  - specialize (H 0%nat). discriminate.
  - pose proof (H 0%nat) as H0. cbn in H0. injection H0 as ->. f_equal. apply IH.
    intros i. exact (H (Datatypes.S i)).
Qed.

Section CallerFacts.
  Context {M V : Type}.
  Lemma caller_keeps am av (h : @mem M V) am' av' h' : caller am av h am' av' h' ->
    (forall a, ~ In a am -> (a < length (hm h))%nat -> nth_error (hm h') a = nth_error (hm h) a /\ ~ In a am') /\
    (forall a, ~ In a av -> (a < length (hv h))%nat -> nth_error (hv h') a = nth_error (hv h) a /\ ~ In a av').
  Proof.
    intros H. induction H as [am av h|am av h b m am' av' h' Hi Hl H IH|am av h b v am' av' h' Hi Hl H IH
                             |am av h m am' av' h' H IH|am av h v am' av' h' H IH].
    - split; intros a Ha _; (split; [reflexivity|exact Ha]).
    - destruct IH as [IHm IHv]. split; intros a Ha Hb.
      + destruct (IHm a Ha) as [E1 E2].
        { cbn [put_m hm]. rewrite length_put; assumption. }
        split; [|exact E2]. rewrite E1. cbn [put_m hm]. rewrite nth_put by exact Hl.
        destruct (Nat.eqb_spec b a) as [->|]; [contradiction|reflexivity].
      + exact (IHv a Ha Hb).
    - destruct IH as [IHm IHv]. split; intros a Ha Hb.
      + exact (IHm a Ha Hb).
      + destruct (IHv a Ha) as [E1 E2].
        { cbn [put_v hv]. rewrite length_put; assumption. }
        split; [|exact E2]. rewrite E1. cbn [put_v hv]. rewrite nth_put by exact Hl.
        destruct (Nat.eqb_spec b a) as [->|]; [contradiction|reflexivity].
    - destruct IH as [IHm IHv]. split; intros a Ha Hb.
      + destruct (IHm a) as [E1 E2].
        { cbn [In]. intros [E|E]; [lia|contradiction]. }
        { cbn [hm]. rewrite app_length. lia. }
        split; [|exact E2]. rewrite E1. cbn [hm]. apply nth_app_lt. exact Hb.
      + exact (IHv a Ha Hb).
    - destruct IH as [IHm IHv]. split; intros a Ha Hb.
      + exact (IHm a Ha Hb).
      + destruct (IHv a) as [E1 E2].
        { cbn [In]. intros [E|E]; [lia|contradiction]. }
        { cbn [hv]. rewrite app_length. lia. }
        split; [|exact E2]. rewrite E1. cbn [hv]. apply nth_app_lt. exact Hb.
  Qed.
End CallerFacts.

Section Sub.
  Context {S M V X : Type} (o : sops S) (vo : vops S V) (mprod : M -> X -> V) (mrows mcols : M -> nat).
  Variable xzeros : nat -> X.
  Variables mview vview : bool.
  Variables (mgone : M) (vgone : V).
  Hypothesis H1 : forall v, vscale vo (s1 o) v = v.
  Notation create := (sub_create vo mview vview mgone vgone).
  Notation heap := (@mem M V).

  (** The cells of [s] hold [phi] and the translation. *)
  Definition stands (h : heap) (s : sub) (phi : M) (t : V) (affine : bool) : Prop :=
    m_at h (ls_basis (sb_lin s)) phi /\ v_at h (sb_tr s) (if affine then t else vzero vo) /\
    sb_affine s = affine /\ ls_span (sb_lin s) = Columns.

  Lemma load_v_eq (h : heap) a v : v_at h a v -> load_v a h = (Ok v, h).
  Proof. intros H. cbv [load_v]. rewrite H. reflexivity. Qed.
  Lemma load_m_eq (h : heap) a m : m_at h a m -> load_m a h = (Ok m, h).
  Proof. intros H. cbv [load_m]. rewrite H. reflexivity. Qed.
  Lemma store_v_eq (h : heap) a v w : v_at h a v -> store_v a w h = (Ok tt, put_v h a w).
  Proof.
    intros H. cbv [store_v]. rewrite list_set_put by (apply nth_error_lt in H; exact H). reflexivity.
  Qed.
  Lemma store_m_eq (h : heap) a v w : m_at h a v -> store_m a w h = (Ok tt, put_m h a w).
  Proof.
    intros H. cbv [store_m]. rewrite list_set_put by (apply nth_error_lt in H; exact H). reflexivity.
  Qed.
  Lemma put_v_same (h : heap) a v w : v_at h a v -> v_at (put_v h a w) a w.
  Proof.
    intros H. cbv [v_at put_v hv]. rewrite nth_put by (apply nth_error_lt in H; exact H).
    rewrite Nat.eqb_refl. reflexivity.
  Qed.
  Lemma put_v_other (h : heap) a v w b : v_at h a v -> b <> a ->
    nth_error (hv (put_v h a w)) b = nth_error (hv h) b.
  Proof.
    intros H Hb. cbv [v_at] in H. cbn [put_v hv]. rewrite nth_put by (apply nth_error_lt in H; exact H).
    destruct (Nat.eqb_spec a b); [congruence|reflexivity].
  Qed.

  Lemma stands_maps h s phi t affine reach : stands h s phi t affine -> ~ In (sb_tr s) reach ->
    maps o vo mprod h s reach phi t affine.
  Proof.
    intros (Hm & Hv & Ha & _) Hr x y v Hy Hyv.
    assert (Hne : y <> sb_tr s) by (intros ->; contradiction).
    cbv [sub_map sub_map_linear bind]. rewrite (load_m_eq _ _ _ Hm). cbv beta iota.
    rewrite (load_v_eq _ _ _ Hyv). cbv beta iota. rewrite (store_v_eq _ _ _ _ Hyv). cbv beta iota.
    rewrite Ha. destruct affine.
    - pose proof (put_v_same h y v (mprod phi x) Hyv) as H2.
      rewrite (load_v_eq _ _ _ H2). cbv beta iota.
      assert (H3 : v_at (put_v h y (mprod phi x)) (sb_tr s) t).
      { cbv [v_at]. rewrite (put_v_other h y v) by (try exact Hyv; congruence). exact Hv. }
      rewrite (load_v_eq _ _ _ H3). cbv beta iota. rewrite (store_v_eq _ _ _ _ H2).
      eexists. split; [reflexivity|]. split; [|split].
      + cbv [image]. replace (vadd vo (mprod phi x) t)
          with (upd1 vo (mprod phi x) (s1 o) t (s1 o)) by (cbv [upd1]; rewrite !H1; reflexivity).
        eapply put_v_same. exact H2.
      + reflexivity.
      + intros a Hne'. rewrite (put_v_other _ y (mprod phi x)) by assumption.
        apply (put_v_other h y v); assumption.
    - eexists. split; [reflexivity|]. split; [|split].
      + eapply put_v_same. exact Hyv.
      + reflexivity.
      + intros a Hne'. apply (put_v_other h y v); assumption.
  Qed.

  Lemma stands_accessors h s phi t affine : stands h s phi t affine ->
    accessors o vo mprod mcols mrows xzeros h s phi t affine.
  Proof.
    intros HS. pose proof HS as (Hm & Hv & Ha & Hs). repeat split.
    - cbv [sub_translation]. apply load_v_eq. exact Hv.
    - cbv [sub_dimension linsub_dimension bind ret]. rewrite (load_m_eq _ _ _ Hm), Hs. reflexivity.
    - apply load_m_eq. exact Hm.
    - cbv [sub_create_reduced bind ret]. rewrite (load_m_eq _ _ _ Hm). reflexivity.
    - cbv [sub_create_full clone_v bind ret]. rewrite (load_v_eq _ _ _ Hv). cbv [new_v].
      rewrite (store_v_eq _ (length (hv h)) (if affine then t else vzero vo));
        [|cbv [v_at hv]; apply nth_app_new].
      eexists _, _. split; [reflexivity|]. split; [reflexivity|]. split; [reflexivity|].
      cbn [put_v hv]. apply put_new.
    - intros x. cbv [sub_create_from]. cbv [bind].
      assert (E : sub_create_full vo s h = (Ok (length (hv h)), mk_mem (hm h) (hv h ++ [vzero vo]))).
      { cbv [sub_create_full clone_v bind ret]. rewrite (load_v_eq _ _ _ Hv). cbv [new_v].
        rewrite (store_v_eq _ (length (hv h)) (if affine then t else vzero vo));
          [|cbv [v_at hv]; apply nth_app_new].
        cbv [put_v hm hv]. cbn [hv]. rewrite put_new. reflexivity. }
      rewrite E.
      assert (HS' : stands (mk_mem (hm h) (hv h ++ [vzero vo])) s phi t affine).
      { split; [exact Hm|]. split; [|split; assumption]. cbv [v_at hv]. apply nth_app_old. exact Hv. }
      destruct (stands_maps _ _ _ _ _ [length (hv h)] HS') with (x := x) (y := length (hv h)) (v := vzero vo)
        as (h' & E' & Hy & Hm' & Ho).
      { cbn [In]. intros [E1|[]]. apply nth_error_lt in Hv. lia. }
      { left. reflexivity. }
      { cbv [v_at hv]. apply nth_app_new. }
      rewrite E'. eexists _, _. split; [reflexivity|]. split; [reflexivity|]. split; [exact Hm'|].
      apply nth_error_same. intros i. destruct (Nat.eq_dec i (length (hv h))) as [->|Hi].
      + rewrite Hy. symmetry. apply nth_app_new.
      + rewrite Ho by exact Hi. cbn [hv]. destruct (Nat.lt_ge_cases i (length (hv h))).
        * rewrite !nth_app_lt by assumption. reflexivity.
        * transitivity (@None V); [|symmetry]; apply nth_error_None; rewrite app_length; cbn [length]; lia.
  Qed.

  (** ** Construction *)
  Definition m_detached (b : arg) : bool := match b with LValue _ => true | RValue _ => negb mview end.
  (** Cells that construction changes: what an rvalue of a value type leaves behind. *)
  Definition m_taken (b : arg) (a : nat) : Prop := mview = false /\ b = RValue a.
  Definition v_taken (t : arg) (a : nat) : Prop := vview = false /\ t = RValue a.
  (** ... and, for a handle, the caller's own vector when the subspace is not affine. *)
  Definition v_zeroed (t : arg) (affine : bool) (a : nat) : Prop :=
    vview = true /\ affine = false /\ a = arg_of t.

  Lemma linsub_create_ok (h : heap) b m0 sp : m_at h (arg_of b) m0 ->
    exists a h1, linsub_create mview mgone b sp h = (Ok (mk_linsub a sp), h1) /\
      m_at h1 a m0 /\ hv h1 = hv h /\
      (m_detached b = true -> a = length (hm h)) /\ (m_detached b = false -> a = arg_of b) /\
      forall i, (i < length (hm h))%nat -> ~ m_taken b i -> nth_error (hm h1) i = nth_error (hm h) i.
  Proof.
    intros Hm. cbv [linsub_create m_detached m_taken]. destruct b as [a0|a0]; cbn [arg_of] in Hm.
    - cbv [clone_m bind ret new_m]. rewrite (load_m_eq _ _ _ Hm). eexists _, _. split; [reflexivity|].
      split; [cbv [m_at hm]; apply nth_app_new|]. split; [reflexivity|]. split; [reflexivity|].
      split; [discriminate|]. intros i Hi _. apply nth_app_lt. exact Hi.
    - cbv [move_m clone_m bind ret new_m]. destruct mview.
      + rewrite (load_m_eq _ _ _ Hm). eexists _, _. split; [reflexivity|]. split; [exact Hm|].
        split; [reflexivity|]. split; [discriminate|]. split; reflexivity.
      + rewrite (load_m_eq _ _ _ Hm).
        assert (Hm' : m_at (mk_mem (hm h ++ [m0]) (hv h)) a0 m0)
          by (cbv [m_at hm]; apply nth_app_old; exact Hm).
        rewrite (store_m_eq _ _ _ _ Hm'). eexists _, _. split; [reflexivity|].
        apply nth_error_lt in Hm. split; [|split; [reflexivity|]].
        * cbv [m_at]. cbn [put_m hm]. rewrite nth_put by (rewrite app_length; lia).
          destruct (Nat.eqb_spec a0 (length (hm h))); [lia|]. apply nth_app_new.
        * split; [reflexivity|]. split; [discriminate|]. intros i Hi Hn. cbn [put_m hm].
          rewrite nth_put by (rewrite app_length; lia). destruct (Nat.eqb_spec a0 i) as [->|].
          -- exfalso. apply Hn. split; reflexivity.
          -- apply nth_app_lt. exact Hi.
  Qed.

  Lemma create_ok (h : heap) b t affine m0 t0 : m_at h (arg_of b) m0 -> v_at h (arg_of t) t0 ->
    exists s h1, create b t affine h = (Ok s, h1) /\ stands h1 s m0 t0 affine /\
      (m_detached b = true -> ls_basis (sb_lin s) = length (hm h)) /\
      (vview = false -> sb_tr s = length (hv h)) /\
      (vview = true -> sb_tr s = arg_of t) /\
      (forall i, (i < length (hm h))%nat -> ~ m_taken b i -> nth_error (hm h1) i = nth_error (hm h) i) /\
      (forall i, (i < length (hv h))%nat -> ~ v_taken t i -> ~ v_zeroed t affine i ->
         nth_error (hv h1) i = nth_error (hv h) i).
  Proof.
    intros Hm Hv. destruct (linsub_create_ok h b m0 Columns Hm) as (a & h1 & E & Ha & Hh & Hd & _ & Hk).
    cbv [sub_create]. cbv [bind]. rewrite E. cbv beta iota.
    assert (Hv1 : v_at h1 (arg_of t) t0) by (cbv [v_at]; rewrite Hh; exact Hv).
    pose proof (nth_error_lt _ _ _ Hv1) as Hlt. rewrite Hh in Hlt.
    cbv [v_taken v_zeroed].
    destruct vview eqn:Evv.
    - (* handles *)
      assert (Ec : take_v true vgone t h1
                   = (Ok (arg_of t), h1)).
      { destruct t as [c|c]; cbv [take_v copy_v move_v bind ret]; cbn [arg_of] in *; rewrite (load_v_eq _ _ _ Hv1); reflexivity. }
      rewrite Ec. cbv beta iota. destruct affine; cbv [zero_if_not_affine].
      + eexists _, _. split; [reflexivity|]. split; [split; [exact Ha|]; split; [exact Hv1|split; reflexivity]|].
        split; [exact Hd|]. split; [discriminate|]. split; [reflexivity|]. split; [exact Hk|].
        intros i Hi _ _. rewrite Hh. reflexivity.
      + cbv [bind ret]. rewrite (load_v_eq _ _ _ Hv1). cbv beta iota. rewrite (store_v_eq _ _ _ _ Hv1).
        eexists _, _. split; [reflexivity|].
        split; [split; [exact Ha|]; split; [eapply put_v_same; exact Hv1|split; reflexivity]|].
        split; [exact Hd|]. split; [discriminate|]. split; [reflexivity|]. split; [exact Hk|].
        intros i Hi _ Hz. rewrite (put_v_other h1 (arg_of t) t0).
        * rewrite Hh. reflexivity.
        * exact Hv1.
        * intros ->. apply Hz. split; [reflexivity|split; reflexivity].
    - (* values *)
      assert (Ec : exists h2, take_v false vgone t h1
                   = (Ok (length (hv h)), h2) /\ hm h2 = hm h1 /\ v_at h2 (length (hv h)) t0 /\
                   forall i, (i < length (hv h))%nat -> ~ (t = RValue i) -> nth_error (hv h2) i = nth_error (hv h) i).
      { destruct t as [c|c]; cbv [take_v copy_v move_v clone_v bind ret new_v]; cbn [arg_of] in *;
          rewrite (load_v_eq _ _ _ Hv1); cbv beta iota.
        - eexists. rewrite Hh. split; [reflexivity|]. split; [reflexivity|].
          split; [cbv [v_at hv]; apply nth_app_new|]. intros i Hi _. apply nth_app_lt. exact Hi.
        - assert (Hc : v_at (mk_mem (hm h1) (hv h1 ++ [t0])) c t0)
            by (cbv [v_at hv]; apply nth_app_old; exact Hv1).
          rewrite (store_v_eq _ _ _ _ Hc). eexists. rewrite Hh. split; [reflexivity|]. split; [reflexivity|].
          split.
          + cbv [v_at]. cbn [put_v hv]. rewrite nth_put by (rewrite app_length; lia).
            destruct (Nat.eqb_spec c (length (hv h))); [lia|]. apply nth_app_new.
          + intros i Hi Hn. cbn [put_v hv]. rewrite nth_put by (rewrite app_length; lia).
            destruct (Nat.eqb_spec c i) as [->|]; [exfalso; apply Hn; reflexivity|].
            apply nth_app_lt. exact Hi. }
      destruct Ec as (h2 & Ec & Hm2 & Hv2 & Hk2). rewrite Ec. cbv beta iota.
      assert (Ha2 : m_at h2 a m0) by (cbv [m_at]; rewrite Hm2; exact Ha).
      destruct affine; cbv [zero_if_not_affine].
      + eexists _, _. split; [reflexivity|]. split; [split; [exact Ha2|]; split; [exact Hv2|split; reflexivity]|].
        split; [exact Hd|]. split; [reflexivity|]. split; [discriminate|].
        split; [intros i Hi Hn; rewrite Hm2; apply Hk; assumption|].
        intros i Hi Hn _. apply Hk2; [exact Hi|]. intros Ht. apply Hn. split; [reflexivity|exact Ht].
      + cbv [bind ret]. rewrite (load_v_eq _ _ _ Hv2). cbv beta iota. rewrite (store_v_eq _ _ _ _ Hv2).
        eexists _, _. split; [reflexivity|].
        split; [split; [exact Ha2|]; split; [eapply put_v_same; exact Hv2|split; reflexivity]|].
        split; [exact Hd|]. split; [reflexivity|]. split; [discriminate|].
        split; [intros i Hi Hn; cbn [put_v hm]; rewrite Hm2; apply Hk; assumption|].
        intros i Hi Hn _. rewrite (put_v_other h2 (length (hv h)) t0) by (try exact Hv2; lia).
        apply Hk2; [exact Hi|]. intros Ht. apply Hn. split; [reflexivity|exact Ht].
  Qed.

  Lemma copy_ok (h : heap) s phi t affine : stands h s phi t affine ->
    exists s' h1, sub_copy vo s h = (Ok s', h1) /\ stands h1 s' phi t affine /\
      ls_basis (sb_lin s') = length (hm h) /\ sb_tr s' = length (hv h) /\
      (exists l, hm h1 = hm h ++ l) /\ (exists l, hv h1 = hv h ++ l).
  Proof.
    intros (Hm & Hv & Ha & Hs). cbv [sub_copy linsub_copy clone_m clone_v new_m new_v]. cbv [bind ret].
    rewrite (load_m_eq _ _ _ Hm). cbv beta iota.
    assert (Hv1 : v_at (mk_mem (hm h ++ [phi]) (hv h)) (sb_tr s) (if affine then t else vzero vo)) by exact Hv.
    rewrite (load_v_eq _ _ _ Hv1). cbv beta iota. cbn [hm hv]. rewrite Ha, Hs.
    assert (Hn : v_at (mk_mem (hm h ++ [phi]) (hv h ++ [if affine then t else vzero vo])) (length (hv h))
                   (if affine then t else vzero vo)) by (cbv [v_at hv]; apply nth_app_new).
    destruct affine; cbv [zero_if_not_affine]; cbv [bind ret].
    - eexists _, _. split; [reflexivity|]. split; [split; [cbv [m_at]; apply nth_app_new|]; split; [exact Hn|split; reflexivity]|].
      split; [reflexivity|]. split; [reflexivity|]. split; eexists; reflexivity.
    - rewrite (load_v_eq _ _ _ Hn). cbv beta iota. rewrite (store_v_eq _ _ _ _ Hn).
      eexists _, _. split; [reflexivity|].
      split; [split; [cbv [m_at]; apply nth_app_new|]; split; [eapply put_v_same; exact Hn|split; reflexivity]|].
      split; [reflexivity|]. split; [reflexivity|]. split; [eexists; reflexivity|].
      cbn [put_v hv]. rewrite put_new. eexists. reflexivity.
  Qed.

  (** A subspace whose cells the caller cannot reach stays what it is. *)
  Lemma stands_kept am av (h : heap) am' av' h' s phi t affine : caller am av h am' av' h' ->
    stands h s phi t affine -> ~ In (ls_basis (sb_lin s)) am -> ~ In (sb_tr s) av ->
    stands h' s phi t affine /\ ~ In (sb_tr s) av'.
  Proof.
    intros Hc (Hm & Hv & Ha & Hs) Hnm Hnv. destruct (caller_keeps _ _ _ _ _ _ Hc) as [Km Kv].
    destruct (Km _ Hnm (nth_error_lt _ _ _ Hm)) as [Em _].
    destruct (Kv _ Hnv (nth_error_lt _ _ _ Hv)) as [Ev Hr].
    split; [|exact Hr]. split; [cbv [m_at]; rewrite Em; exact Hm|].
    split; [cbv [v_at]; rewrite Ev; exact Hv|]. split; assumption.
  Qed.

  Lemma not_in_seq n : ~ In n (seq 0 n).
  Proof. rewrite in_seq. lia. Qed.

  (** *** The claims *)
  Lemma values_immutable : vview = false ->
    forall (h : heap) b t affine phi0 t0, m_at h (arg_of b) phi0 -> v_at h (arg_of t) t0 -> m_detached b = true ->
    exists s h1, create b t affine h = (Ok s, h1) /\
      (forall a m, m_at h a m -> ~ m_taken b a -> m_at h1 a m) /\
      (forall a v, v_at h a v -> ~ v_taken t a -> v_at h1 a v) /\
      forall am av h2, caller (all_m h) (all_v h) h1 am av h2 ->
        maps o vo mprod h2 s av phi0 t0 affine /\
        accessors o vo mprod mcols mrows xzeros h2 s phi0 t0 affine.
  Proof.
    intros Hview h b t affine phi0 t0 Hm Hv Hd.
    destruct (create_ok h b t affine phi0 t0 Hm Hv) as (s & h1 & E & HS & Hb & Ht & _ & Km & Kv).
    exists s, h1. split; [exact E|]. split; [|split].
    - intros a m Ha Hn. cbv [m_at]. rewrite Km; [exact Ha|exact (nth_error_lt _ _ _ Ha)|exact Hn].
    - intros a v Ha Hn. cbv [v_at]. rewrite Kv; [exact Ha|exact (nth_error_lt _ _ _ Ha)|exact Hn|].
      intros (Hz & _). congruence.
    - intros am av h2 Hc.
      destruct (stands_kept _ _ _ _ _ _ _ _ _ _ Hc HS) as [HS2 Hr].
      + rewrite (Hb Hd). apply not_in_seq.
      + rewrite (Ht Hview). apply not_in_seq.
      + split; [apply stands_maps; assumption|apply stands_accessors; assumption].
  Qed.

  (** A copy behaves as the original did when copied, whatever happens to it. *)
  Lemma copies_behave :
    forall (h : heap) b t affine phi0 t0, m_at h (arg_of b) phi0 -> v_at h (arg_of t) t0 ->
    exists s h1, create b t affine h = (Ok s, h1) /\
    exists s' h2, sub_copy vo s h1 = (Ok s', h2) /\
      (exists l, hm h2 = hm h1 ++ l) /\ (exists l, hv h2 = hv h1 ++ l) /\
      forall am av h3, caller (all_m h1) (all_v h1) h2 am av h3 ->
        maps o vo mprod h3 s' av phi0 t0 affine /\
        accessors o vo mprod mcols mrows xzeros h3 s' phi0 t0 affine.
  Proof.
    intros h b t affine phi0 t0 Hm Hv.
    destruct (create_ok h b t affine phi0 t0 Hm Hv) as (s & h1 & E & HS & _).
    exists s, h1. split; [exact E|].
    destruct (copy_ok h1 s phi0 t0 affine HS) as (s' & h2 & E2 & HS2 & Hb & Ht & Hlm & Hlv).
    exists s', h2. split; [exact E2|]. split; [exact Hlm|]. split; [exact Hlv|].
    intros am av h3 Hc. destruct (stands_kept _ _ _ _ _ _ _ _ _ _ Hc HS2) as [HS3 Hr].
    - rewrite Hb. apply not_in_seq.
    - rewrite Ht. apply not_in_seq.
    - split; [apply stands_maps; assumption|apply stands_accessors; assumption].
  Qed.

  (** Handles: right after construction the subspace is what it should be ... *)
  Lemma handles_right_now :
    forall (h : heap) b t affine phi0 t0, m_at h (arg_of b) phi0 -> v_at h (arg_of t) t0 ->
    exists s h1, create b t affine h = (Ok s, h1) /\
      (forall reach, ~ In (sb_tr s) reach -> maps o vo mprod h1 s reach phi0 t0 affine) /\
      accessors o vo mprod mcols mrows xzeros h1 s phi0 t0 affine.
  Proof.
    intros h b t affine phi0 t0 Hm Hv.
    destruct (create_ok h b t affine phi0 t0 Hm Hv) as (s & h1 & E & HS & _).
    exists s, h1. split; [exact E|]. split; [|apply stands_accessors; exact HS].
    intros reach Hr. apply stands_maps; assumption.
  Qed.
  (** ... but the vector the caller passed is the one it uses. *)
  Lemma handles_zero_the_argument : vview = true ->
    forall (h : heap) b t phi0 t0, m_at h (arg_of b) phi0 -> v_at h (arg_of t) t0 ->
    exists s h1, create b t false h = (Ok s, h1) /\ v_at h1 (arg_of t) (vzero vo).
  Proof.
    intros Hview h b t phi0 t0 Hm Hv.
    destruct (create_ok h b t false phi0 t0 Hm Hv) as (s & h1 & E & HS & _ & _ & Ht & _).
    exists s, h1. split; [exact E|]. destruct HS as (_ & HS & _). rewrite (Ht Hview) in HS. exact HS.
  Qed.
  Lemma handles_follow_the_argument : vview = true ->
    forall (h : heap) b t phi0 t0, m_at h (arg_of b) phi0 -> v_at h (arg_of t) t0 -> m_detached b = true ->
    exists s h1, create b t true h = (Ok s, h1) /\
      forall w, maps o vo mprod (put_v h1 (arg_of t) w) s (remove Nat.eq_dec (arg_of t) (all_v h)) phi0 w true.
  Proof.
    intros Hview h b t phi0 t0 Hm Hv Hd.
    destruct (create_ok h b t true phi0 t0 Hm Hv) as (s & h1 & E & HS & _ & _ & Ht & _).
    exists s, h1. split; [exact E|]. intros w. destruct HS as (HSm & HSv & HSa & HSs).
    rewrite (Ht Hview) in HSv.
    apply stands_maps.
    - split; [exact HSm|]. split; [rewrite (Ht Hview); eapply put_v_same; exact HSv|split; assumption].
    - rewrite (Ht Hview). apply remove_In.
  Qed.

  (** basis() of a subspace *)
  Lemma basis_affine (h : heap) s phi t : stands h s phi t true -> sub_basis s h = (Ok phi, h).
  Proof. intros (Hm & _ & Ha & _). cbv [sub_basis]. rewrite Ha. apply load_m_eq. exact Hm. Qed.
  Lemma basis_claim :
    forall (h : heap) b t affine phi0 t0, m_at h (arg_of b) phi0 -> v_at h (arg_of t) t0 ->
    exists s h1, create b t affine h = (Ok s, h1) /\
      sub_basis s h1 = (if affine then Ok phi0 else Undef UNullDeref, h1).
  Proof.
    intros h b t affine phi0 t0 Hm Hv.
    destruct (create_ok h b t affine phi0 t0 Hm Hv) as (s & h1 & E & HS & _).
    exists s, h1. split; [exact E|]. destruct affine.
    - eapply basis_affine. exact HS.
    - destruct HS as (_ & _ & Ha & _). cbv [sub_basis]. rewrite Ha. reflexivity.
  Qed.

  (** LinearSubspace *)
  Lemma linsub_claim (h : heap) b sp m0 : m_at h (arg_of b) m0 -> m_detached b = true ->
    exists l h1, linsub_create mview mgone b sp h = (Ok l, h1) /\
      (forall a m, m_at h a m -> ~ m_taken b a -> m_at h1 a m) /\ hv h1 = hv h /\
      forall am av h2, caller (all_m h) (all_v h) h1 am av h2 ->
        load_m (ls_basis l) h2 = (Ok m0, h2) /\
        linsub_dimension mrows mcols l h2
          = (Ok (match sp with Columns => mcols m0 | Rows => mrows m0 end), h2) /\
        (linsub_is_column l = true <-> sp = Columns) /\ (linsub_is_row l = true <-> sp = Rows).
  Proof.
    intros Hm Hd. destruct (linsub_create_ok h b m0 sp Hm) as (a & h1 & E & Ha & Hh & Hl & _ & Hk).
    exists (mk_linsub a sp), h1. split; [exact E|]. split; [|split; [exact Hh|]].
    - intros i m Hi Hn. cbv [m_at]. rewrite Hk; [exact Hi|exact (nth_error_lt _ _ _ Hi)|exact Hn].
    - intros am av h2 Hc. destruct (caller_keeps _ _ _ _ _ _ Hc) as [Km _].
      destruct (Km a) as [Em _]; [rewrite (Hl Hd); apply not_in_seq|exact (nth_error_lt _ _ _ Ha)|].
      assert (Ha2 : m_at h2 a m0) by (cbv [m_at]; rewrite Em; exact Ha).
      cbn [ls_basis]. rewrite (load_m_eq _ _ _ Ha2). split; [reflexivity|]. split.
      + cbv [linsub_dimension bind ret ls_basis ls_span]. rewrite (load_m_eq _ _ _ Ha2). reflexivity.
      + cbv [linsub_is_column linsub_is_row ls_span]. destruct sp; split; split; congruence.
  Qed.
End Sub.

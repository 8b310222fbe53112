(** Proofs about the stencil containers. *)
From Coq Require Import List Bool Arith Lia.
From Verif Require Import Base LinsolveModel StencilModel StencilSpec.
Import ListNotations.

Section P.
  Context {V : Type} (zero : V).

  Lemma store_length : forall (h : mem (V:=V)) a v, length (store h a v) = length h.
  Proof. induction h; intros [|a'] v; cbn; auto. Qed.
  Lemma load_store : forall h a v, a < length h -> load zero (store h a v) a = v.
  Proof.
    unfold load. induction h; intros [|a'] v H; cbn in *; try lia; [reflexivity|].
    apply IHh. lia.
  Qed.
  Lemma load_store_ne : forall h a b v, a <> b -> load zero (store h a v) b = load zero h b.
  Proof.
    unfold load. induction h; intros [|a'] [|b'] v H; cbn in *; try lia; auto.
  Qed.
  Lemma load_app : forall h h' a, a < length h -> load zero (h ++ h') a = load zero h a.
  Proof. intros. apply app_nth1. assumption. Qed.

  Lemma set_zero_length : forall l h, length (set_zero zero h l) = length h.
  Proof.
    unfold set_zero. induction l; intros h; cbn; [reflexivity|]. rewrite IHl. apply store_length.
  Qed.
  Lemma set_zero_out : forall l h b, ~ In b l -> load zero (set_zero zero h l) b = load zero h b.
  Proof.
    unfold set_zero. induction l; intros h b H; [reflexivity|]. cbn [fold_left In] in *.
    rewrite IHl by tauto. apply load_store_ne. intros E. apply H. left. exact E.
  Qed.
  Lemma set_zero_in : forall l h b, In b l -> b < length h -> load zero (set_zero zero h l) b = zero.
  Proof.
    induction l; intros h b H Hb; [destruct H|]. destruct (in_dec Nat.eq_dec b l) as [Hi|Hi].
    - apply (IHl (store h a zero)); [exact Hi|]. rewrite store_length. exact Hb.
    - destruct H as [->|H]; [|contradiction]. unfold set_zero. cbn [fold_left].
      fold (set_zero zero (store h b zero) l). rewrite set_zero_out by exact Hi.
      apply load_store. exact Hb.
  Qed.

  Lemma each_clone : forall l h, exists vs, length vs = length l /\
    each (clone zero) h l = (h ++ vs, seq (length h) (length l)) /\
    (live h l -> vs = map (load zero h) l).
  Proof.
    induction l as [|a l IH]; intros h.
    - exists []. cbn. rewrite app_nil_r. repeat split.
    - destruct (IH (h ++ [load zero h a])) as (vs & Hl & He & Hv).
      exists (load zero h a :: vs). cbn. rewrite He. rewrite <- app_assoc, app_length. cbn.
      rewrite Nat.add_1_r. split; [lia|]. split; [reflexivity|].
      intros Hlive. f_equal. rewrite Hv.
      + apply map_ext_in. intros b Hb. apply load_app. apply Hlive. right. exact Hb.
      + intros b Hb. rewrite app_length. specialize (Hlive b (or_intror Hb)). lia.
  Qed.
  Lemma each_copy : forall l h, each (copy1 zero false) h l = each (clone zero) h l.
  Proof. induction l; intros h; [reflexivity|]. cbn. rewrite IHl. reflexivity. Qed.
  Lemma each_view : forall l h, each (copy1 zero true) h l = (h, l).
  Proof. induction l; intros h; [reflexivity|]. cbn. rewrite IHl. reflexivity. Qed.

  Variable asserts : bool.
  Variable e : ends.

  Lemma has_slot : forall n t, has e n t -> exists i, slot e t = Some i /\ i < n.
  Proof.
    intros n t H. unfold has in H.
    destruct n as [|[|[|[|n]]]]; destruct e; cbn in H;
      repeat (destruct H as [<-|H]; [eexists; split; [reflexivity|lia]|]);
      try (destruct n; cbn in H; try tauto); try tauto.
  Qed.
  Lemma slot_inj : forall t t' i, slot e t = Some i -> slot e t' = Some i -> t = t'.
  Proof. intros t t' i. destruct e, t, t'; cbn; congruence. Qed.

  Lemma elem_ok : forall n c t i, c_size c = Some n -> length (c_data c) = n ->
    slot e t = Some i -> i < n -> elem asserts e c t = Done (nth i (c_data c) 0).
  Proof.
    intros n c t i Hs Hl Hi Hn. unfold elem. rewrite Hi, Hs.
    rewrite (proj2 (Nat.leb_gt n i)) by lia. rewrite andb_false_r.
    rewrite (nth_error_nth' (c_data c) 0) by lia. reflexivity.
  Qed.

  Lemma indep : forall n h c others, c_size c = Some n -> length (c_data c) = n ->
    NoDup (c_data c) -> live h (c_data c) -> (forall a, In a others -> ~ In a (c_data c)) ->
    independent zero asserts e n h c others.
  Proof.
    intros n h c others Hs Hl Hnd Hlive Ho. split; [unfold cont_size; rewrite Hs; reflexivity|].
    split.
    - intros t Ht. destruct (has_slot n t Ht) as (i & Hi & Hlt). unfold get.
      rewrite (elem_ok n c t i) by assumption. cbn. eexists. reflexivity.
    - intros t v Ht. destruct (has_slot n t Ht) as (i & Hi & Hlt). unfold get, set.
      rewrite (elem_ok n c t i) by assumption. cbn [andthen]. eexists. split; [reflexivity|].
      assert (In (nth i (c_data c) 0) (c_data c)) as Hin by (apply nth_In; lia).
      split; [rewrite load_store by (apply Hlive; exact Hin); reflexivity|]. split.
      + intros t' Ht' Hne. destruct (has_slot n t' Ht') as (i' & Hi' & Hlt').
        rewrite (elem_ok n c t' i') by assumption. cbn [andthen]. f_equal. apply load_store_ne.
        intros E. apply Hne. apply (slot_inj t' t i'); [exact Hi'|].
        rewrite Hi. f_equal. apply (proj1 (NoDup_nth (c_data c) 0) Hnd); [lia|lia|exact E].
      + intros a Ha. apply load_store_ne. intros E. apply (Ho a Ha). rewrite <- E. exact Hin.
  Qed.

  Lemma zeroed : forall n h l, length l = n -> live h l ->
    all_zero zero asserts e n (set_zero zero h l) (mk_cont l (Some n)).
  Proof.
    intros n h l Hl Hlive t Ht. destruct (has_slot n t Ht) as (i & Hi & Hlt). unfold get.
    rewrite (elem_ok n _ t i) by (cbn; auto). cbn. f_equal.
    assert (In (nth i l 0) l) as Hin by (apply nth_In; lia).
    apply set_zero_in; [exact Hin|apply Hlive; exact Hin].
  Qed.

  (** a container of clones *)
  Lemma cloned : forall l h h' c,
    (let (h1, l1) := each (clone zero) h l in (set_zero zero h1 l1, mk_cont l1 (Some (length l1)))) = (h', c) ->
    all_zero zero asserts e (length l) h' c /\
    untouched zero h h' (seq 0 (length h)) /\
    independent zero asserts e (length l) h' c (seq 0 (length h)).
  Proof.
    intros l h h' c E. destruct (each_clone l h) as (vs & Hl & He & _). rewrite He in E.
    rewrite seq_length in E. injection E as <- <-.
    assert (live (h ++ vs) (seq (length h) (length l))) as Hlive.
    { intros a Ha. apply in_seq in Ha. rewrite app_length. lia. }
    split; [|split].
    - apply zeroed; [apply seq_length|exact Hlive].
    - intros a Ha. apply in_seq in Ha. rewrite set_zero_out by (rewrite in_seq; lia).
      apply load_app. lia.
    - apply indep; cbn [c_data c_size]; [reflexivity|apply seq_length|apply seq_NoDup| |].
      + intros a Ha. rewrite set_zero_length. apply Hlive. exact Ha.
      + intros a Ha. apply in_seq in Ha. rewrite in_seq. lia.
  Qed.

  Lemma static_ok : forall N h y h' c, static_new zero N h y = (h', c) ->
    all_zero zero asserts e N h' c /\ untouched zero h h' (seq 0 (length h)) /\
    independent zero asserts e N h' c (seq 0 (length h)).
  Proof.
    intros N h y h' c E. pose proof (cloned (repeat y N) h h' c) as H.
    rewrite repeat_length in H. apply H. rewrite <- E.
    unfold static_new. destruct (each_clone (repeat y N) h) as (vs & Hl & He & _). rewrite He.
    rewrite seq_length, repeat_length. reflexivity.
  Qed.
  Lemma dyn_value_ok : forall il h h' c, dyn_new zero false h il = (h', c) ->
    all_zero zero asserts e (length il) h' c /\ untouched zero h h' (seq 0 (length h)) /\
    independent zero asserts e (length il) h' c (seq 0 (length h)).
  Proof.
    intros il h h' c E. apply cloned. rewrite <- E. unfold dyn_new. reflexivity.
  Qed.

  Lemma copy_value_ok : forall n h c h' c', c_size c = Some n -> length (c_data c) = n ->
    live h (c_data c) -> cont_copy zero false h c = (h', c') ->
    (forall t, has e n t -> get zero asserts e h' c' t = get zero asserts e h c t) /\
    untouched zero h h' (seq 0 (length h)) /\
    independent zero asserts e n h' c' (seq 0 (length h)).
  Proof.
    intros n h c h' c' Hs Hlen Hlive E. unfold cont_copy in E. change (copy1 zero false) with (clone zero) in E.
    destruct (each_clone (c_data c) h) as (vs & Hl & He & Hv). rewrite He in E.
    injection E as <- <-. specialize (Hv Hlive).
    assert (live (h ++ vs) (seq (length h) (length (c_data c)))) as Hlive2.
    { intros a Ha. apply in_seq in Ha. rewrite app_length. lia. }
    split; [|split].
    - intros t Ht. destruct (has_slot n t Ht) as (i & Hi & Hlt). unfold get.
      rewrite (elem_ok n c t i) by assumption.
      rewrite (elem_ok n _ t i); [|exact Hs|cbn; rewrite seq_length; exact Hlen|exact Hi|exact Hlt].
      cbn [andthen c_data]. f_equal. rewrite seq_nth by lia. unfold load.
      rewrite app_nth2 by lia. replace (length h + i - length h) with i by lia.
      rewrite Hv. rewrite (nth_indep _ zero (load zero h 0)) by (rewrite map_length; lia).
      rewrite map_nth. reflexivity.
    - intros a Ha. apply in_seq in Ha. apply load_app. lia.
    - apply indep; cbn [c_data c_size]; [exact Hs|rewrite seq_length; exact Hlen|apply seq_NoDup|exact Hlive2|].
      intros a Ha. apply in_seq in Ha. rewrite in_seq. lia.
  Qed.

  Lemma outside : forall n c t, c_size c = Some n -> length (c_data c) = n -> ~ has e n t ->
    elem asserts e c t = Stopped \/ (asserts = false /\ elem asserts e c t = Undefd UOutOfBounds).
  Proof.
    intros n c t Hs Hl Hn. unfold elem. destruct (slot e t) as [i|] eqn:Hi; [|left; reflexivity].
    assert (n <= i) as Hge.
    { destruct (Nat.le_gt_cases n i) as [H|H]; [exact H|]. exfalso. apply Hn. unfold has.
      destruct e, t; cbn in Hi; try discriminate; injection Hi as <-;
        (destruct n as [|[|[|[|n]]]]; [lia|..]); try lia; cbn; tauto. }
    rewrite Hs. rewrite (proj2 (Nat.leb_le n i)) by exact Hge. destruct asserts; [left; reflexivity|].
    right. split; [reflexivity|]. cbn. rewrite (proj2 (nth_error_None (c_data c) i)) by lia.
    reflexivity.
  Qed.

  (** views *)
  Lemma dyn_view : forall h il,
    dyn_new zero true h il = (set_zero zero h il, mk_cont il (Some (length il))).
  Proof. intros. unfold dyn_new. rewrite each_view. reflexivity. Qed.

  Lemma dyn_view_bad : forall v, v <> zero ->
    exists h y h' c, dyn_new zero true h [y] = (h', c) /\ live h [y] /\
      load zero h y = v /\ load zero h' y = zero.
  Proof.
    intros v Hv. exists [v], 0. eexists. eexists. rewrite dyn_view. split; [reflexivity|].
    split; [intros a [<-|[]]; cbn; lia|]. split; reflexivity.
  Qed.
  Lemma copy_view_bad : forall v, v <> zero ->
    exists h c h' c' h2, static_new zero 2 [v] 0 = (h, c) /\ cont_copy zero true h c = (h', c') /\
      set asserts EndsN h' c' Tn v = Done h2 /\
      get zero asserts EndsN h c Tn = Done zero /\ get zero asserts EndsN h2 c Tn = Done v.
  Proof.
    intros v Hv. do 5 eexists. split; [reflexivity|]. split; [reflexivity|].
    unfold set, get. cbn. rewrite !andb_false_r. cbn. repeat split.
  Qed.
End P.

(** Lemmas behind C32: the diagnostics container. *)
From Coq Require Import ZArith List Bool Lia.
From Verif Require Import Base NonlinDiag NonlinModel NonlinDiagProofs NonlinSpec NonlinMoreSpec.
Import ListNotations.
Local Open Scope Z_scope.

Section Cont.
  Context {S : Type} (o : sops S).
  Lemma about_ok : forall d, about d = (to_internal d, is_absolute d).
  Proof. intros []; reflexivity. Qed.
  Lemma record_app : forall rs rs' (c c' : dcont S), record_all o c rs = Ok c' -> record_all o c (rs ++ rs') = record_all o c' rs'.
  Proof.
    induction rs as [|[[i v] f] t IH]; intros rs' c c' H; cbn in *; [congruence|].
    destruct (dc_iupdate o c i v f); try discriminate. apply IH. exact H.
  Qed.
  (** what is known of a tracked quantity after recording [rs] *)
  Definition fits (i : idiag) (rs : list (record_of S)) (x : ddata S) : Prop :=
    (forall v, latest i rs v -> d_abs x = v) /\
    (forall v, latest_first i rs v -> d_ref x = v) /\
    (forall v v0, latest i rs v -> latest_first i rs v0 -> d_rel x = sdiv o v v0).
  Lemma latest_snoc : forall i rs j v f u, latest i (rs ++ [(j, v, f)] : list (record_of S)) u ->
    (i = j /\ u = v) \/ (i <> j /\ latest i rs u).
  Proof.
    intros i rs j v f u [a [f' [b [E H]]]]. destruct (idiag_eq_dec i j) as [<-|Hn].
    - left. split; [reflexivity|]. destruct b as [|r b] using rev_ind.
      + apply app_inj_tail in E. destruct E as [_ E]. congruence.
      + rewrite app_comm_cons, app_assoc in E. apply app_inj_tail in E. destruct E as [_ <-].
        exfalso. exact (H (i, v, f) ltac:(apply in_app_iff; right; left; reflexivity) eq_refl).
    - right. split; [exact Hn|]. destruct b as [|r b] using rev_ind.
      + apply app_inj_tail in E. destruct E as [_ E]. congruence.
      + rewrite app_comm_cons, app_assoc in E. apply app_inj_tail in E. destruct E as [E _].
        exists a, f', b. split; [exact E|]. intros r' Hr. apply H. apply in_app_iff. left. exact Hr.
  Qed.
  Lemma first_snoc : forall i rs j v f u, latest_first i (rs ++ [(j, v, f)] : list (record_of S)) u ->
    (i = j /\ f = true /\ u = v) \/ ((i <> j \/ f = false) /\ latest_first i rs u).
  Proof.
    intros i rs j v f u [a [b [E H]]]. destruct b as [|r b] using rev_ind.
    - apply app_inj_tail in E. destruct E as [_ E]. injection E as -> -> ->. left. auto.
    - rewrite app_comm_cons, app_assoc in E. apply app_inj_tail in E. destruct E as [E <-]. right. split.
      + destruct (idiag_eq_dec i j) as [<-|Hn]; [right|left; exact Hn].
        exact (H (i, v, f) ltac:(apply in_app_iff; right; left; reflexivity) eq_refl).
      + exists a, b. split; [exact E|]. intros r' Hr. apply H. apply in_app_iff. left. exact Hr.
  Qed.
  Lemma record_all_ok : forall c, wf c -> forall rs,
    (forall r, In r rs -> tracked c (fst (fst r)) <> None) ->
    exists c', record_all o c rs = Ok c' /\ same_names c c' /\
      forall i x, tracked c' i = Some x -> fits i rs x.
  Proof.
    intros c Hc rs. induction rs as [|[[i v] f] rs IH] using rev_ind; intros H.
    - exists c. split; [reflexivity|]. split; [repeat split|]. intros i x _. split; [|split].
      + intros v [a [f [b [E _]]]]. destruct a; discriminate.
      + intros v [a [b [E _]]]. destruct a; discriminate.
      + intros v v0 [a [f [b [E _]]]]. destruct a; discriminate.
    - destruct IH as [c1 [E1 [N1 F1]]]. { intros r Hr. apply H. apply in_app_iff. left. exact Hr. }
      rewrite (record_app _ _ _ _ E1). cbn [record_all].
      pose proof (same_wf _ _ N1 Hc) as W1.
      pose proof (iupdate_tracked o c1 i v f W1) as K.
      assert (Ht : tracked c1 i <> None).
      { apply (tracked_some _ _ W1). pose proof (proj1 (tracked_some _ i Hc) (H (i, v, f) ltac:(apply in_app_iff; right; left; reflexivity))) as [d [D1 D2]].
        exists d. split; [|exact D2]. destruct N1 as [_ [N _]]. rewrite N. exact D1. }
      destruct (tracked c1 i) as [x|] eqn:Ex; [|congruence]. destruct K as [c2 [E2 [N2 T2]]]. rewrite E2.
      exists c2. split; [reflexivity|]. split.
      { destruct N1 as [A1 [A2 [A3 A4]]], N2 as [B1 [B2 [B3 B4]]]. repeat split; congruence. }
      intros i' y Hy. rewrite T2 in Hy. unfold idiag_eqb in Hy. destruct (idiag_eq_dec i i') as [<-|Hn].
      + injection Hy as <-. destruct (F1 i x Ex) as [G1 [G2 G3]]. unfold d_update. split; [|split].
        * intros u Hu. apply latest_snoc in Hu. destruct Hu as [[_ ->]|[Hu _]]; [|congruence]. destruct f; reflexivity.
        * intros u Hu. apply first_snoc in Hu. destruct Hu as [[_ [-> ->]]|[[Hu| ->] Hl]]; [reflexivity|congruence|].
          cbn [d_ref]. apply G2. exact Hl.
        * intros u u0 Hu Hu0. apply latest_snoc in Hu. destruct Hu as [[_ ->]|[Hu _]]; [|congruence].
          apply first_snoc in Hu0. destruct Hu0 as [[_ [-> ->]]|[[Hu| ->] Hl]]; [reflexivity|congruence|].
          cbn [d_rel]. rewrite (G2 _ Hl). reflexivity.
      + destruct (F1 i' y Hy) as [G1 [G2 G3]]. split; [|split].
        * intros u Hu. apply latest_snoc in Hu. destruct Hu as [[Hu _]|[_ Hu]]; [congruence|]. apply G1; exact Hu.
        * intros u Hu. apply first_snoc in Hu. destruct Hu as [[Hu _]|[_ Hu]]; [congruence|]. apply G2; exact Hu.
        * intros u u0 Hu Hu0. apply latest_snoc in Hu. destruct Hu as [[Hu _]|[_ Hu]]; [congruence|].
          apply first_snoc in Hu0. destruct Hu0 as [[Hu0 _]|[_ Hu0]]; [congruence|]. apply G3; assumption.
  Qed.

  (** C32 *)
  Lemma lookup_right : forall l rs,
    (forall r, In r rs -> exists d, In d l /\ fst (about d) = fst (fst r)) ->
    exists c, record_all o (make_container o l) rs = Ok c /\
      (forall d, In d l \/ d = CorrectionAbs -> exists x, dc_at c d = Ok x /\ forall v, stands_for o d rs v -> d_value d x = v) /\
      (forall d, ~ (In d l \/ d = CorrectionAbs) -> dc_at c d = Throw EOutOfRange).
  Proof.
    intros l rs H. destruct (record_all_ok _ (make_wf o l) rs) as [c [E [N F]]].
    { intros r Hr. destruct (H r Hr) as [d [D1 D2]]. apply (tracked_some _ _ (make_wf o l)). exists d.
      split; [apply make_pub; left; exact D1|]. rewrite about_ok in D2. exact D2. }
    exists c. split; [exact E|]. pose proof (same_wf _ _ N (make_wf o l)) as W.
    assert (Hp : forall d, In d (dc_pub c) <-> In d l \/ d = CorrectionAbs).
    { intros d. destruct N as [_ [N _]]. rewrite N. apply make_pub. }
    split.
    - intros d Hd. destruct (at_tracked _ _ W (proj2 (Hp d) Hd)) as [x [E1 E2]]. exists x. split; [exact E1|].
      intros v Hv. destruct (F _ _ E2) as [G1 [G2 G3]]. unfold stands_for in Hv. rewrite about_ok in Hv. unfold d_value.
      destruct (is_absolute d); [apply G1; exact Hv|]. destruct Hv as [u [u0 [U1 [U2 ->]]]]. apply G3; assumption.
    - intros d Hd. apply (at_missing _ _ W). rewrite Hp. exact Hd.
  Qed.
  (** the printed line shows these values, in the order of the list *)
  Lemma unique_nodup : forall l, NoDup l -> unique l = l.
  Proof.
    induction l as [|a [|b t] IH]; intros Hn; [reflexivity|reflexivity|].
    change ((if diag_eqb a b then unique (b :: t) else a :: unique (b :: t)) = a :: b :: t).
    inversion Hn as [|x y Hx Hy]; subst. destruct (diag_eqb a b) eqn:E.
    - apply diag_eqb_true in E. subst. exfalso. apply Hx. left. reflexivity.
    - rewrite IH; [reflexivity|exact Hy].
  Qed.
  Lemma diag_list_bound : forall l : list diag, NoDup l -> (length l <= 9)%nat.
  Proof.
    intros l Hn. refine (NoDup_incl_length (l':=[CorrectionAbs; CorrectionRel; ResidualAbs; ResidualRel; GradientAbs; GradientRel; ObjectiveAbs; ObjectiveRel; InvalidDiag]) Hn _).
    intros [] _; cbn; tauto.
  Qed.
  Lemma line_right : forall l rs c, NoDup l -> In CorrectionAbs l ->
    (forall r, In r rs -> exists d, In d l /\ fst (about d) = fst (fst r)) ->
    record_all o (make_container o l) rs = Ok c ->
    exists vs, log_line c = Ok vs /\ map fst vs = l /\
      forall d x v, In (d, x) vs -> stands_for o d rs v -> x = v.
  Proof.
    intros l rs c Hn Hca H E. destruct (record_all_ok _ (make_wf o l) rs) as [c' [E' [N F]]].
    { intros r Hr. destruct (H r Hr) as [d [D1 D2]]. apply (tracked_some _ _ (make_wf o l)). exists d.
      split; [apply make_pub; left; exact D1|]. rewrite about_ok in D2. exact D2. }
    assert (c' = c) by congruence. subst c'. pose proof (same_wf _ _ N (make_wf o l)) as W.
    assert (Hp : dc_pub c = l).
    { destruct N as [_ [N _]]. rewrite N. unfold make_container, add_if_unsupported.
      assert (Hin : dc_contains (prepare o l) (stop_diag WhenAbsCorrection) = true).
      { unfold dc_contains. rewrite prepare_pub, (unique_nodup _ Hn). apply existsb_exists. exists CorrectionAbs. split; [exact Hca|reflexivity]. }
      rewrite Hin, prepare_pub. apply unique_nodup. exact Hn. }
    rewrite (log_line_ok o c W). unfold printable. rewrite Hp.
    pose proof (diag_list_bound l Hn) as Hb.
    assert (Hl : (1 <= length l)%nat) by (destruct l; [destruct Hca|cbn; lia]).
    assert (Hl2 : (length l <= 11)%nat) by lia.
    rewrite (proj2 (Nat.leb_le _ _) Hl), (proj2 (Nat.leb_le _ _) Hl2). cbn [andb].
    eexists. split; [reflexivity|]. split; [rewrite map_map; cbn [fst]; apply map_id|].
    intros d x v Hin Hv. apply in_map_iff in Hin. destruct Hin as [d' [Ed Hd']]. injection Ed as -> <-.
    rewrite <- Hp in Hd'. destruct (at_tracked _ _ W Hd') as [y [E1 E2]]. unfold shown. rewrite E2.
    destruct (F _ _ E2) as [G1 [G2 G3]]. unfold stands_for in Hv. rewrite about_ok in Hv. unfold d_value.
    destruct (is_absolute d); [apply G1; exact Hv|]. destruct Hv as [u [u0 [U1 [U2 ->]]]]. apply G3; assumption.
  Qed.
  Lemma stop_named : forall st, st <> AfterMaxIters -> named st = Some (stop_diag st).
  Proof. intros [] H; try reflexivity. congruence. Qed.
End Cont.

(** The diagnostics container: lookups return the tracker of the named quantity. *)
From Coq Require Import ZArith List Bool Lia.
From Verif Require Import Base NonlinDiag.
Import ListNotations.
Local Open Scope Z_scope.

Lemma diag_eqb_true : forall a b, diag_eqb a b = true <-> a = b.
Proof. intros; unfold diag_eqb; destruct (diag_eq_dec a b); split; congruence. Qed.
Lemma diag_eqb_refl : forall a, diag_eqb a a = true.
Proof. intros; apply diag_eqb_true; reflexivity. Qed.
Lemma idiag_eqb_true : forall a b, idiag_eqb a b = true <-> a = b.
Proof. intros; unfold idiag_eqb; destruct (idiag_eq_dec a b); split; congruence. Qed.
Lemma idiag_eqb_false : forall a b, idiag_eqb a b = false <-> a <> b.
Proof. intros; unfold idiag_eqb; destruct (idiag_eq_dec a b); split; congruence. Qed.

Lemma unique_in : forall l d, In d (unique l) <-> In d l.
Proof.
  induction l as [|a [|b t] IH]; intros d; [reflexivity|reflexivity|].
  change (In d (if diag_eqb a b then unique (b :: t) else a :: unique (b :: t)) <-> In d (a :: b :: t)).
  destruct (diag_eqb a b) eqn:E.
  - apply diag_eqb_true in E. subst b. rewrite IH. cbn. tauto.
  - cbn [In]. rewrite IH. cbn. tauto.
Qed.

Lemma find_idx_some : forall i l n, find_idx i l = Some n -> nth_error l n = Some i.
Proof.
  intros i. induction l as [|a t IH]; intros n H; [discriminate|]. cbn in H.
  destruct (idiag_eqb a i) eqn:E.
  - injection H as <-. apply idiag_eqb_true in E. subst. reflexivity.
  - destruct (find_idx i t) as [m|] eqn:F; [|discriminate]. injection H as <-. cbn. apply IH. reflexivity.
Qed.
Lemma find_idx_none : forall i l, find_idx i l = None <-> ~ In i l.
Proof.
  intros i. induction l as [|a t IH]; cbn; [tauto|]. destruct (idiag_eqb a i) eqn:E.
  - apply idiag_eqb_true in E. subst. split; [discriminate|tauto].
  - apply idiag_eqb_false in E. destruct (find_idx i t) eqn:F.
    + split; [discriminate|]. intros H. exfalso. apply H. right. apply Decidable.not_not; [|].
      * unfold Decidable.decidable. destruct (in_dec idiag_eq_dec i t); auto.
      * intros K. apply IH in K. discriminate.
    + split; auto. intros _ [K|K]; [auto|]. apply (proj1 IH eq_refl K).
Qed.
Lemma find_idx_nth : forall l n i, NoDup l -> nth_error l n = Some i -> find_idx i l = Some n.
Proof.
  induction l as [|a t IH]; intros n i ND H; [destruct n; discriminate|].
  destruct n as [|n]; cbn in H |- *.
  - injection H as ->. rewrite (proj2 (idiag_eqb_true i i) eq_refl). reflexivity.
  - apply NoDup_cons_iff in ND. destruct ND as [N1 N2].
    destruct (idiag_eqb a i) eqn:E.
    + apply idiag_eqb_true in E. subst. exfalso. apply N1. eapply nth_error_In. exact H.
    + rewrite (IH n i N2 H). reflexivity.
Qed.
Lemma assoc_app : forall d m m', assoc d (m ++ m') = match assoc d m with Some n => Some n | None => assoc d m' end.
Proof. intros d m m'. induction m as [|[a n] t IH]; cbn; [reflexivity|]. destruct (diag_eqb a d); [reflexivity|exact IH]. Qed.
Lemma assoc_insert : forall d p n m,
  assoc d (map_insert p n m) =
  match assoc d m with Some k => Some k | None => if diag_eqb p d then Some n else None end.
Proof.
  intros. unfold map_insert. destruct (assoc p m) as [k|] eqn:E.
  - destruct (assoc d m) eqn:F; [reflexivity|]. destruct (diag_eqb p d) eqn:G; [|reflexivity].
    apply diag_eqb_true in G. subst. congruence.
  - rewrite assoc_app. destruct (assoc d m); [reflexivity|]. cbn. reflexivity.
Qed.

Section Cont.
  Context {S : Type} (o : sops S).

  (** The tracker of quantity [i], if any. *)
  Definition tracked (c : dcont S) (i : idiag) : option (ddata S) :=
    find (fun x => idiag_eqb (d_name x) i) (dc_data c).
  Record wf (c : dcont S) : Prop := {
    wf_names : map d_name (dc_data c) = dc_int c;
    wf_nodup : NoDup (dc_int c);
    wf_map : forall d n, assoc d (dc_map c) = Some n -> nth_error (dc_int c) n = Some (to_internal d);
    wf_pub : forall d, In d (dc_pub c) <-> assoc d (dc_map c) <> None;
    wf_int : forall i, In i (dc_int c) <-> exists d, In d (dc_pub c) /\ to_internal d = i }.

  Lemma nth_app_some : forall A (l l' : list A) n a, nth_error l n = Some a -> nth_error (l ++ l') n = Some a.
  Proof. intros A l l' n a H. rewrite nth_error_app1; [exact H|]. apply nth_error_Some. congruence. Qed.

  Record pre_wf (c : dcont S) (seen : list diag) : Prop := {
    p_names : map d_name (dc_data c) = dc_int c;
    p_nodup : NoDup (dc_int c);
    p_map : forall d n, assoc d (dc_map c) = Some n -> nth_error (dc_int c) n = Some (to_internal d);
    p_seen : forall d, In d seen <-> assoc d (dc_map c) <> None;
    p_int : forall i, In i (dc_int c) <-> exists d, In d seen /\ to_internal d = i }.
  Lemma prepare_one_wf : forall c seen p, pre_wf c seen -> pre_wf (prepare_one o c p) (seen ++ [p]).
  Proof.
    intros c seen p [H1 H2 H3 H4 H5]. unfold prepare_one.
    destruct (find_idx (to_internal p) (dc_int c)) as [n|] eqn:E.
    - pose proof (find_idx_some _ _ _ E) as En. split; cbn [dc_data dc_int dc_map]; auto.
      + intros d m. rewrite assoc_insert. destruct (assoc d (dc_map c)) eqn:F.
        * intros K. injection K as <-. apply H3. exact F.
        * destruct (diag_eqb p d) eqn:Gp; [|discriminate]. intros K. injection K as <-.
          apply diag_eqb_true in Gp. subst. exact En.
      + intros d. rewrite in_app_iff, H4, assoc_insert. cbn.
        destruct (assoc d (dc_map c)); [split; [discriminate|left; discriminate]|].
        destruct (diag_eqb p d) eqn:Gp.
        * apply diag_eqb_true in Gp. subst. split; [discriminate|tauto].
        * split; [|tauto]. intros [K|[K|[]]]; [exact K|]. subst. rewrite diag_eqb_refl in Gp. discriminate.
      + intros i. rewrite H5. split; intros [d [D1 D2]].
        * exists d. rewrite in_app_iff. tauto.
        * rewrite in_app_iff in D1. destruct D1 as [D1|[<-|[]]]; [eauto|]. apply H5. subst i.
          eapply nth_error_In. exact En.
    - apply find_idx_none in E. split; cbn [dc_data dc_int dc_map].
      + rewrite map_app, H1. reflexivity.
      + replace (dc_int c ++ [to_internal p]) with (rev (to_internal p :: rev (dc_int c))) by (cbn; rewrite rev_involutive; reflexivity).
        apply NoDup_rev. constructor; [rewrite <- in_rev; exact E|apply NoDup_rev; exact H2].
      + intros d m. rewrite assoc_insert. destruct (assoc d (dc_map c)) eqn:F.
        * intros K. injection K as <-. apply nth_app_some. apply H3. exact F.
        * destruct (diag_eqb p d) eqn:Gp; [|discriminate]. intros K. injection K as <-.
          apply diag_eqb_true in Gp. subst. rewrite nth_error_app2, Nat.sub_diag by lia. reflexivity.
      + intros d. rewrite in_app_iff, H4, assoc_insert. cbn.
        destruct (assoc d (dc_map c)); [split; [discriminate|left; discriminate]|].
        destruct (diag_eqb p d) eqn:Gp.
        * apply diag_eqb_true in Gp. subst. split; [discriminate|tauto].
        * split; [|tauto]. intros [K|[K|[]]]; [exact K|]. subst. rewrite diag_eqb_refl in Gp. discriminate.
      + intros i. rewrite in_app_iff, H5. cbn. split.
        * intros [[d [D1 D2]]|[D|[]]]; [exists d; rewrite in_app_iff; tauto|]. exists p. rewrite in_app_iff. cbn. tauto.
        * intros [d [D1 D2]]. rewrite in_app_iff in D1. destruct D1 as [D1|[<-|[]]]; [left; eauto|right; left; exact D2].
  Qed.
  Lemma prepare_one_pub : forall l c, dc_pub (fold_left (prepare_one o) l c) = dc_pub c.
  Proof.
    induction l as [|p l IH]; intros c; [reflexivity|]. cbn. rewrite IH. unfold prepare_one.
    destruct (find_idx (to_internal p) (dc_int c)); reflexivity.
  Qed.
  Lemma prepare_fold : forall l c seen, pre_wf c seen -> pre_wf (fold_left (prepare_one o) l c) (seen ++ l).
  Proof.
    induction l as [|p l IH]; intros c seen H; [rewrite app_nil_r; exact H|]. cbn.
    replace (seen ++ p :: l) with ((seen ++ [p]) ++ l) by (rewrite <- app_assoc; reflexivity).
    apply IH. apply prepare_one_wf. exact H.
  Qed.
  Lemma prepare_pub : forall l, dc_pub (prepare o l) = unique l.
  Proof. intros. unfold prepare. rewrite prepare_one_pub. reflexivity. Qed.
  Lemma prepare_wf : forall l, wf (prepare o l).
  Proof.
    intros l. assert (H : pre_wf (mk_dcont [] (unique l) [] [] : dcont S) []).
    { split; cbn; try tauto; try constructor; try discriminate. intros []. intros [d [[] _]]. }
    pose proof (prepare_fold (unique l) _ _ H) as [H1 H2 H3 H4 H5]. cbn [app] in *.
    assert (E : dc_pub (fold_left (prepare_one o) (unique l) (mk_dcont [] (unique l) [] [])) = unique l)
      by (rewrite prepare_one_pub; reflexivity).
    unfold prepare. split; auto; rewrite E; assumption.
  Qed.
  Lemma add_wf : forall c d, wf c -> wf (add_if_unsupported o c d).
  Proof. intros c d H. unfold add_if_unsupported. destruct (dc_contains c d); [exact H|apply prepare_wf]. Qed.
  Lemma add_pub : forall c d x, In x (dc_pub (add_if_unsupported o c d)) <-> In x (dc_pub c) \/ x = d.
  Proof.
    intros c d x. unfold add_if_unsupported. destruct (dc_contains c d) eqn:E.
    - split; [auto|]. intros [K|K]; [exact K|]. subst x. unfold dc_contains in E. apply existsb_exists in E.
      destruct E as [y [Y1 Y2]]. apply diag_eqb_true in Y2. subst y. exact Y1.
    - rewrite prepare_pub, unique_in, in_app_iff. cbn. split; intros [K|K]; auto. destruct K as [K|[]]; auto.
  Qed.

  Lemma find_names : forall (l : list (ddata S)) n i,
    NoDup (map d_name l) -> nth_error (map d_name l) n = Some i ->
    exists x, nth_error l n = Some x /\ d_name x = i /\ find (fun y => idiag_eqb (d_name y) i) l = Some x.
  Proof.
    induction l as [|a t IH]; intros n i ND H; [destruct n; discriminate|].
    cbn in ND. apply NoDup_cons_iff in ND. destruct ND as [N1 N2]. destruct n as [|n]; cbn in H |- *.
    - injection H as H. rewrite (proj2 (idiag_eqb_true _ _) H). eauto.
    - destruct (IH n i N2 H) as [x [X1 [X2 X3]]]. exists x. repeat split; auto.
      destruct (idiag_eqb (d_name a) i) eqn:E; [|exact X3]. apply idiag_eqb_true in E.
      exfalso. apply N1. rewrite E. eapply nth_error_In. exact H.
  Qed.
  Lemma find_none : forall (l : list (ddata S)) i,
    find (fun y => idiag_eqb (d_name y) i) l = None <-> ~ In i (map d_name l).
  Proof.
    induction l as [|a t IH]; intros i; cbn; [tauto|]. destruct (idiag_eqb (d_name a) i) eqn:E.
    - apply idiag_eqb_true in E. split; [discriminate|tauto].
    - apply idiag_eqb_false in E. rewrite IH. tauto.
  Qed.

  Lemma tracked_some : forall c i, wf c ->
    (tracked c i <> None <-> exists d, In d (dc_pub c) /\ to_internal d = i).
  Proof.
    intros c i [H1 H2 H3 H4 H5]. rewrite <- H5, <- H1. unfold tracked. rewrite find_none.
    split; [|tauto]. intros K. destruct (in_dec idiag_eq_dec i (map d_name (dc_data c))); tauto.
  Qed.
  Lemma tracked_name : forall c i x, tracked c i = Some x -> d_name x = i.
  Proof. intros c i x H. apply find_some in H. apply idiag_eqb_true. tauto. Qed.
  Lemma at_tracked : forall c d, wf c -> In d (dc_pub c) ->
    exists x, dc_at c d = Ok x /\ tracked c (to_internal d) = Some x.
  Proof.
    intros c d [H1 H2 H3 H4 H5] Hd. unfold dc_at. apply H4 in Hd.
    destruct (assoc d (dc_map c)) as [n|] eqn:E; [|congruence].
    apply H3 in E. rewrite <- H1 in E, H2. destruct (find_names _ _ _ H2 E) as [x [X1 [X2 X3]]].
    exists x. rewrite X1. auto.
  Qed.
  Lemma at_missing : forall c d, wf c -> ~ In d (dc_pub c) -> dc_at c d = Throw EOutOfRange.
  Proof.
    intros c d [H1 H2 H3 H4 H5] Hd. unfold dc_at. destruct (assoc d (dc_map c)) eqn:E; [|reflexivity].
    exfalso. apply Hd. apply H4. congruence.
  Qed.
  Lemma find_idx_tracked : forall c i, wf c ->
    match find_idx i (dc_int c) with
    | Some n => exists x, nth_error (dc_data c) n = Some x /\ tracked c i = Some x
    | None => tracked c i = None
    end.
  Proof.
    intros c i [H1 H2 H3 H4 H5]. destruct (find_idx i (dc_int c)) as [n|] eqn:E.
    - apply find_idx_some in E. rewrite <- H1 in E, H2. destruct (find_names _ _ _ H2 E) as [x [X1 [X2 X3]]]. eauto.
    - apply find_idx_none in E. apply find_none. rewrite H1. exact E.
  Qed.
  Lemma iat_tracked : forall c i, wf c ->
    dc_iat c i = match tracked c i with Some x => Ok x | None => Undef UOutOfBounds end.
  Proof.
    intros c i H. unfold dc_iat. pose proof (find_idx_tracked c i H) as K.
    destruct (find_idx i (dc_int c)); [destruct K as [x [-> ->]]; reflexivity|rewrite K; reflexivity].
  Qed.

  Definition same_names (c c' : dcont S) : Prop :=
    map d_name (dc_data c') = map d_name (dc_data c) /\ dc_pub c' = dc_pub c /\
    dc_int c' = dc_int c /\ dc_map c' = dc_map c.
  Lemma same_wf : forall c c', same_names c c' -> wf c -> wf c'.
  Proof.
    intros c c' [E1 [E2 [E3 E4]]] [H1 H2 H3 H4 H5]. split; rewrite ?E1, ?E2, ?E3, ?E4; auto.
  Qed.
  Lemma set_nth_names : forall n (x y : ddata S) l,
    nth_error l n = Some x -> d_name y = d_name x -> map d_name (set_nth n y l) = map d_name l.
  Proof.
    induction n as [|n IH]; intros x y [|a t] H E; try discriminate; cbn in H |- *.
    - injection H as ->. rewrite E. reflexivity.
    - f_equal. eapply IH; eauto.
  Qed.
  Lemma find_set_nth : forall l n (x y : ddata S) i,
    NoDup (map d_name l) -> nth_error l n = Some x -> d_name y = d_name x ->
    find (fun z => idiag_eqb (d_name z) i) (set_nth n y l) =
    if idiag_eqb (d_name x) i then Some y else find (fun z => idiag_eqb (d_name z) i) l.
  Proof.
    induction l as [|a t IH]; intros n x y i ND H E; [destruct n; discriminate|].
    cbn in ND. apply NoDup_cons_iff in ND. destruct ND as [N1 N2].
    destruct n as [|n]; cbn in H |- *.
    - injection H as ->. rewrite E. destruct (idiag_eqb (d_name x) i); reflexivity.
    - rewrite (IH n x y i N2 H E). destruct (idiag_eqb (d_name x) i) eqn:F; [|reflexivity].
      apply idiag_eqb_true in F. destruct (idiag_eqb (d_name a) i) eqn:F'; [|reflexivity].
      apply idiag_eqb_true in F'. exfalso. apply N1. rewrite F', <- F. apply in_map. eapply nth_error_In. exact H.
  Qed.
  Lemma d_update_name : forall d v f, d_name (d_update o d v f) = d_name d.
  Proof. intros. unfold d_update. destruct f; reflexivity. Qed.

  Lemma iupdate_tracked : forall c i v f, wf c ->
    match tracked c i with
    | None => dc_iupdate o c i v f = Undef UOutOfBounds
    | Some x => exists c', dc_iupdate o c i v f = Ok c' /\ same_names c c' /\
        forall i', tracked c' i' = if idiag_eqb i i' then Some (d_update o x v f) else tracked c i'
    end.
  Proof.
    intros c i v f H. unfold dc_iupdate. pose proof (find_idx_tracked c i H) as K.
    destruct (find_idx i (dc_int c)) as [n|] eqn:E; [|rewrite K; reflexivity].
    destruct K as [x [X1 X2]]. rewrite X1, X2. eexists. split; [reflexivity|].
    pose proof (tracked_name _ _ _ X2) as X3. split.
    - repeat split; cbn [dc_data dc_pub dc_int dc_map]; try reflexivity.
      eapply set_nth_names; [exact X1|]. apply d_update_name.
    - intros i'. unfold tracked. cbn [dc_data]. rewrite (find_set_nth _ _ x) by
        (auto using d_update_name; rewrite (wf_names _ H); apply (wf_nodup _ H)).
      rewrite X3. reflexivity.
  Qed.
  Lemma map_tracked : forall c f, (forall x, d_name (f x) = d_name x) ->
    let c' := mk_dcont (map f (dc_data c)) (dc_pub c) (dc_int c) (dc_map c) : dcont S in
    same_names c c' /\ forall i, tracked c' i = option_map f (tracked c i).
  Proof.
    intros c f Hf. cbn zeta. split.
    - repeat split. cbn [dc_data]. rewrite map_map. apply map_ext. exact Hf.
    - intros i. unfold tracked. cbn [dc_data]. induction (dc_data c) as [|a t IH]; [reflexivity|].
      cbn. rewrite Hf. destruct (idiag_eqb (d_name a) i); [reflexivity|exact IH].
  Qed.

  (** The value shown for a public diagnostic. *)
  Definition shown (c : dcont S) (d : diag) : S :=
    match tracked c (to_internal d) with Some x => d_value d x | None => s0 o end.
  Lemma logged_ok : forall c l, wf c -> (forall d, In d l -> In d (dc_pub c)) ->
    logged c l = Ok (map (fun d => (d, shown c d)) l).
  Proof.
    intros c l H. induction l as [|d l IH]; intros Hl; [reflexivity|]. cbn.
    destruct (at_tracked c d H (Hl d (or_introl eq_refl))) as [x [E1 E2]]. rewrite E1.
    rewrite IH by (intros; apply Hl; right; assumption). unfold shown at 2. rewrite E2. reflexivity.
  Qed.
  Definition printable (c : dcont S) : bool :=
    (Nat.leb 1 (length (dc_pub c)) && Nat.leb (length (dc_pub c)) 11)%bool.
  Lemma log_line_ok : forall c, wf c ->
    log_line c = Ok (if printable c then map (fun d => (d, shown c d)) (dc_pub c) else []).
  Proof.
    intros c H. unfold log_line, printable. destruct (_ && _)%bool; [|reflexivity].
    apply logged_ok; auto.
  Qed.

  Lemma make_wf : forall l, wf (make_container o l).
  Proof. intros. apply add_wf. apply prepare_wf. Qed.
  Lemma make_pub : forall l d, In d (dc_pub (make_container o l)) <-> In d l \/ d = CorrectionAbs.
  Proof. intros. unfold make_container. rewrite add_pub, prepare_pub, unique_in. reflexivity. Qed.
End Cont.

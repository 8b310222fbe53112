(** What a factorisation leaves in the caller's matrix, and a QR object used again for a
    matrix with another number of columns. *)
From Coq Require Import Reals ZArith List Bool Lia Lra.
From Verif Require Import Base RInst Laws LawInst NonlinLaws NonlinExact QrModel QrSpec QrProofs QrSolve.
Import ListNotations.

Section Reuse.
  Context {S V : Type}.
  Variable o : sops S.
  Variable vo : vops S V.
  Variable dot : V -> V -> S.
  Variable norm : V -> S.
  Notation proj := (proj o vo dot).
  Notation unit_of := (unit_of o vo norm).
  Notation gs := (gs o vo dot norm).
  Notation pad := (pad o).
  Lemma lset_end : forall A (l : list A) x, lset (length l) x l = None.
  Proof. induction l as [|a l IH]; intros x; cbn; [reflexivity|]. rewrite IH. reflexivity. Qed.
  Lemma outer_short : forall m k pre rest qpre qold Rpre junk, length pre = k -> length qpre = k -> length Rpre = k ->
    length rest = m -> (length qold < m)%nat -> tri m junk ->
    fst (outer_loop o vo dot norm k m (mk_mgs (pre ++ rest) (Some (qpre ++ qold)) (Rpre ++ pad k junk))) = Undef UOutOfBounds.
  Proof.
    induction m as [|m IH]; intros k pre rest qpre qold Rpre junk Hp Hq HR Hr Ho Hj; [lia|].
    destruct rest as [|a rest]; [discriminate|].
    destruct junk as [|row junk]; [contradiction|]. destruct Hj as [Hrow Hj]. destruct row as [|d row]; [discriminate|].
    injection Hr as Hr. injection Hrow as Hrow. cbn [outer_loop QrProofs.pad app].
    unfold bind at 1. rewrite <- Hp at 1. rewrite get_here. unfold bind at 1.
    assert (E : forall q, set_r k k (norm a) (mk_mgs (pre ++ a :: rest) q (Rpre ++ (repeat (s0 o) k ++ d :: row) :: pad (Datatypes.S k) junk)) =
      (Ok tt, mk_mgs (pre ++ a :: rest) q (Rpre ++ (repeat (s0 o) k ++ norm a :: row) :: pad (Datatypes.S k) junk))).
    { intros q. rewrite <- (setr_here Rpre (repeat (s0 o) k) (norm a) d). rewrite repeat_length, HR. reflexivity. }
    rewrite E. cbv zeta. fold (unit_of a). unfold bind at 1.
    destruct qold as [|q0 qold].
    - rewrite app_nil_r. unfold set_q. cbn [mg_Q]. rewrite <- Hq at 1. rewrite lset_end. reflexivity.
    - rewrite <- Hq at 1. rewrite setq_here. unfold bind at 1.
      pose proof (inner_ok o vo dot (unit_of a) rest k (pre ++ [a]) Rpre (repeat (s0 o) k ++ [norm a]) row (pad (Datatypes.S k) junk) (Some (qpre ++ unit_of a :: qold)) HR) as K.
      rewrite !app_length, repeat_length, Hp in K. cbn [length] in K. rewrite !Nat.add_1_r in K. rewrite <- !app_assoc in K. cbn [app] in K.
      rewrite Hr in K. rewrite K by lia.
      specialize (IH (Datatypes.S k) (pre ++ [a]) (map (proj (unit_of a)) rest) (qpre ++ [unit_of a]) qold
        (Rpre ++ [repeat (s0 o) k ++ norm a :: map (dot (unit_of a)) rest]) junk).
      rewrite !app_length in IH. cbn [length] in IH, Ho. rewrite <- !app_assoc in IH. cbn [app] in IH.
      apply IH; try assumption; try lia. rewrite map_length. exact Hr.
  Qed.
  (** the object after a factorisation of n columns *)
  Definition used_for (n : nat) (q : list V) (s : mgs S V) : Prop :=
    mg_Q s = Some q /\ length q = n /\ length (mg_R s) = n.
  Lemma thin_used : forall s r s', usable o s -> compute_thin o vo dot norm s = (r, s') ->
    exists q, used_for (length (mg_A s)) q s'.
  Proof.
    intros s r s' Hu E. rewrite (thin_ok o vo dot norm s Hu) in E.
    pose proof (gs_length o vo dot norm (length (mg_A s)) (mg_A s) eq_refl) as L.
    destruct (gs _ _) as [[Q U] B]. injection E as _ <-. exists Q. unfold used_for. cbn. rewrite pad_len. tauto.
  Qed.
  Lemma thin_other : forall n q A (s : mgs S V), used_for n q s -> length A <> n ->
    compute_thin o vo dot norm (mk_mgs A (mg_Q s) (mg_R s)) =
    outer_loop o vo dot norm 0 (length A) (mk_mgs A (Some q) (pad 0 (map (fun i => repeat (s0 o) i) (rev (seq 1 (length A)))))).
  Proof.
    intros n q A s [E1 [E2 E3]] Hn. unfold compute_thin, bind, create_q, create_r. cbn [mg_A mg_Q mg_R]. rewrite E1. cbn [mg_A mg_Q mg_R].
    rewrite E3. destruct (Nat.eqb_spec n (length A)) as [h|_]; [congruence|]. cbn [andb]. rewrite tri_zero. reflexivity.
  Qed.
  Lemma more_columns : forall n q A (s : mgs S V), used_for n q s -> (n < length A)%nat ->
    exists s', compute_thin o vo dot norm (mk_mgs A (mg_Q s) (mg_R s)) = (Undef UOutOfBounds, s').
  Proof.
    intros n q A s Hs Hn. rewrite (thin_other n q A s Hs) by lia. destruct Hs as [_ [Hq _]].
    pose proof (outer_short (length A) 0 [] A [] q [] _ eq_refl eq_refl eq_refl eq_refl ltac:(rewrite Hq; exact Hn) (tri_zero_tri o _)) as K.
    cbn [app] in K. destruct (outer_loop _ _ _ _ _ _ _) as [r s']. cbn in K. subst r. eexists. reflexivity.
  Qed.
  Lemma fewer_columns : forall n q A (s : mgs S V), used_for n q s -> (length A < n)%nat ->
    exists B Q U, compute_thin o vo dot norm (mk_mgs A (mg_Q s) (mg_R s)) = (Ok tt, mk_mgs B (Some Q) U) /\
      length Q = n /\ skipn (length A) Q = skipn (length A) q.
  Proof.
    intros n q A s Hs Hn. rewrite (thin_other n q A s Hs) by lia. destruct Hs as [_ [Hq _]].
    pose proof (outer_ok o vo dot norm (length A) 0 [] A [] (firstn (length A) q) (skipn (length A) q) [] _ eq_refl eq_refl eq_refl eq_refl
      ltac:(rewrite firstn_length; lia) (tri_zero_tri o (length A))) as K.
    cbn [app] in K. rewrite firstn_skipn in K. rewrite K.
    pose proof (gs_length o vo dot norm (length A) A eq_refl) as L. destruct (gs _ _) as [[Q U] B]. destruct L as [L1 [L2 [L3 L4]]].
    exists B, (Q ++ skipn (length A) q), (pad 0 U). split; [reflexivity|]. split.
    - rewrite app_length, skipn_length. lia.
    - rewrite skipn_app, L1, Nat.sub_diag, skipn_all2 by lia. reflexivity.
  Qed.
  Lemma reuse_more : forall (s : mgs S V) r s1 A, usable o s -> compute_thin o vo dot norm s = (r, s1) -> (length (mg_A s) < length A)%nat ->
    exists s', compute_thin o vo dot norm (mk_mgs A (mg_Q s1) (mg_R s1)) = (Undef UOutOfBounds, s').
  Proof. intros s r s1 A Hu E Hn. destruct (thin_used s r s1 Hu E) as [q Hq]. exact (more_columns _ q A s1 Hq Hn). Qed.
  Lemma reuse_fewer : forall (s : mgs S V) r s1 A, usable o s -> compute_thin o vo dot norm s = (r, s1) -> (length A < length (mg_A s))%nat ->
    exists B Q U, compute_thin o vo dot norm (mk_mgs A (mg_Q s1) (mg_R s1)) = (Ok tt, mk_mgs B (Some Q) U) /\ length Q <> length A.
  Proof.
    intros s r s1 A Hu E Hn. destruct (thin_used s r s1 Hu E) as [q Hq]. destruct (fewer_columns _ q A s1 Hq Hn) as [B [Q [U [E1 [E2 _]]]]].
    exists B, Q, U. split; [exact E1|lia].
  Qed.
  Lemma reuse_usable : forall (s : mgs S V) r s1 A, usable o s -> compute_thin o vo dot norm s = (r, s1) -> length A = length (mg_A s) ->
    usable o (mk_mgs A (mg_Q s1) (mg_R s1)).
  Proof.
    intros s r s1 A Hu E Hn. rewrite (thin_ok o vo dot norm s Hu) in E.
    pose proof (gs_length o vo dot norm (length (mg_A s)) (mg_A s) eq_refl) as L.
    destruct (gs _ _) as [[Q U] B]. injection E as _ <-. right. exists Q, U. cbn [mg_A mg_Q mg_R]. rewrite Hn. tauto.
  Qed.
End Reuse.

Section Input.
  Local Open Scope R_scope.
  Context {eps : R} {V : Type} (vo : vops R V) (dot : V -> V -> R).
  Hypothesis HI : inner eps vo dot.
  Notation o := (Rops eps).
  Variable norm : V -> R.
  Hypothesis Hnorm : forall v, norm v = sqrt (dot v v).
  Lemma gs_final : forall m A, length A = m -> forall k i b p,
    nth_error (snd (gs o vo dot norm m A)) i = Some b -> nth_error (fst (fst (gs o vo dot norm m A))) i = Some p ->
    b = vscale vo (entry (pad o k (snd (fst (gs o vo dot norm m A)))) i (k + i)) p.
  Proof.
    induction m as [|m IH]; intros A HA k i b p Hb Hp; [destruct i; discriminate|].
    destruct A as [|a A]; [discriminate|]. injection HA as HA. cbn [gs] in *.
    specialize (IH (map (proj o vo dot (unit_of o vo norm a)) A)). rewrite map_length in IH. specialize (IH HA).
    destruct (gs o vo dot norm m (map (proj o vo dot (unit_of o vo norm a)) A)) as [[Q U] B]. cbn [fst snd] in *.
    destruct i as [|i]; cbn [nth_error] in Hb, Hp.
    - injection Hb as <-. injection Hp as <-. unfold entry. cbn [pad nth]. 
      rewrite (nth_pad_row (eps:=eps) k 0). cbn [nth]. symmetry. exact (norm_unit vo dot HI norm Hnorm a).
    - unfold entry. cbn [pad nth]. specialize (IH (Datatypes.S k) i b p Hb Hp). unfold entry in IH.
      replace (k + Datatypes.S i)%nat with (Datatypes.S k + i)%nat by lia. exact IH.
  Qed.
  (** The caller's matrix ends with orthogonal columns. *)
  Lemma thin_overwrites : forall s, usable o s -> independent vo (mg_A s) ->
    exists B Q U, compute_thin o vo dot norm s = (Ok tt, mk_mgs B (Some Q) U) /\ length B = length (mg_A s) /\
      (forall i b p, nth_error B i = Some b -> nth_error Q i = Some p -> b = vscale vo (entry U i i) p) /\
      (forall i j b c, i <> j -> nth_error B i = Some b -> nth_error B j = Some c -> dot b c = 0).
  Proof.
    intros s Hu Hi. pose proof (gs_final (length (mg_A s)) (mg_A s) eq_refl 0) as K.
    pose proof (gs_orthonormal vo dot HI norm Hnorm (length (mg_A s)) (mg_A s) eq_refl Hi) as Ho.
    rewrite (thin_ok o vo dot norm s Hu).
    pose proof (gs_length o vo dot norm (length (mg_A s)) (mg_A s) eq_refl) as L. 
    destruct (gs o vo dot norm (length (mg_A s)) (mg_A s)) as [[Q U] B]. cbn [fst snd Nat.add] in *. destruct L as [L1 [L2 [L3 L4]]].
    exists B, Q, (pad o 0 U). split; [reflexivity|]. split; [exact L3|]. split; [exact K|].
    intros i j b c Hij Hb Hc.
    assert (Hex : forall k x, nth_error B k = Some x -> exists p, nth_error Q k = Some p).
    { intros k x Hx. destruct (nth_error Q k) as [p|] eqn:E; [eauto|]. apply nth_error_None in E.
      assert (k < length B)%nat by (apply nth_error_Some; congruence). lia. }
    destruct (Hex i b Hb) as [p Hp]. destruct (Hex j c Hc) as [p' Hp'].
    rewrite (K i b p Hb Hp), (K j c p' Hc Hp'), (in_scale _ _ HI), (dot_scale_r _ _ HI), (Ho i j p p' Hp Hp').
    destruct (Nat.eqb_spec i j) as [h|_]; [contradiction|]. ring.
  Qed.
  (** so it is kept only if its columns were orthogonal already *)
  Lemma input_kept : forall s s', usable o s -> independent vo (mg_A s) -> compute_thin o vo dot norm s = (Ok tt, s') ->
    mg_A s' = mg_A s -> forall i j a b, i <> j -> nth_error (mg_A s) i = Some a -> nth_error (mg_A s) j = Some b -> dot a b = 0.
  Proof.
    intros s s' Hu Hi E Hk i j a b Hij Ha Hb. destruct (thin_overwrites s Hu Hi) as [B [Q [U [E' [_ [_ Ho]]]]]].
    rewrite E in E'. injection E' as ->. cbn [mg_A] in Hk. subst B. exact (Ho i j a b Hij Ha Hb).
  Qed.
  Lemma input_changed : forall s s', usable o s -> independent vo (mg_A s) -> compute_thin o vo dot norm s = (Ok tt, s') ->
    forall i j a b, i <> j -> nth_error (mg_A s) i = Some a -> nth_error (mg_A s) j = Some b -> dot a b <> 0 -> mg_A s' <> mg_A s.
  Proof. intros s s' Hu Hi E i j a b Hij Ha Hb Hd Hk. apply Hd. exact (input_kept s s' Hu Hi E Hk i j a b Hij Ha Hb). Qed.
  Lemma reuse_same : forall s r s1 A, usable o s -> compute_thin o vo dot norm s = (r, s1) -> length A = length (mg_A s) -> independent vo A ->
    exists B Q U, compute_thin o vo dot norm (mk_mgs A (mg_Q s1) (mg_R s1)) = (Ok tt, mk_mgs B (Some Q) U) /\ is_qr vo dot A Q U.
  Proof.
    intros s r s1 A Hu E Hn Hi. pose proof (reuse_usable o vo dot norm s r s1 A Hu E Hn) as Hu'.
    destruct (mgs_qr vo dot HI norm Hnorm _ Hu' Hi) as [B [Q [U [K1 [K2 _]]]]]. exists B, Q, U. auto.
  Qed.
End Input.

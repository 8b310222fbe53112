(** The QR objects for Eigen matrices: histories, copies. *)
From Coq Require Import ZArith List Bool Lia.
From Verif Require Import Base QrModel HouseModel HouseSpec.
Import ListNotations.
Local Open Scope nat_scope.

Lemma lset_some {A} : forall (l : list A) k x, k < length l -> exists l', lset k x l = Some l'.
Proof.
  induction l as [|a l IH]; intros k x H; cbn in H; [lia|]. destruct k as [|k]; [eexists; reflexivity|].
  destruct (IH k x) as [l' E]; [lia|]. cbn. rewrite E. eexists. reflexivity.
Qed.
Lemma lset_nth {A} : forall (l l' : list A) k x, lset k x l = Some l' ->
  length l' = length l /\ nth_error l' k = Some x /\ forall i, i <> k -> nth_error l' i = nth_error l i.
Proof.
  induction l as [|a l IH]; intros l' k x H; [destruct k; discriminate|]. destruct k as [|k]; cbn in H.
  - injection H as <-. repeat split. intros [|i] Hi; [lia|reflexivity].
  - destruct (lset k x l) as [t|] eqn:E; [|discriminate]. injection H as <-. destruct (IH _ _ _ E) as (L & N & F).
    cbn. repeat split; [lia|exact N|]. intros [|i] Hi; [reflexivity|]. cbn. apply F. lia.
Qed.
Lemma nth_end {A} : forall (l : list A) x, nth_error (l ++ [x]) (length l) = Some x.
Proof. intros l x. rewrite nth_error_app2 by lia. rewrite Nat.sub_diag. reflexivity. Qed.

Section House.
  Context {S : Type} (o : sops S) (hh : dmat S -> dmat S * dmat S).
  Notation q_of a := (thin_part o (dm_rows a) (dm_ncols a) (fst (hh a))).

  Lemma thin_ncols : forall r n q, dm_ncols (thin_part o r n q) = n.
  Proof. intros r n q. unfold dm_ncols. cbn [dm_cols thin_part]. rewrite firstn_length, app_length, repeat_length. lia. Qed.
  (** What a factorisation does to a usable object. *)
  Lemma compute_ok : forall a st h, valid (st, h) ->
    exists st' p, compute_house o hh a (st, h) = (Ok tt, (st', mk_house (Some p) (Some (hh a)))) /\
      nth_error st' p = Some (q_of a) /\ length st <= length st' /\
      (forall i, i <> p -> i < length st -> nth_error st' i = nth_error st i) /\
      ((h_Q h = Some p /\ exists old, nth_error st p = Some old /\ needs_new (dm_rows a) (dm_ncols a) old = false) \/ p = length st).
  Proof.
    intros a st [q f] V. unfold valid in V. cbn [snd h_Q fst] in V. unfold compute_house. cbn [h_Q].
    assert (new : exists st' p, (Ok tt, (st ++ [q_of a], mk_house (Some (length st)) (Some (hh a)))) = (Ok tt, (st', mk_house (Some p) (Some (hh a)))) /\
      nth_error st' p = Some (q_of a) /\ length st <= length st' /\
      (forall i, i <> p -> i < length st -> nth_error st' i = nth_error st i) /\
      ((q = Some p /\ exists old, nth_error st p = Some old /\ needs_new (dm_rows a) (dm_ncols a) old = false) \/ p = length st)).
    { exists (st ++ [q_of a]), (length st). split; [reflexivity|]. split; [apply nth_end|]. split; [rewrite app_length; lia|].
      split; [|right; reflexivity]. intros i _ Hi. apply nth_error_app1. exact Hi. }
    destruct q as [p|]; [|exact new].
    destruct (nth_error st p) as [old|] eqn:E; [|apply nth_error_None in E; lia].
    destruct (needs_new (dm_rows a) (dm_ncols a) old) eqn:N; [exact new|].
    destruct (lset_some st p (q_of a) V) as [st' L]. rewrite L. destruct (lset_nth _ _ _ _ L) as (L1 & L2 & L3).
    exists st', p. split; [reflexivity|]. split; [exact L2|]. split; [lia|]. split; [intros i Hi _; apply L3; exact Hi|].
    left. split; [reflexivity|]. exists old. auto.
  Qed.
  Lemma q_factor_at : forall (st : list (dmat S)) p f q, nth_error st p = Some q -> q_factor (st, mk_house (Some p) f) = (Ok q, (st, mk_house (Some p) f)).
  Proof. intros st p f q E. cbn. rewrite E. reflexivity. Qed.
  Lemma answers_of : forall (g g' : hst (S:=S)), fst (q_factor g) = fst (q_factor g') -> h_fct (snd g) = h_fct (snd g') -> same_answers o g g'.
  Proof.
    intros [st h] [st' h'] E F. cbn [snd] in F. split; [exact E|]. split; [|split].
    - intros vin vout. unfold apply_qt_house. destruct (q_factor (st, h)) as [e x], (q_factor (st', h')) as [e' x']. cbn [fst] in E. subst e'.
      destruct e; try reflexivity. destruct (_ && _); reflexivity.
    - intros rhs y. unfold solve_house. rewrite F. destruct (h_fct h') as [[? m]|]; [|reflexivity]. destruct (block o (length y) m); [|reflexivity].
      destruct (_ =? _); reflexivity.
    - intros vin y. unfold apply_rt_house. rewrite F. destruct (h_fct h') as [[? m]|]; [|reflexivity]. destruct (block o (length y) m); [|reflexivity].
      destruct (_ =? _); reflexivity.
  Qed.
  (** The history of the object does not matter. *)
  Lemma last_matrix : forall a st h, valid (st, h) ->
    exists g, compute_house o hh a (st, h) = (Ok tt, g) /\ valid g /\
      same_answers o g (snd (compute_house o hh a ([], new_house))).
  Proof.
    intros a st h V. destruct (compute_ok a st h V) as (st' & p & E & N & L & _ & _).
    exists (st', mk_house (Some p) (Some (hh a))). split; [exact E|]. split.
    - unfold valid. cbn. apply nth_error_Some. congruence.
    - apply answers_of; [|reflexivity]. rewrite (q_factor_at _ _ _ _ N). reflexivity.
  Qed.
  Lemma unused : forall (st : list (dmat S)) vin vout,
    fst (q_factor (st, new_house)) = Undef UNullDeref /\ fst (apply_qt_house o vin vout (st, new_house)) = Undef UNullDeref /\
    fst (solve_house o vin vout (st, new_house)) = Undef UNullDeref /\ fst (apply_rt_house o vin vout (st, new_house)) = Undef UNullDeref.
  Proof. repeat split. Qed.
  (** Asking changes nothing. *)
  Lemma asking : forall (g : hst (S:=S)) vin vout,
    snd (q_factor g) = g /\ snd (apply_qt_house o vin vout g) = g /\ snd (solve_house o vin vout g) = g /\ snd (apply_rt_house o vin vout g) = g.
  Proof.
    intros [st h] vin vout.
    assert (Q : snd (q_factor (st, h)) = (st, h)).
    { cbn. destruct (h_Q h) as [p|]; [|reflexivity]. destruct (nth_error st p); reflexivity. }
    split; [exact Q|]. split; [|split].
    - unfold apply_qt_house. destruct (q_factor (st, h)) as [e x]. cbn [snd] in Q. subst x. destruct e; try reflexivity. destruct (_ && _); reflexivity.
    - unfold solve_house. destruct (h_fct h) as [[? m]|]; [|reflexivity]. destruct (block o (length vout) m); [|reflexivity]. destruct (_ =? _); reflexivity.
    - unfold apply_rt_house. destruct (h_fct h) as [[? m]|]; [|reflexivity]. destruct (block o (length vout) m); [|reflexivity]. destruct (_ =? _); reflexivity.
  Qed.
  Lemma asking_t : forall (g : tst (S:=S)) vin vout,
    snd (q_factor_t g) = g /\ snd (apply_qt_thouse o vin vout g) = g /\ snd (solve_thouse o vin vout g) = g.
  Proof.
    intros [st [h q]] vin vout. split; [cbn; destruct q; reflexivity|]. split.
    - cbn. destruct q as [q|]; [|reflexivity]. destruct (_ && _); reflexivity.
    - unfold solve_thouse. cbn [t_impl t_Q]. pose proof (proj1 (proj2 (proj2 (asking (st, h) vin vout)))) as A.
      destruct (solve_house o vin vout (st, h)) as [r [st' h']]. cbn in A |- *. injection A as -> ->. reflexivity.
  Qed.
  (** The Tpetra object *)
  Lemma tpetra_answers : forall a st t, valid (st, t_impl t) ->
    exists g, compute_thouse o hh a (st, t) = (Ok tt, g) /\ valid (fst g, t_impl (snd g)) /\
      same_answers_t o g (snd (compute_house o hh a ([], new_house))).
  Proof.
    intros a st [h q] V. cbn [t_impl] in V. destruct (compute_ok a st h V) as (st' & p & E & N & _).
    unfold compute_thouse. cbn [t_impl t_Q]. rewrite E, (q_factor_at _ _ _ _ N). eexists. split; [reflexivity|]. split.
    - unfold valid. cbn. apply nth_error_Some. congruence.
    - split; [reflexivity|]. split.
      + intros vin vout. cbn -[thin_part]. destruct (_ && _); reflexivity.
      + intros rhs y. unfold solve_thouse, solve_house. cbn. destruct (hh a) as [F M]. cbn. destruct (block o (length y) M); [|reflexivity].
        destruct (_ =? _); reflexivity.
  Qed.

  (** ** Copies *)
  (** A copy is made after a; the copy factorises b. *)
  Lemma copy_same_size : forall a b st h st1 h1, valid (st, h) ->
    compute_house o hh a (st, h) = (Ok tt, (st1, h1)) -> (dm_rows b = dm_rows a \/ dm_ncols b = dm_ncols a) ->
    exists st2 h2, compute_house o hh b (st1, h1) = (Ok tt, (st2, h2)) /\
      fst (q_factor (st2, h1)) = Ok (q_of b) /\ h2 = mk_house (h_Q h1) (Some (hh b)).
  Proof.
    intros a b st h st1 h1 V E D. pose proof (thin_ncols (dm_rows a) (dm_ncols a) (fst (hh a))) as LQ. destruct (compute_ok a st h V) as (st' & p & E' & N & _). rewrite E' in E. injection E as <- <-.
    assert (Vp : p < length st') by (apply nth_error_Some; congruence).
    unfold compute_house. cbn [h_Q]. rewrite N.
    assert (K : needs_new (dm_rows b) (dm_ncols b) (q_of a) = false).
    { unfold needs_new. rewrite LQ. cbn [thin_part dm_rows]. destruct D as [-> | ->]; rewrite Nat.eqb_refl; cbn; [reflexivity|apply andb_false_r]. }
    rewrite K. destruct (lset_some st' p (q_of b) Vp) as [st2 L]. rewrite L. destruct (lset_nth _ _ _ _ L) as (_ & N2 & _).
    exists st2, (mk_house (Some p) (Some (hh b))). split; [reflexivity|]. split; [|reflexivity]. cbn. rewrite N2. reflexivity.
  Qed.
  Lemma copy_same : forall a b st h st1 h1, valid (st, h) ->
    compute_house o hh a (st, h) = (Ok tt, (st1, h1)) -> (dm_rows b = dm_rows a \/ dm_ncols b = dm_ncols a) ->
    exists st2 h2, compute_house o hh b (st1, h1) = (Ok tt, (st2, h2)) /\
      fst (q_factor (st2, h1)) = fst (q_factor (snd (compute_house o hh b ([], new_house)))).
  Proof.
    intros a b st h st1 h1 V E D. destruct (copy_same_size a b st h st1 h1 V E D) as (st2 & h2 & E2 & Q & _).
    exists st2, h2. split; [exact E2|]. rewrite Q. reflexivity.
  Qed.
  Lemma copy_other_size : forall a b st h st1 h1, valid (st, h) ->
    compute_house o hh a (st, h) = (Ok tt, (st1, h1)) -> dm_rows b <> dm_rows a -> dm_ncols b <> dm_ncols a ->
    exists st2 h2, compute_house o hh b (st1, h1) = (Ok tt, (st2, h2)) /\ same_answers o (st2, h1) (st1, h1).
  Proof.
    intros a b st h st1 h1 V E D1 D2. pose proof (thin_ncols (dm_rows a) (dm_ncols a) (fst (hh a))) as LQ. destruct (compute_ok a st h V) as (st' & p & E' & N & _). rewrite E' in E. injection E as <- <-.
    unfold compute_house. cbn [h_Q]. rewrite N.
    assert (K : needs_new (dm_rows b) (dm_ncols b) (q_of a) = true).
    { unfold needs_new. rewrite LQ. cbn [thin_part dm_rows].
      destruct (Nat.eqb_spec (dm_rows a) (dm_rows b)); [congruence|]. destruct (Nat.eqb_spec (dm_ncols a) (dm_ncols b)); [congruence|]. reflexivity. }
    rewrite K. eexists _, _. split; [reflexivity|]. apply answers_of; [|reflexivity]. cbn. rewrite nth_error_app1 by (apply nth_error_Some; congruence). rewrite N. reflexivity.
  Qed.
  (** R of the original is never touched *)
  Lemma copy_keeps_r : forall b st1 h1 e st2 h2 vin y, compute_house o hh b (st1, h1) = (e, (st2, h2)) ->
    fst (solve_house o vin y (st2, h1)) = fst (solve_house o vin y (st1, h1)) /\
    fst (apply_rt_house o vin y (st2, h1)) = fst (apply_rt_house o vin y (st1, h1)).
  Proof.
    intros b st1 h1 e st2 h2 vin y _. split.
    - unfold solve_house. destruct (h_fct h1) as [[? m]|]; [|reflexivity]. destruct (block o (length y) m); [|reflexivity]. destruct (_ =? _); reflexivity.
    - unfold apply_rt_house. destruct (h_fct h1) as [[? m]|]; [|reflexivity]. destruct (block o (length y) m); [|reflexivity]. destruct (_ =? _); reflexivity.
  Qed.
  (** Objects that do not share their matrix *)
  Lemma unrelated : forall b st h h', valid (st, h) -> valid (st, h') -> h_Q h <> h_Q h' ->
    exists st2 h2, compute_house o hh b (st, h) = (Ok tt, (st2, h2)) /\ valid (st2, h') /\ same_answers o (st2, h') (st, h').
  Proof.
    intros b st h h' V V' D. destruct (compute_ok b st h V) as (st2 & p & E & N & L & F & X).
    exists st2, (mk_house (Some p) (Some (hh b))). split; [exact E|]. unfold valid in *. cbn [snd fst] in *. split.
    - destruct (h_Q h') as [p'|]; [lia|exact I].
    - apply answers_of; [|reflexivity]. cbn. destruct (h_Q h') as [p'|]; [|reflexivity].
      assert (Q : p' <> p). { destruct X as [[X _]|X]; [congruence|lia]. }
      rewrite (F p' Q V'). destruct (nth_error st p'); reflexivity.
  Qed.
  (** The Tpetra object's copies *)
  Lemma tpetra_copy : forall b st t, valid (st, t_impl t) ->
    exists st2 t2, compute_thouse o hh b (st, t) = (Ok tt, (st2, t2)) /\
      fst (q_factor_t (st2, t)) = fst (q_factor_t (st, t)) /\
      (forall vin y, fst (apply_qt_thouse o vin y (st2, t)) = fst (apply_qt_thouse o vin y (st, t))) /\
      (forall rhs y, fst (solve_thouse o rhs y (st2, t)) = fst (solve_thouse o rhs y (st, t))).
  Proof.
    intros b st t V. destruct (tpetra_answers b st t V) as ([st2 t2] & E & _). exists st2, t2. split; [exact E|]. split; [|split].
    - cbn. destruct (t_Q t); reflexivity.
    - intros vin y. cbn. destruct (t_Q t); [|reflexivity]. destruct (_ && _); reflexivity.
    - intros rhs y. unfold solve_thouse, solve_house. destruct (h_fct (t_impl t)) as [[? m]|]; [|reflexivity]. destruct (block o (length y) m); [|reflexivity].
      destruct (_ =? _); reflexivity.
  Qed.
End House.

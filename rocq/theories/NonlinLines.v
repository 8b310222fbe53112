(** Consequences of [solve_ends] for what is printed. *)
From Coq Require Import ZArith List Bool Lia.
From Verif Require Import Base NonlinDiag NonlinModel NonlinDiagProofs NonlinSpec.
Import ListNotations.
Local Open Scope Z_scope.

Lemma list_nth_ext {A} : forall l l' : list A, (forall n, nth_error l n = nth_error l' n) -> l = l'.
Proof.
  induction l as [|a t IH]; intros [|b t'] E; try reflexivity; try (specialize (E O); discriminate).
  pose proof (E O) as E0. cbn in E0. injection E0 as ->. f_equal. apply IH. intros n. exact (E (Datatypes.S n)).
Qed.

Section Lines.
  Context {S V R J : Type}.
  Variable o : sops S.
  Notation info := (info S V R J).
  Notation point := (V * S * S)%type.
  Variable cf : config S.
  Variable valid : info -> Prop.
  Variable measure : info -> meas S.
  Variable move : info -> point -> Prop.
  Variable p0 : point.
  Variable stuck : info -> Prop.
  Variable fsys flin ftrial : outcome unit -> Prop.
  Variable rexn lexn : exn -> Prop.
  Variable pub : list diag.
  Variable reports : bool.
  Variable file0 : option report.
  Hypothesis Hstop : forall d, named (f_stop cf) = Some d -> In d pub.
  Notation steps' := (steps o cf valid measure move p0).
  Notation ends := (solve_ends o cf valid measure move p0 stuck fsys flin ftrial rexn lexn pub reports file0).

  (** *** [printed] *)
  Lemma pf_length : forall is m1 k, length (printed_from o measure pub m1 k is) = length is.
  Proof. induction is; intros; cbn; [reflexivity|]. f_equal. auto. Qed.
  Lemma printed_length : forall is, length (printed o measure pub is) = length is.
  Proof. intros [|i t]; [reflexivity|]. apply pf_length. Qed.
  Lemma pf_numbers : forall is m1 k,
    map l_iter (printed_from o measure pub m1 k is) = map (fun n => Z.of_nat n + k) (seq 0 (length is)).
  Proof.
    induction is as [|a t IH]; intros m1 k; [reflexivity|]. cbn [printed_from map length seq].
    f_equal. rewrite IH, <- seq_shift, map_map. apply map_ext. intros n. lia.
  Qed.
  Lemma printed_numbers : forall is,
    map l_iter (printed o measure pub is) = map (fun n => Z.of_nat n + 1) (seq 0 (length is)).
  Proof. intros [|i t]; [reflexivity|]. apply pf_numbers. Qed.
  Definition line_at (m1 : meas S) (k : Z) (i : info) : line S V :=
    mk_line k (i_x i) (map (fun d => (d, reading o m1 (measure i) d)) pub).
  Lemma pf_nth : forall is m1 k n,
    nth_error (printed_from o measure pub m1 k is) n =
    option_map (line_at m1 (k + Z.of_nat n)) (nth_error is n).
  Proof.
    induction is as [|a t IH]; intros m1 k n; [destruct n; reflexivity|].
    destruct n as [|n]; cbn [printed_from nth_error].
    - cbn. unfold line_at. do 2 f_equal. lia.
    - rewrite IH. replace (k + 1 + Z.of_nat n) with (k + Z.of_nat (Datatypes.S n)) by lia. reflexivity.
  Qed.
  Lemma printed_nth : forall is n,
    nth_error (printed o measure pub is) n =
    option_map (fun i => line_at (measure (hd i is)) (Z.of_nat n + 1) i) (nth_error is n).
  Proof.
    intros [|a t] n; [destruct n; reflexivity|]. cbn [printed hd]. rewrite pf_nth.
    replace (1 + Z.of_nat n) with (Z.of_nat n + 1) by lia. reflexivity.
  Qed.

  Lemma find_reading : forall (f : diag -> S) (l : list diag) d, In d l ->
    find (fun p => diag_eqb d (fst p)) (map (fun e => (e, f e)) l) = Some (d, f d).
  Proof.
    intros f. induction l as [|a t IH]; intros d Hd; [destruct Hd|]. cbn.
    destruct (diag_eqb d a) eqn:E; [apply diag_eqb_true in E; subst; reflexivity|].
    apply IH. destruct Hd as [->|Hd]; [rewrite diag_eqb_refl in E; discriminate|exact Hd].
  Qed.
  Lemma value_line : forall m1 k i d, In d pub ->
    value_of d (line_at m1 k i) = Some (reading o m1 (measure i) d).
  Proof. intros m1 k i d Hd. unfold value_of, line_at. cbn [l_vals]. rewrite find_reading by exact Hd. reflexivity. Qed.
  Lemma line_met_iff : forall m1 k i, line_met o cf (line_at m1 k i) <-> met o cf k m1 (measure i).
  Proof.
    intros m1 k i. unfold line_met, met. pose proof (fun d => value_line m1 k i d) as Hv.
    destruct (f_stop cf) eqn:E; cbn [named] in *;
      try (rewrite Hv by (apply Hstop; reflexivity);
           (split; [intros [v [E1 E2]]; injection E1 as <-; exact E2|intros K; eexists; split; [reflexivity|exact K]])).
    reflexivity.
  Qed.

  (** *** [steps] *)
  Lemma steps_not_met : forall is p, steps' is p -> forall n i, nth_error is n = Some i ->
    ~ met o cf (Z.of_nat n + 1) (measure (hd i is)) (measure i).
  Proof.
    intros is p K. induction K as [|is p i p' K IH Ha Hv Hm Hmv]; intros n j Hn; [destruct n; discriminate|].
    destruct (Nat.lt_ge_cases n (length is)) as [Hl|Hl].
    - rewrite nth_error_app1 in Hn by exact Hl. specialize (IH n j Hn).
      destruct is; [cbn in Hl; lia|exact IH].
    - assert (n = length is). { assert (n < length (is ++ [i]))%nat by (apply nth_error_Some; congruence).
        rewrite app_length in *. cbn in *. lia. }
      subst n. rewrite nth_error_app2 in Hn by lia. rewrite Nat.sub_diag in Hn. injection Hn as <-.
      unfold number, first in Hm. destruct is; exact Hm.
  Qed.
  Lemma steps_first : forall is p, steps' is p -> forall i t, is = i :: t -> at_point i p0.
  Proof.
    intros is p K. induction K as [|is p i p' K IH Ha Hv Hm Hmv]; intros j t E; [discriminate|].
    destruct is as [|a b]; cbn in E; injection E as <- E.
    - inversion K; [subst; exact Ha|]. destruct is; discriminate.
    - eapply IH. reflexivity.
  Qed.
  Lemma steps_nil_inv : forall p, steps' [] p -> p = p0.
  Proof. intros p K. inversion K; [reflexivity|]. destruct is; discriminate. Qed.

  (** the last iteration, if there was one that was printed but not completed *)
  Lemma earlier : forall is i p, steps' is p -> forall a l b,
    printed o measure pub (is ++ [i]) = a ++ l :: b -> b <> [] -> ~ line_met o cf l.
  Proof.
    intros is i p K a l b E Hb.
    assert (Hn : nth_error (printed o measure pub (is ++ [i])) (length a) = Some l).
    { rewrite E, nth_error_app2 by lia. rewrite Nat.sub_diag. reflexivity. }
    assert (Hlen : (length a < length is)%nat).
    { pose proof (f_equal (@length _) E) as El. rewrite printed_length, !app_length in El. cbn in El.
      destruct b; [congruence|cbn in El; lia]. }
    rewrite printed_nth, nth_error_app1 in Hn by exact Hlen.
    destruct (nth_error is (length a)) as [j|] eqn:Ej; [|discriminate]. cbn in Hn. injection Hn as <-.
    rewrite line_met_iff. replace (hd j (is ++ [i])) with (hd j is) by (destruct is; [cbn in Hlen; lia|reflexivity]).
    exact (steps_not_met is p K _ _ Ej).
  Qed.
  Lemma none_met : forall is p, steps' is p -> forall l, In l (printed o measure pub is) -> ~ line_met o cf l.
  Proof.
    intros is p K l Hl. destruct (In_nth_error _ _ Hl) as [n Hn]. rewrite printed_nth in Hn.
    destruct (nth_error is n) as [j|] eqn:Ej; [|discriminate]. cbn in Hn. injection Hn as <-.
    rewrite line_met_iff. exact (steps_not_met is p K _ _ Ej).
  Qed.
  Lemma printed_last : forall is i,
    printed o measure pub (is ++ [i]) =
    printed o measure pub is ++ [line_at (first measure is i) (number is) i].
  Proof.
    intros is i. apply list_nth_ext. intros n. rewrite printed_nth.
    destruct (Nat.lt_ge_cases n (length is)) as [Hl|Hl].
    - rewrite !nth_error_app1 by (rewrite ?printed_length; exact Hl). rewrite printed_nth.
      destruct is; [cbn in Hl; lia|]. reflexivity.
    - rewrite !nth_error_app2 by (rewrite ?printed_length; exact Hl). rewrite printed_length.
      destruct (n - length is)%nat as [|m] eqn:En.
      + cbn. unfold first, number. replace n with (length is) by lia. destruct is; reflexivity.
      + destruct m; reflexivity.
  Qed.

  Lemma start_state : forall is p, steps' is p -> forall l t, printed o measure pub is = l :: t ->
    l_state l = fst (fst p0).
  Proof.
    intros is p K l t E. destruct is as [|i b]; [discriminate|]. cbn in E. injection E as <- _.
    pose proof (steps_first _ _ K i b eq_refl) as A. unfold at_point in A. rewrite A. reflexivity.
  Qed.
  Lemma start_state_snoc : forall is i p, steps' is p -> at_point i p ->
    forall l t, printed o measure pub (is ++ [i]) = l :: t -> l_state l = fst (fst p0).
  Proof.
    intros is i p K Ha l t E. destruct is as [|j b].
    - apply steps_nil_inv in K. subst p. cbn in E. injection E as <- _. unfold at_point in Ha. rewrite Ha. reflexivity.
    - cbn in E. injection E as <- _.
      pose proof (steps_first _ _ K j b eq_refl) as A. unfold at_point in A. rewrite A. reflexivity.
  Qed.
  Lemma snoc_not_nil : forall is i, printed o measure pub (is ++ [i]) <> [].
  Proof. intros is i E. apply (f_equal (@length _)) in E. rewrite printed_length, app_length in E. cbn in E. lia. Qed.
  Lemma earlier_plain : forall is p, steps' is p -> forall a l b,
    printed o measure pub is = a ++ l :: b -> ~ line_met o cf l.
  Proof. intros is p K a l b E. apply (none_met is p K). rewrite E. apply in_elt. Qed.

  Definition gave_up (x : V) : Prop := exists i, valid i /\ i_x i = x /\ stuck i.
  Lemma ends_well_run : forall r p ls fl, ends r p ls fl ->
    well_run o cf gave_up (fst (fst p0)) r (fst (fst p)) ls.
  Proof.
    assert (Hsnoc : forall is i p r, number is <= f_max cf -> steps' is p -> at_point i p ->
      (r = Ok tt -> met o cf (number is) (first measure is i) (measure i) \/
         (~ met o cf (number is) (first measure is i) (measure i) /\ gave_up (i_x i))) ->
      well_run o cf gave_up (fst (fst p0)) r (fst (fst p)) (printed o measure pub (is ++ [i]))).
    { intros is i p r Hk K Ha Hr. split.
      - rewrite printed_numbers, printed_length. reflexivity.
      - rewrite printed_length, app_length. unfold number in Hk. cbn [length]. lia.
      - eapply start_state_snoc; eauto.
      - intros E. exfalso. exact (snoc_not_nil _ _ E).
      - eapply earlier; eauto.
      - intros Er. left. exists (printed o measure pub is), (line_at (first measure is i) (number is) i).
        split; [apply printed_last|]. unfold at_point in Ha. subst p. split; [reflexivity|].
        rewrite line_met_iff. exact (Hr Er). }
    assert (Hplain : forall is p r, Z.of_nat (length is) <= Z.max 0 (f_max cf) -> steps' is p ->
      (r = Ok tt -> Z.of_nat (length is) = Z.max 0 (f_max cf)) ->
      well_run o cf gave_up (fst (fst p0)) r (fst (fst p)) (printed o measure pub is)).
    { intros is p r Hk K Hr. split.
      - rewrite printed_numbers, printed_length. reflexivity.
      - rewrite printed_length. exact Hk.
      - eapply start_state; eauto.
      - intros E. destruct is; [|discriminate]. apply steps_nil_inv in K. subst p. reflexivity.
      - intros a l b E _. eapply earlier_plain; eauto.
      - intros Er. right. rewrite printed_length. split; [auto|]. eapply none_met; eauto. }
    intros r p ls fl K. destruct K.
    - apply Hsnoc; auto.
    - apply Hsnoc; auto. intros _. right. split; [assumption|]. exists i. auto.
    - apply Hplain; auto. lia.
    - apply Hplain; auto; [|discriminate]. unfold int32_max in *. lia.
    - apply Hplain; auto; [|discriminate]. unfold number in *. lia.
    - apply Hplain; auto; [|contradiction]. unfold number in *. lia.
    - apply Hplain; auto; [|contradiction]. unfold number in *. lia.
    - apply Hsnoc; auto. contradiction.
  Qed.

  Lemma printed_relative : (forall d, In d pub -> forall a, relative_of d = Some a -> In a pub) ->
    forall is, relative_to_first o pub (printed o measure pub is).
  Proof.
    intros Hcl is l1 t l dr da E Hl Hd Hr.
    pose proof (Hcl dr Hd da Hr) as Hda.
    destruct (In_nth_error _ _ Hl) as [n Hn]. rewrite printed_nth in Hn.
    destruct (nth_error is n) as [i|] eqn:Ei; [|discriminate]. cbn in Hn. injection Hn as <-.
    assert (H1 : nth_error (printed o measure pub is) 0 = Some l1) by (rewrite E; reflexivity).
    rewrite printed_nth in H1. destruct is as [|i1 is']; [discriminate|]. cbn in H1. injection H1 as <-.
    cbn [hd]. exists (reading o (measure i1) (measure i1) da), (reading o (measure i1) (measure i) da).
    rewrite !value_line by assumption. split; [reflexivity|]. split; [reflexivity|]. f_equal.
    destruct dr; cbn in Hr; try discriminate; injection Hr as <-; reflexivity.
  Qed.
  Lemma ends_printed : forall r p ls fl, ends r p ls fl -> exists is, ls = printed o measure pub is.
  Proof. intros r p ls fl K. destruct K; eauto. Qed.
End Lines.

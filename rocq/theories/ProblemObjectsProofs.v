(** Lifetimes of problem objects. *)
From Coq Require Import List Bool Arith Lia.
From Verif Require Import Base ProblemObjects ProblemObjectsSpec.
Import ListNotations.

(** * Explicit Galerkin problems that stay where they were made *)
Lemma gp_stays l : forall (h : gheap) s,
  (forall a, s a = Usable <-> h a <> None) -> (forall a, s a <> MovedFrom) ->
  (forall a p, h a = Some p -> gp_ref p = a) ->
  Forall stays l -> correct_use l s -> Forall (fun r => r = Ok tt) (fst (uses gp_use l h)).
Proof.
  induction l as [|u l IH]; intros h s HS HM HR HF HC; [constructor|].
  inversion HF as [|? ? Hu HF']; subst. destruct HC as [HA HC]. cbn [uses].
  destruct u as [a|a b|a b|a|a]; cbn [gp_use] in *; try contradiction.
  - match goal with |- context [uses gp_use l ?h'] => assert (H : Forall (fun r => r = Ok tt) (fst (uses gp_use l h'))) end.
    { apply (IH _ (after (UCreate a) s)); [| | |exact HF'|exact HC].
      - intros b. cbn. unfold put, upd_heap. destruct (Nat.eqb a b); [split; [discriminate|reflexivity]|apply HS].
      - intros b. cbn. unfold put. destruct (Nat.eqb a b); [discriminate|apply HM].
      - intros b p. unfold upd_heap. destruct (Nat.eqb_spec a b); [intros E; injection E as <-; exact e|apply HR]. }
    destruct (uses gp_use l _). cbn. constructor; [reflexivity|exact H].
  - match goal with |- context [uses gp_use l ?h'] => assert (H : Forall (fun r => r = Ok tt) (fst (uses gp_use l h'))) end.
    { apply (IH _ (after (UDestroy a) s)); [| | |exact HF'|exact HC].
      - intros b. cbn. unfold put, upd_heap. destruct (Nat.eqb a b); [split; [discriminate|intros N; contradiction N; reflexivity]|apply HS].
      - intros b. cbn. unfold put. destruct (Nat.eqb a b); [discriminate|apply HM].
      - intros b p. unfold upd_heap. destruct (Nat.eqb_spec a b); [discriminate|apply HR]. }
    destruct (uses gp_use l _). cbn. constructor; [reflexivity|exact H].
  - assert (H : Forall (fun r => r = Ok tt) (fst (uses gp_use l h))) by (apply (IH _ s); assumption).
    destruct (uses gp_use l _). cbn. constructor; [|exact H].
    unfold gp_step. cbn in HA. apply HS in HA. destruct (h a) as [p|] eqn:E; [|contradiction HA; reflexivity].
    rewrite (HR a p E), E. reflexivity.
Qed.
Lemma gp_safe l : Forall stays l -> correct_use l nothing ->
  Forall (fun r => r = Ok tt) (fst (uses gp_use l (fun _ => None))).
Proof.
  apply gp_stays.
  - intros a. split; [discriminate|]. intros N. contradiction N. reflexivity.
  - intros a. discriminate.
  - intros a p E. discriminate E.
Qed.
Lemma gp_copy_dangles :
  correct_use [UCreate 0; UCopy 0 1; UDestroy 0; UStep 1] nothing /\
  fst (uses gp_use [UCreate 0; UCopy 0 1; UDestroy 0; UStep 1] (fun _ => None)) = [Ok tt; Ok tt; Ok tt; Undef UDangling].
Proof. split; [cbn; repeat split; discriminate|reflexivity]. Qed.
Lemma gp_move_dangles :
  correct_use [UCreate 0; UMove 0 1; UDestroy 0; UStep 1] nothing /\
  fst (uses gp_use [UCreate 0; UMove 0 1; UDestroy 0; UStep 1] (fun _ => None)) = [Ok tt; Ok tt; Ok tt; Undef UDangling].
Proof. split; [cbn; repeat split; discriminate|reflexivity]. Qed.
Lemma last_fails (l : list (outcome unit)) : l = [Ok tt; Ok tt; Ok tt; Undef UDangling] -> ~ Forall (fun r => r = Ok tt) l.
Proof. intros -> H. rewrite Forall_forall in H. specialize (H (Undef UDangling)). discriminate H. cbn. tauto. Qed.
Lemma gp_copy_refuted :
  ~ forall l, correct_use l nothing -> Forall (fun r => r = Ok tt) (fst (uses gp_use l (fun _ => None))).
Proof. intros H. destruct gp_copy_dangles as [HC E]. exact (last_fails _ E (H _ HC)). Qed.
Lemma gp_move_refuted :
  ~ forall l, Forall not_copied l -> correct_use l nothing ->
    Forall (fun r => r = Ok tt) (fst (uses gp_use l (fun _ => None))).
Proof.
  intros H. destruct gp_move_dangles as [HC E]. refine (last_fails _ E (H _ _ HC)). repeat constructor.
Qed.

(** * LSPG problems *)
Definition linv (h : lheap) (s : nat -> status) : Prop :=
  (forall a, s a = Usable -> exists c, lh_obj h a = Some (mk_lprob (Some c) c) /\ lh_cell h c = true) /\
  (forall a, s a = MovedFrom -> exists c, lh_obj h a = Some (mk_lprob None c)) /\
  (forall a, s a = Empty -> lh_obj h a = None) /\
  (forall a b p p' c, lh_obj h a = Some p -> lh_obj h b = Some p' -> lq_own p = Some c -> lq_own p' = Some c -> a = b) /\
  (forall a p c, lh_obj h a = Some p -> lq_own p = Some c -> c < lh_next h).
Lemma lp_keeps u h s : not_copied u -> linv h s -> allowed u s ->
  fst (lp_use u h) = Ok tt /\ linv (snd (lp_use u h)) (after u s).
Proof.
  intros Hn (HU & HM & HE & HI & HX) HA. destruct u as [a|a b|a b|a|a]; cbn [not_copied] in Hn; [|contradiction| | |].
  - cbn in HA. split; [reflexivity|]. cbn. unfold linv, upd_heap, put. cbn. repeat split.
    + intros b. destruct (Nat.eqb_spec a b) as [->|N].
      * intros _. exists (lh_next h). rewrite Nat.eqb_refl. split; reflexivity.
      * intros Hb. destruct (HU b Hb) as (c & E & L). exists c. split; [exact E|].
        destruct (Nat.eqb (lh_next h) c); [reflexivity|exact L].
    + intros b. destruct (Nat.eqb_spec a b); [discriminate|apply HM].
    + intros b. destruct (Nat.eqb_spec a b); [discriminate|apply HE].
    + intros x y p p' c. destruct (Nat.eqb_spec a x) as [->|Nx], (Nat.eqb_spec x y) as [->|Ny]; try reflexivity.
      * intros E1 E2 O1 O2. injection E1 as <-. cbn in O1. injection O1 as <-.
        pose proof (HX y p' _ E2 O2). lia.
      * destruct (Nat.eqb_spec a y) as [->|Ny'].
        -- intros E1 E2 O1 O2. injection E2 as <-. cbn in O2. injection O2 as <-.
           pose proof (HX x p _ E1 O1). lia.
        -- intros E1 E2 O1 O2. exfalso. apply Ny. eapply HI; eassumption.
    + intros x p c. destruct (Nat.eqb_spec a x) as [->|Nx].
      * intros E O. injection E as <-. cbn in O. injection O as <-. lia.
      * intros E O. pose proof (HX x p c E O). lia.
  - cbn in HA. destruct HA as [HAa HAb]. destruct (HU a HAa) as (c & E & L). cbn [lp_use]. rewrite E.
    split; [reflexivity|]. cbn. unfold linv, upd_heap, put. cbn.
    assert (Hab : a <> b) by (intros ->; rewrite HAa in HAb; discriminate). repeat split.
    + intros x. destruct (Nat.eqb_spec a x); [discriminate|]. destruct (Nat.eqb_spec b x).
      * intros _. exists c. split; [reflexivity|exact L].
      * apply HU.
    + intros x. destruct (Nat.eqb_spec a x); [intros _; exists c; reflexivity|]. destruct (Nat.eqb_spec b x); [discriminate|apply HM].
    + intros x. destruct (Nat.eqb_spec a x); [discriminate|]. destruct (Nat.eqb_spec b x); [discriminate|apply HE].
    + intros x y p p' d. destruct (Nat.eqb_spec a x) as [->|Nx].
      { intros E1 _ O1. injection E1 as <-. discriminate O1. }
      destruct (Nat.eqb_spec a y) as [->|Ny].
      { intros _ E2 _ O2. injection E2 as <-. discriminate O2. }
      destruct (Nat.eqb_spec b x) as [<-|Mx], (Nat.eqb_spec b y) as [<-|My]; try reflexivity.
      * intros E1 E2 O1 O2. injection E1 as <-. cbn in O1. injection O1 as <-. exfalso. apply Ny.
        eapply (HI a y); [exact E|exact E2|reflexivity|exact O2].
      * intros E1 E2 O1 O2. injection E2 as <-. cbn in O2. injection O2 as <-. exfalso. apply Nx.
        eapply (HI a x); [exact E|exact E1|reflexivity|exact O1].
      * intros E1 E2 O1 O2. eapply HI; eassumption.
    + intros x p d. destruct (Nat.eqb_spec a x).
      { intros E1 O1. injection E1 as <-. discriminate O1. }
      destruct (Nat.eqb_spec b x).
      { intros E1 O1. injection E1 as <-. cbn in O1. injection O1 as <-. eapply HX; [exact E|reflexivity]. }
      apply HX.
  - cbn in HA. cbn [lp_use]. destruct (lh_obj h a) as [p|] eqn:E.
    + split; [reflexivity|]. cbn. unfold linv, upd_heap, put, free_cell. cbn. repeat split.
      * intros x. destruct (Nat.eqb_spec a x) as [->|Nx]; [discriminate|]. intros Hx.
        destruct (HU x Hx) as (c & Ex & L). exists c. split; [exact Ex|].
        destruct (lq_own p) as [d|] eqn:O; [|exact L]. destruct (Nat.eqb_spec d c) as [->|N]; [|exact L].
        exfalso. apply Nx. eapply (HI a x); [exact E|exact Ex|exact O|reflexivity].
      * intros x. destruct (Nat.eqb_spec a x); [discriminate|apply HM].
      * intros x. destruct (Nat.eqb_spec a x); [reflexivity|apply HE].
      * intros x y r r' d. destruct (Nat.eqb_spec a x); [discriminate|]. destruct (Nat.eqb_spec a y); [discriminate|]. apply HI.
      * intros x r d. destruct (Nat.eqb_spec a x); [discriminate|]. apply HX.
    + exfalso. destruct (s a) eqn:Es; [contradiction HA; reflexivity| |].
      * destruct (HU a Es) as (c & E' & _). congruence.
      * destruct (HM a Es) as (c & E'). congruence.
  - cbn in HA. cbn [lp_use fst snd after]. split; [|repeat split; assumption].
    destruct (HU a HA) as (c & E & L). unfold lp_step. rewrite E. cbn. rewrite L. reflexivity.
Qed.
Definition lnothing : lheap := mk_lheap (fun _ => None) (fun _ => false) 0.
Lemma lp_safe l : Forall not_copied l -> correct_use l nothing ->
  Forall (fun r => r = Ok tt) (fst (uses lp_use l lnothing)).
Proof.
  assert (H : forall l h s, linv h s -> Forall not_copied l -> correct_use l s ->
    Forall (fun r => r = Ok tt) (fst (uses lp_use l h))).
  { clear l. induction l as [|u l IH]; intros h s HI HF HC; [constructor|].
    inversion HF as [|? ? Hu HF']; subst. destruct HC as [HA HC]. cbn [uses].
    destruct (lp_keeps u h s Hu HI HA) as [E HI']. destruct (lp_use u h) as [r h1]. cbn [fst snd] in *.
    pose proof (IH h1 _ HI' HF' HC) as H. destruct (uses lp_use l h1). constructor; assumption. }
  apply H. repeat split.
  - intros a E. discriminate E.
  - intros a E. discriminate E.
  - intros a b p p' c E. discriminate E.
  - intros a p c E. discriminate E.
Qed.

(** Proofs about the matrix-free linear solver object. *)
From Coq Require Import ZArith List Bool Arith Lia Field.
From Verif Require Import Base Laws LinsolveModel LinsolveMf LinsolveSpec LinsolveMfSpec.
Import ListNotations.

Section Mf.
  Context {S : Type} (o : sops S).
  Variable g_solve : nat -> (vct S -> vct S) -> vct S -> vct S * nat * S.
  Notation run := (mo_run o g_solve).
  Notation sol2 := (mo_solve2 o g_solve).
  Notation sol3 := (mo_solve3 o g_solve).

  Definition holds (r : option nat) (n : nat) (s : mfobj S) : Prop :=
    mo_op s = r /\ mo_max s = n /\ mo_computed s = match r with Some _ => true | None => false end.

  Lemma reset_holds : forall m s a s', mo_reset m s a = Done s' -> holds (Some a) (mo_max s) s'.
  Proof.
    intros m s a s' H. unfold mo_reset in H. destruct (m a); [|discriminate].
    injection H as <-. repeat split.
  Qed.
  Lemma solve2_holds : forall m r n s b y s' x, holds r n s -> sol2 m s b y = Done (s', x) -> holds r n s'.
  Proof.
    intros m r n s b y s' x (H1 & H2 & H3) H. unfold mo_solve2 in H. cbn in H.
    destruct (mo_computed s) eqn:E; [|discriminate]. cbn in H.
    destruct (mo_op s) as [a|] eqn:Eo; [|discriminate]. destruct (m a); [|discriminate].
    destruct (g_solve (mo_max s) (product o l) b) as [[z k] e]. injection H as <- <-.
    repeat split; cbn; try assumption.
  Qed.

  Lemma run_holds : forall l m s r n s', holds r n s -> run m s l = Done s' ->
    holds (last_given l r) (last_limit l n) s'.
  Proof.
    induction l as [|[a|b|a b|k|a c] l IH]; intros m s r n s' Hs H; cbn in *.
    - injection H as <-. exact Hs.
    - destruct (mo_reset m s a) as [s1| | |] eqn:E; try discriminate. cbn in H.
      apply (IH _ _ _ _ _ (reset_holds _ _ _ _ E)) in H. destruct Hs as (_ & <- & _). exact H.
    - destruct (sol2 m s b b) as [[s1 x]| | |] eqn:E; try discriminate. cbn in H.
      exact (IH _ _ _ _ _ (solve2_holds _ _ _ _ _ _ _ _ Hs E) H).
    - unfold mo_solve3 in H. destruct (mo_reset m s a) as [s1| | |] eqn:E; try discriminate. cbn in H.
      destruct (sol2 m s1 b b) as [[s2 x]| | |] eqn:E2; try discriminate. cbn in H.
      apply (IH _ _ _ _ _ (solve2_holds _ _ _ _ _ _ _ _ (reset_holds _ _ _ _ E) E2)) in H.
      destruct Hs as (_ & <- & _). exact H.
    - refine (IH _ _ r k _ _ H). destruct Hs as (H1 & _ & H3). repeat split; assumption.
    - exact (IH _ _ _ _ _ Hs H).
  Qed.
  Lemma new_holds : holds None 100 (mo_new (S:=S)).
  Proof. repeat split. Qed.

  Notation answered := (answered o g_solve).

  Lemma solve2_answers : forall m s a k A b y, holds (Some a) k s -> m a = Some A ->
    answered k A b (sol2 m s b y).
  Proof.
    intros m s a k A b y (H1 & H2 & H3) E. unfold mo_solve2, LinsolveMfSpec.answered. cbn.
    rewrite H3, H1, H2, E. cbn. destruct (g_solve k (product o A) b) as [[x n] e].
    eexists _, x, n, e. split; [reflexivity|]. repeat split.
  Qed.

  Lemma given_answers : forall l m s a b y,
    run m mo_new l = Done s -> last_given l None = Some a ->
    match ops_after m l a with
    | Some A => answered (last_limit l 100) A b (sol2 (ops_after m l) s b y)
    | None => sol2 (ops_after m l) s b y = Undefd UDangling
    end.
  Proof.
    intros l m s a b y H E. pose proof (run_holds l m _ _ _ s new_holds H) as Hs. rewrite E in Hs.
    destruct (ops_after m l a) as [A|] eqn:Ea; [exact (solve2_answers _ _ _ _ _ _ _ Hs Ea)|].
    destruct Hs as (H1 & _ & H3). unfold mo_solve2. cbn. rewrite H3, H1, Ea. reflexivity.
  Qed.
  Lemma with_operator : forall l m s a A b y,
    run m mo_new l = Done s -> ops_after m l a = Some A ->
    answered (last_limit l 100) A b (sol3 (ops_after m l) s a b y).
  Proof.
    intros l m s a A b y H Ea. pose proof (run_holds l m _ _ _ s new_holds H) as (_ & Hm & _).
    unfold mo_solve3. unfold mo_reset. rewrite Ea. cbn [andthen].
    apply (solve2_answers _ _ a); [|exact Ea]. repeat split. exact Hm.
  Qed.
  Lemma nothing_given : forall l m s b y,
    run m mo_new l = Done s -> last_given l None = None ->
    sol2 (ops_after m l) s b y = Undefd UUninitialized.
  Proof.
    intros l m s b y H E. pose proof (run_holds l m _ _ _ s new_holds H) as Hs. rewrite E in Hs.
    destruct Hs as (_ & _ & H3). unfold mo_solve2. cbn. rewrite H3. reflexivity.
  Qed.

  Lemma product_matrix (HF : sfield o) : forall A n M, stands_for o A n M -> forall x i, i < n ->
    at_ (product o A x) i = ssum o n 0 (fun j => smul o (M i j) (at_ x j)).
  Proof.
    intros A n M [H1 H2] x i Hi. unfold product. rewrite (H2 _ _ _ Hi). cbn. 
    apply (Radd_0_l (F_R HF)).
  Qed.
  Lemma solved_when_exact (HF : sfield o) : forall k A n M b r, exact_krylov o g_solve -> stands_for o A n M ->
    nonsingular o n M -> size b = n -> n <= k -> answered k A b r ->
    exists s2 x, r = Done (s2, x) /\ solves o n M (at_ x) (at_ b).
  Proof.
    intros k A n M b r HE HA HN Hb Hk (s2 & x & i & e & -> & E & _). exists s2, x. split; [reflexivity|].
    pose proof (HE k n M (product o A) b (product_matrix HF A n M HA) HN Hb Hk) as H. rewrite E in H. exact H.
  Qed.
End Mf.

Lemma mf_solves : forall S (o : sops S) g_solve history m s a A n M b y,
  sfield o -> exact_krylov o g_solve -> stands_for o A n M -> nonsingular o n M ->
  mo_run o g_solve m mo_new history = Done s -> ops_after m history a = Some A ->
  size b = n -> n <= last_limit history 100 ->
  exists s2 x, mo_solve3 o g_solve (ops_after m history) s a b y = Done (s2, x) /\
    solves o n M (at_ x) (at_ b).
Proof.
  intros S o g_solve history m s a A n M b y HF HE HA HN H Ea Hb Hn.
  exact (solved_when_exact o g_solve HF _ A n M b _ HE HA HN Hb Hn (with_operator o g_solve history m s a A b y H Ea)).
Qed.

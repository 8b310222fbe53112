(** Proofs about the Eigen based linear solver objects, and about systems that
    have no solution. *)
From Coq Require Import ZArith List Bool Arith Lia Field.
From Verif Require Import Base Laws LinsolveModel LinsolveSpec LinsolveProofs.
Import ListNotations.

Section Eigen.
  Context {S M F P : Type}.
  Variable d_compute : M -> F.
  Variable d_solve : F -> vct S -> vct S.
  Variable i_prec : M -> P.
  Variable i_solve : nat -> M -> P -> vct S -> vct S * nat * S.
  Notation drun := (d_run d_compute d_solve).
  Notation irun := (i_run i_prec i_solve).

  Lemma d_run_state : forall l m s r s',
    (match r with Some (_, Some A) => s = Some (d_compute A) | Some (_, None) => False | None => True end) ->
    drun m s l = Done s' ->
    match last_reset m l r with
    | Some (_, Some A) => s' = Some (d_compute A) | Some (_, None) => False | None => s' = s end.
  Proof.
    induction l as [|[a|b|n|a A|a b] l IH]; intros m s r s' Hr H; cbn in *.
    - injection H as <-. destruct r as [[a [A|]]|]; auto.
    - destruct (m a) as [A|] eqn:E; [|discriminate].
      specialize (IH m _ (Some (a, Some A)) s' eq_refl H).
      destruct (last_reset m l (Some (a, Some A))) as [[x [B|]]|] eqn:EL; auto.
      exfalso. clear - EL. revert m EL.
      assert (forall l m (r : nat * option M), last_reset (S:=S) m l (Some r) <> None) as Hnn.
      { clear. induction l as [|[a|b|n|a A|a b] l IH]; intros m r; cbn; try apply IH. discriminate. }
      intros m EL. exact (Hnn _ _ _ EL).
    - destruct s as [f|]; cbn in H; [|discriminate]. apply (IH _ _ _ _ Hr H).
    - apply (IH _ _ _ _ Hr H).
    - apply (IH _ _ _ _ Hr H).
    - destruct (m a) as [A|] eqn:E; [|discriminate].
      specialize (IH m _ (Some (a, Some A)) s' eq_refl H).
      destruct (last_reset m l (Some (a, Some A))) as [[x [B|]]|] eqn:EL; auto.
      exfalso. clear - EL. revert m EL.
      assert (forall l m (r : nat * option M), last_reset (S:=S) m l (Some r) <> None) as Hnn.
      { clear. induction l as [|[a|b|n|a A|a b] l IH]; intros m r; cbn; try apply IH. discriminate. }
      intros m EL. exact (Hnn _ _ _ EL).
  Qed.

  Lemma d_answers : forall l m s' a A b y,
    drun m d_new l = Done s' -> last_reset m l None = Some (a, A) ->
    exists A', A = Some A' /\ d_solve2 d_solve s' b y = Done (d_solve (d_compute A') b).
  Proof.
    intros l m s' a A b y H E. pose proof (d_run_state l m d_new None s' I H) as Hs.
    rewrite E in Hs. destruct A as [A|]; [|destruct Hs]. exists A. split; [reflexivity|].
    rewrite Hs. reflexivity.
  Qed.

  Definition tied (r : option (nat * option M)) (s : iobj S P) : Prop :=
    match r with
    | Some (a, Some A) => io_ref s = Some (a, i_prec A)
    | Some (_, None) => False
    | None => io_ref s = None
    end.

  Lemma i_run_state : forall l m s r s', tied r s -> irun m s l = Done s' ->
    tied (last_reset m l r) s' /\ io_max s' = limit l (io_max s).
  Proof.
    induction l as [|[a|b|n|a A|a b] l IH]; intros m s r s' Hr H; cbn in *.
    - injection H as <-. auto.
    - unfold i_reset in H. destruct (m a) as [A|] eqn:E; [|discriminate]. cbn in H.
      refine (IH m _ (Some (a, Some A)) s' _ H). reflexivity.
    - unfold i_solve2 in H. destruct (io_ref s) as [[a p]|] eqn:E; [|discriminate].
      destruct (m a) as [A|]; [|discriminate].
      destruct (i_solve (io_max s) A p b) as [[x n] e]. cbn in H.
      refine (IH m _ r s' _ H). unfold tied in *. cbn. destruct r as [[c [B|]]|]; congruence.
    - refine (IH m _ r s' _ H). exact Hr.
    - exact (IH _ _ _ _ Hr H).
    - unfold i_solve3, i_reset in H. destruct (m a) as [A|] eqn:E; [|discriminate]. cbn in H.
      unfold i_solve2 in H. cbn in H. rewrite E in H.
      destruct (i_solve (io_max s) A (i_prec A) b) as [[x n] e]. cbn in H.
      refine (IH m _ (Some (a, Some A)) s' _ H). reflexivity.
  Qed.

  Lemma d_answers3 : forall l m s' a A b y, drun m d_new l = Done s' -> after m l a = Some A ->
    exists s2, d_solve3 d_compute d_solve s' A b y = (Done (d_solve (d_compute A) b), s2) /\
      (forall c z, d_solve2 d_solve s2 c z = Done (d_solve (d_compute A) c)).
  Proof. intros l m s' a A b y _ _. eexists. split; reflexivity. Qed.
  Lemma i_limit3 : forall l m s' a A b y,
    (forall n B p c, snd (fst (i_solve n B p c)) <= n) ->
    irun m i_new l = Done s' -> after m l a = Some A ->
    exists s2 x k, i_solve3 i_prec i_solve (after m l) s' a b y = Done (s2, x) /\
      i_max s2 = limit l 100 /\ i_iterations s2 = Done k /\ k <= limit l 100 /\
      i_error s2 = Done (snd (i_solve (limit l 100) A (i_prec A) b)) /\
      x = fst (fst (i_solve (limit l 100) A (i_prec A) b)).
  Proof.
    intros l m s' a A b y Hk H E.
    destruct (i_run_state l m i_new None s' eq_refl H) as [_ Hm]. cbn in Hm.
    unfold i_solve3, i_reset. rewrite E. cbn. unfold i_solve2. cbn. rewrite E, Hm.
    pose proof (Hk (limit l 100) A (i_prec A) b) as Hle.
    destruct (i_solve (limit l 100) A (i_prec A) b) as [[x n] e].
    exists (mk_iobj (limit l 100) (Some (a, i_prec A)) (Some (limit l 100)) (Some (n, e))), x, n. cbn in *. repeat split; auto.
  Qed.

  Lemma i_answers : forall l m s' a A b y,
    irun m i_new l = Done s' -> last_reset m l None = Some (a, Some A) ->
    i_solve2 i_solve (after m l) s' b y =
    match after m l a with
    | None => Undefd UDangling
    | Some A' =>
        let '(x, n, e) := i_solve (limit l 100) A' (i_prec A) b in
        Done (mk_iobj (limit l 100) (Some (a, i_prec A)) (Some (limit l 100)) (Some (n, e)), x)
    end.
  Proof.
    intros l m s' a A b y H E.
    destruct (i_run_state l m i_new None s' eq_refl H) as [Ht Hm].
    rewrite E in Ht. cbn in Ht. unfold i_solve2. rewrite Ht, Hm. reflexivity.
  Qed.

  Lemma i_limit : forall l m s' a A b y,
    (forall n B p c, snd (fst (i_solve n B p c)) <= n) ->
    irun m i_new l = Done s' -> last_reset m l None = Some (a, Some A) ->
    after m l a = Some A ->
    exists s2 x k, i_solve2 i_solve (after m l) s' b y = Done (s2, x) /\
      i_max s2 = limit l 100 /\ i_iterations s2 = Done k /\ k <= limit l 100 /\
      i_error s2 = Done (snd (i_solve (limit l 100) A (i_prec A) b)) /\
      x = fst (fst (i_solve (limit l 100) A (i_prec A) b)).
  Proof.
    intros l m s' a A b y Hk H E Ea. rewrite (i_answers l m s' a A b y H E), Ea.
    pose proof (Hk (limit l 100) A (i_prec A) b) as Hle.
    destruct (i_solve (limit l 100) A (i_prec A) b) as [[x n] e] eqn:Es.
    eexists. eexists. exists n. split; [reflexivity|]. repeat split. exact Hle.
  Qed.

  Lemma d_before_reset : forall b y, d_solve2 d_solve d_new b y = Undefd UUninitialized.
  Proof. reflexivity. Qed.
End Eigen.

Section NoSolution.
  Context {S : Type} (o : sops S) (HF : sfield o) (lp : lapack S) (HL : lapack_ok o lp).
  Add Ring Sr3 : (sring o HF).

  Lemma geqrf_done : forall asserts n A b y, sized n A b y ->
    exists s' y', geqrf_solve o lp asserts (gobj_new o) A b y = Done (s', y').
  Proof.
    intros asserts n A b y Hs. unfold geqrf_solve. rewrite to_aux_ok. cbn [andthen].
    unfold geqrf_overwrite. rewrite (size_checks_ok asserts n) by exact Hs.
    destruct Hs as (H0 & H1 & H2 & H3 & H4). cbn [andthen rows cols ent].
    rewrite (proj2 (Nat.eqb_neq (rows A) 0)) by lia.
    cbn [gobj_new go_lwork Z.eqb Pos.eqb]. unfold geqrf_call at 1. cbn [Z.eqb Pos.eqb andthen fst snd].
    rewrite H1. rewrite geqrf_call_ok by apply (lo_optimal _ _ HL). cbn [andthen].
    unfold check, vdeep_copy. cbn [Z.eqb negb andb andthen size at_].
    rewrite H3, H4, Nat.eqb_refl. cbn [andthen size at_].
    rewrite Nat.ltb_irrefl. cbn. eexists. eexists. reflexivity.
  Qed.

  Definition zA : mtx S := mk_mtx 1 1 (fun _ _ => s0 o).
  Lemma zA_no_solution : forall z, ~ solves o 1 (ent zA) z (at_ (wb o 1)).
  Proof.
    intros z H. specialize (H 0 ltac:(lia)). cbn in H. apply (one_neq_zero o HF).
    rewrite <- H. ring.
  Qed.
  Lemma zA_sized : sized 1 zA (wb o 1) (wb o 1).
  Proof. repeat split; lia. Qed.

  Lemma silent : exists n A b y, sized n A b y /\ (forall z, ~ solves o n (ent A) z (at_ b)) /\
    (forall asserts, exists s' y', geqrf_solve o lp asserts (gobj_new o) A b y = Done (s', y')) /\
    (forall aux, exists s' y', getrs_solve o lp false aux A b y = Done (s', y')) /\
    (forall up aux, exists s' y', potrs_solve o lp false up aux A b y = Done (s', y')).
  Proof.
    exists 1, zA, (wb o 1), (wb o 1). split; [exact zA_sized|].
    split; [exact zA_no_solution|]. split; [|split].
    - intros asserts. apply (geqrf_done asserts 1). exact zA_sized.
    - intros aux. apply (getrs_release o lp false aux 1); [reflexivity|exact zA_sized].
    - intros up aux. apply (potrs_release o lp false up aux 1); [reflexivity|exact zA_sized].
  Qed.

  Lemma no_solution_singular : forall n A b, (forall z, ~ solves o n A z b) ->
    ~ nonsingular o n A.
  Proof.
    intros n A b H HN.
    destruct (lp_getrf lp n A) as [[d p] info] eqn:E.
    destruct (lo_getrf _ _ HL _ _ _ _ _ E) as [Hi Hs].
    exact (H _ (Hs (proj2 Hi HN) b)).
  Qed.
  Lemma debug_stops : forall aux n A b y, sized n A b y ->
    (forall z, ~ solves o n (ent A) z (at_ b)) ->
    getrs_solve o lp true aux A b y = Stopped.
  Proof.
    intros aux n A b y Hs H. apply (getrs_debug_stops o lp HL true aux n); [reflexivity|exact Hs|].
    exact (no_solution_singular _ _ _ H).
  Qed.
End NoSolution.

Section Changed.
  Context {S P : Type} (o : sops S) (HF : sfield o).
  Add Ring Sr4 : (sring o HF).
  Variable i_prec : mtx S -> P.
  Variable i_solve : nat -> mtx S -> P -> vct S -> vct S * nat * S.

  Definition idA (n : nat) : mtx S := mk_mtx n n (fun i j => if i =? j then s1 o else s0 o).
  Lemma idA_row : forall n i y, i < n ->
    ssum o n 0 (fun j => smul o (ent (idA n) i j) (y j)) = y i.
  Proof.
    intros n i y Hi. rewrite (ssum_single o HF _ _ i); [|lia|].
    - cbn. rewrite Nat.eqb_refl. ring.
    - intros j Hj Hne. cbn [ent idA]. rewrite (proj2 (Nat.eqb_neq i j)) by lia. ring.
  Qed.
  Lemma idA_nonsingular : forall n, nonsingular o n (ent (idA n)).
  Proof. intros n y Hy i Hi. rewrite <- (Hy i Hi). symmetry. apply idA_row. exact Hi. Qed.

  Lemma changed_matrix :
    (forall k n A p b, sized n A b b -> nonsingular o n (ent A) -> 1 <= k ->
       solves o n (ent A) (at_ (fst (fst (i_solve k A p b)))) (at_ b)) ->
    exists (m : memory (M:=mtx S)) l A n b y s',
      last_reset m l None = Some (0, Some A) /\ sized n A b b /\ nonsingular o n (ent A) /\
      i_run i_prec i_solve m i_new l = Done s' /\
      exists s2 x, i_solve2 i_solve (after m l) s' b y = Done (s2, x) /\
        ~ solves o n (ent A) (at_ x) (at_ b).
  Proof.
    intros Hex. set (m := (fun _ => Some (idA 2)) : memory (M:=mtx S)).
    set (l := [UReset 0; UWrite 0 (wA o 2)] : list (use S (mtx S))).
    exists m, l, (idA 2), 2, (wb o 2), (wb o 2).
    exists (mk_iobj 100 (Some (0, i_prec (idA 2))) (Some 100) None).
    assert (i_run i_prec i_solve m i_new l =
            Done (mk_iobj 100 (Some (0, i_prec (idA 2))) (Some 100) None)) as Hr by reflexivity.
    split; [reflexivity|]. split; [repeat split; lia|]. split; [apply idA_nonsingular|].
    split; [exact Hr|]. rewrite (i_answers i_prec i_solve l m _ 0 (idA 2) _ _ Hr eq_refl).
    change (after m l 0) with (Some (wA o 2)). cbv iota.
    pose proof (Hex (limit l 100) 2 (wA o 2) (i_prec (idA 2)) (wb o 2)) as Hs.
    destruct (i_solve (limit l 100) (wA o 2) (i_prec (idA 2)) (wb o 2)) as [[x k] e].
    eexists. exists x. split; [reflexivity|]. intros Hbad.
    assert (solves o 2 (ent (wA o 2)) (at_ x) (at_ (wb o 2))) as Hgood.
    { apply Hs; [repeat split; lia|apply (wA_nonsingular o HF); lia|cbn; lia]. }
    pose proof (Hgood 1 ltac:(lia)) as E1. rewrite (wA_row o HF) in E1 by lia. cbn in E1.
    pose proof (Hbad 0 ltac:(lia)) as E2. rewrite idA_row in E2 by lia. cbn in E2.
    pose proof (Hbad 1 ltac:(lia)) as E3. rewrite idA_row in E3 by lia. cbn in E3.
    rewrite E2, E3 in E1. apply (one_neq_zero o HF).
    transitivity (sadd o (s1 o) (s0 o)); [ring|exact E1].
  Qed.
End Changed.

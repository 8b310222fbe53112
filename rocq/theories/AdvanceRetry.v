(** The order and the sizes of retries in the call trace (C07). *)
From Coq Require Import ZArith List Bool Lia.
From Verif Require Import Base AdvanceModel AdvanceSpec AdvanceProofs TargetProofs.
Import ListNotations.
Local Open Scope Z_scope.

Section Retry.
  Context {T St W : Type} (o : sops T) (u : user T St W) (recovery : bool) (mindt scal : T).
  Hypothesis pol_const : forall k t x w dt m c w',
    u_pol u k t x w = (Ok (dt, m, c), w') -> m = mindt /\ c = scal.
  Notation P := (after_step o mindt scal).

  Lemma chain_cons_app (a : call T St) l : chain P l ->
    match l with [] => True | b :: _ => P a b end -> chain P (a :: l).
  Proof. destruct l; cbn; auto. Qed.

  Lemma chain_app (l1 l2 : list (call T St)) : chain P l1 -> chain P l2 ->
    (forall pre a b post, l1 = pre ++ [a] -> l2 = b :: post -> P a b) -> chain P (l1 ++ l2).
  Proof.
    intros H1 H2 H3. induction l1 as [|a l1 IH]; [exact H2|].
    destruct l1 as [|b l1].
    - cbn [app]. apply chain_cons_app; [exact H2|]. destruct l2 as [|b l2]; [exact I|].
      apply (H3 [] a b l2); reflexivity.
    - cbn [app]. cbn in H1. destruct H1 as [Hab H1]. split; [exact Hab|].
      apply IH; [exact H1|]. intros pre a' b' post E1 E2.
      apply (H3 (a :: pre) a' b' post); [cbn; rewrite E1; reflexivity|exact E2].
  Qed.

  Lemma attempts_chain k t dt s w tr dt' r s' w' :
    attempts o u recovery k t mindt scal dt s w tr dt' r s' w' ->
    chain P tr /\ (exists s0 post, tr = CStep k t dt s0 :: post) /\
    (exists s0 pre, tr = pre ++ [CStep k t dt' s0]).
  Proof.
    intros H. induction H as [dt s w r s' w' E|dt s w s1 w1 tr dt' r s' w' Hr E Hm H IH].
    - split; [exact I|]. split; [exists s, []|exists s, []]; reflexivity.
    - destruct IH as (IC & (sa & post & Ef) & (sb & pre & El)). split; [|split].
      + apply chain_cons_app; [exact IC|]. rewrite Ef. cbn. auto.
      + eexists _, _. reflexivity.
      + exists sb, (CStep k t dt s :: pre). rewrite El. reflexivity.
  Qed.

  Definition head_ok (l : list (call T St)) : Prop :=
    exists k t post, l = CPol k t :: post.
  Definition last_obs (l : list (call T St)) : Prop := exists pre k t s, l = pre ++ [CObs k t s].

  Lemma pol_head k t (l : list (call T St)) : chain P l -> chain P (CPol k t :: l).
  Proof. intros. apply chain_cons_app; [assumption|]. destruct l; cbn; auto. Qed.

  Lemma att_obs k t dt s w tr dt' r s' w' x :
    attempts o u recovery k t mindt scal dt s w tr dt' r s' w' ->
    chain P (tr ++ [CObs k (sadd o t dt') x]).
  Proof.
    intros H. destruct (attempts_chain _ _ _ _ _ _ _ _ _ _ H) as (C & _ & (sb & pre & El)).
    apply chain_app; [exact C|exact I|]. intros pre' a b post E1 E2.
    rewrite El in E1. apply app_inj_tail in E1. destruct E1 as [_ <-].
    injection E2 as <- _. cbn. auto.
  Qed.

  Lemma good_tstep_chain k c tr c' : good_tstep o u recovery k c tr c' ->
    chain P tr /\ head_ok tr /\ last_obs tr.
  Proof.
    intros H. inversion H as [dt m c0 wa tr0 dt' s' wb w' Hp Hm Hs Ha Ho]; subst.
    destruct (pol_const _ _ _ _ _ _ _ _ Hp) as [-> ->].
    split; [|split].
    - apply pol_head. eapply att_obs; eassumption.
    - eexists _, _, _. reflexivity.
    - eexists (CPol k (t_time c) :: tr0), _, _, _. reflexivity.
  Qed.

  Lemma join (l1 l2 : list (call T St)) : chain P l1 -> last_obs l1 -> chain P l2 -> chain P (l1 ++ l2).
  Proof.
    intros C1 (pre & k & t & s & ->) C2. apply chain_app; auto.
    intros pre' a b post E _. apply app_inj_tail in E. destruct E as [_ <-]. exact I.
  Qed.

  Lemma good_tsteps_chain final c n tr c' : good_tsteps o u recovery final c n tr c' ->
    chain P tr /\ (tr = [] \/ (head_ok tr /\ last_obs tr)).
  Proof.
    intros H. induction H as [|n tr c1 tr' c2 H IH Hn Hg]; [split; [exact I|left; reflexivity]|].
    destruct IH as [IC IL]. destruct (good_tstep_chain _ _ _ _ Hg) as (C & Hh & Hl). split.
    - destruct IL as [->|[_ IL]]; [exact C|]. apply join; assumption.
    - right. split.
      + destruct IL as [->|[(k & t & post & ->) _]]; [exact Hh|]. eexists _, _, _. reflexivity.
      + destruct Hl as (pre & k & t & s & ->). exists (tr ++ pre), k, t, s. rewrite app_assoc. reflexivity.
  Qed.

  Lemma bad_tstep_chain k c r s' w' tr : bad_tstep o u recovery k c r s' w' tr -> chain P tr.
  Proof.
    intros H.
    inversion H as [r0 r1 wa Hp Hf|dt m c0 wa Hp Hm|dt m c0 wa Hp Hm Hr Hs
                   |dt m c0 wa tr0 dt' r0 s0 w0 Hp Hm Hs Ha Hr Hr'
                   |dt m c0 wa tr0 dt' s0 w0 Hp Hm Hr Hs Ha Ht
                   |dt m c0 wa tr0 dt' s0 wb w0 r0 r1 Hp Hm Hs Ha Ho Hf]; subst tr; try exact I;
      destruct (pol_const _ _ _ _ _ _ _ _ Hp) as [-> ->]; apply pol_head.
    - exact (proj1 (attempts_chain _ _ _ _ _ _ _ _ _ _ Ha)).
    - exact (proj1 (attempts_chain _ _ _ _ _ _ _ _ _ _ Ha)).
    - eapply att_obs; eassumption.
  Qed.

  Lemma obs_head k t s (l : list (call T St)) : chain P l -> chain P (CObs k t s :: l).
  Proof. intros. apply chain_cons_app; [assumption|]. destruct l; cbn; auto. Qed.

  Lemma retries_in_trace : forall fuel start final s w r s' w' tr,
    to_target o u recovery fuel start final (s, w, []) = (r, (s', w', tr)) -> r <> NoFuel ->
    chain P tr.
  Proof.
    intros fuel start final s w r s' w' tr E Hr.
    apply to_target_sound in E; [|exact Hr].
    inversion E as [H0|H0 H1|r0 r1 w0 H0 H1 Ho Hf|n w0 tr0 c r0 s0 w1 tr1 H0 H1 Ho Hg Hn Hi Hb
                   |n w0 tr0 c H0 H1 Ho Hg Hre Hi|n w0 tr0 c H0 H1 Ho Hg Hn]; subst; try exact I.
    - apply obs_head. pose proof (bad_tstep_chain _ _ _ _ _ _ Hb) as Cb.
      destruct (good_tsteps_chain _ _ _ _ _ Hg) as [C L].
      destruct L as [->|[_ L]]; [exact Cb|]. apply join; assumption.
    - apply obs_head. exact (proj1 (good_tsteps_chain _ _ _ _ _ Hg)).
    - apply obs_head. exact (proj1 (good_tsteps_chain _ _ _ _ _ Hg)).
  Qed.
End Retry.

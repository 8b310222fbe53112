From Coq Require Import ZArith List Bool Lia.
From Verif Require Import Base AdvanceModel AdvanceSpec AdvanceProofs.
Import ListNotations.
Local Open Scope Z_scope.

Section Target.
  Context {T St W : Type} (o : sops T) (u : user T St W) (recovery : bool).
  Notation attempts := (attempts o u recovery).
  Notation good_tstep := (good_tstep o u recovery).
  Notation good_tsteps := (good_tsteps o u recovery).
  Notation bad_tstep := (bad_tstep o u recovery).
  Notation tcfg := (@tcfg T St W).
  Notation target_run := (target_run o u recovery).

  (** ** What one step does *)
  Inductive step_result (k : Z) (t mindt scal dt : T) (s : St) (w : W)
    : outcome T -> St -> W -> list (call T St) -> Prop :=
  | SrOk dt' s' w' tr :
      attempts k t mindt scal dt s w tr dt' (Ok tt) s' w' ->
      step_result k t mindt scal dt s w (Ok dt') s' w' tr
  | SrFail dt' r r' s' w' tr :
      attempts k t mindt scal dt s w tr dt' r s' w' ->
      same_failure r r' -> (recovery = true -> r <> Throw ETimeStep) ->
      step_result k t mindt scal dt s w r' s' w' tr
  | SrSmall dt' s' w' tr :
      recovery = true ->
      attempts k t mindt scal dt s w tr dt' (Throw ETimeStep) s' w' ->
      sltb o (sdiv o dt' scal) mindt = true ->
      step_result k t mindt scal dt s w (Throw ERuntime) s' w' tr.

  Lemma retry_spec : recovery = true -> forall fuel k t dt mindt scal s w tr0 r s' w' tr',
    retry_loop o u fuel t k dt mindt scal (s, w, tr0) = (r, (s', w', tr')) ->
    r <> NoFuel ->
    exists tr, tr' = tr0 ++ tr /\ step_result k t mindt scal dt s w r s' w' tr.
  Proof.
    intros Hrec. induction fuel; intros k t dt mindt scal s w tr0 r s' w' tr' H Hr.
    - inversion H; subst; congruence.
    - cbn [retry_loop] in H. unfold do_step in H.
      destruct (u_step u s t k dt w) as [rs [s1 w1]] eqn:Hs.
      destruct rs as [[]|e|v|].
      + inversion H; subst. eexists; split; [reflexivity|]. apply SrOk. constructor; assumption.
      + destruct e;
        try (inversion H; subst; eexists; split; [reflexivity|];
             eapply SrFail; [eapply AttLast; eassumption|constructor|congruence]).
        destruct (sltb o (sdiv o dt scal) mindt) eqn:Hm.
        * inversion H; subst. eexists; split; [reflexivity|].
          eapply SrSmall; [assumption|constructor; eassumption|eassumption].
        * apply IHfuel in H; [|assumption]. destruct H as (tr & -> & H).
          exists (CStep k t dt s :: tr). rewrite <- app_assoc. split; [reflexivity|].
          inversion H; subst.
          -- eapply SrOk. eapply AttRetry; eassumption.
          -- eapply SrFail; [eapply AttRetry; eassumption|eassumption|assumption].
          -- eapply SrSmall; [assumption|eapply AttRetry; eassumption|eassumption].
      + inversion H; subst. eexists; split; [reflexivity|].
        eapply SrFail; [eapply AttLast; eassumption|constructor|congruence].
      + inversion H; subst; congruence.
  Qed.

  Lemma one_step_spec : forall fuel k t dt mindt scal s w tr0 r s' w' tr',
    one_step o u recovery fuel t k dt mindt scal (s, w, tr0) = (r, (s', w', tr')) ->
    r <> NoFuel ->
    exists tr, tr' = tr0 ++ tr /\ step_result k t mindt scal dt s w r s' w' tr.
  Proof.
    intros fuel k t dt mindt scal s w tr0 r s' w' tr' H Hr. unfold one_step in H.
    destruct recovery eqn:Hrec.
    - eapply retry_spec; eassumption.
    - unfold bind, do_step, ret in H.
      destruct (u_step u s t k dt w) as [rs [s1 w1]] eqn:Hs.
      destruct rs as [[]|e|v|]; inversion H; subst; eexists; (split; [reflexivity|]).
      + apply SrOk. constructor; assumption.
      + eapply SrFail; [eapply AttLast; eassumption|constructor|congruence].
      + eapply SrFail; [eapply AttLast; eassumption|constructor|congruence].
      + congruence.
  Qed.

  Lemma attempts_retry_fuel : recovery = true ->
    forall k t mindt scal dt s w tr dt' r s' w',
    attempts k t mindt scal dt s w tr dt' r s' w' ->
    exists F, forall fuel tr0, (F <= fuel)%nat ->
      retry_loop o u fuel t k dt mindt scal (s, w, tr0) =
      match r with
      | Ok _ => (Ok dt', (s', w', tr0 ++ tr))
      | Throw ETimeStep =>
          if sltb o (sdiv o dt' scal) mindt then (Throw ERuntime, (s', w', tr0 ++ tr))
          else retry_loop o u (fuel - F) t k (sdiv o dt' scal) mindt scal (s', w', tr0 ++ tr)
      | Throw e => (Throw e, (s', w', tr0 ++ tr))
      | Undef v => (Undef v, (s', w', tr0 ++ tr))
      | NoFuel => (NoFuel, (s', w', tr0 ++ tr))
      end.
  Proof.
    intros Hrec k t mindt scal dt s w tr dt' r s' w' H.
    induction H as [dt s w r s' w' Hs|dt s w s1 w1 tr dt' r s' w' _ Hs Hm H IH].
    - exists 1%nat. intros fuel tr0 Hf. destruct fuel as [|fuel]; [lia|].
      cbn [retry_loop]. unfold do_step. rewrite Hs.
      replace (S fuel - 1)%nat with fuel by lia.
      destruct r as [[]|[]|v|]; reflexivity.
    - destruct IH as [F IH]. exists (S F). intros fuel tr0 Hf.
      destruct fuel as [|fuel]; [lia|].
      cbn [retry_loop]. unfold do_step. rewrite Hs, Hm.
      rewrite IH by lia. rewrite <- app_assoc. reflexivity.
  Qed.

  Lemma step_result_fuel : forall k t mindt scal dt s w r s' w' tr,
    step_result k t mindt scal dt s w r s' w' tr ->
    exists F, forall fuel tr0, (F <= fuel)%nat ->
      one_step o u recovery fuel t k dt mindt scal (s, w, tr0) = (r, (s', w', tr0 ++ tr)).
  Proof.
    intros k t mindt scal dt s w r s' w' tr H. unfold one_step.
    destruct recovery eqn:Hrec.
    - inversion H; subst.
      + destruct (attempts_retry_fuel Hrec _ _ _ _ _ _ _ _ _ _ _ _ H0) as [F HF].
        exists F. intros; rewrite HF by assumption; reflexivity.
      + destruct (attempts_retry_fuel Hrec _ _ _ _ _ _ _ _ _ _ _ _ H0) as [F HF].
        exists F. intros; rewrite HF by assumption.
        destruct H1 as [e|v|]; try reflexivity.
        destruct e; try reflexivity. exfalso; apply H2; auto.
      + destruct (attempts_retry_fuel Hrec _ _ _ _ _ _ _ _ _ _ _ _ H1) as [F HF].
        exists F. intros; rewrite HF by assumption. rewrite H2. reflexivity.
    - exists 0%nat. intros fuel tr0 _. unfold bind, do_step, ret.
      inversion H; subst; try congruence.
      + inversion H0; subst; try congruence. rewrite H1. reflexivity.
      + inversion H0; subst; try congruence. rewrite H3. destruct H1; reflexivity.
  Qed.

  Lemma keep_going_reached : forall final t,
    keep_going o final t = false <-> reached o final t.
  Proof.
    intros. unfold keep_going, reached.
    destruct (sleb o (sabs o (ssub o t final)) (seps o)), (sltb o final t); cbn; intuition; discriminate.
  Qed.
  Lemma keep_going_not_reached : forall final t,
    keep_going o final t = true <-> ~ reached o final t.
  Proof.
    intros. rewrite <- keep_going_reached. destruct (keep_going o final t); intuition; discriminate.
  Qed.

  (** ** One iteration of the loop *)
  Inductive iter_result (k : Z) (c : tcfg) : outcome tcfg -> St -> W -> list (call T St) -> Prop :=
  | IrGood tr c' : good_tstep k c tr c' -> iter_result k c (Ok c') (t_s c') (t_w c') tr
  | IrBad r r' s' w' tr :
      bad_tstep k c r s' w' tr -> same_failure r r' -> iter_result k c r' s' w' tr.

  Definition loop_tail (fuel : nat) (final : T) (k : Z) (r : outcome tcfg) s' w' tr'
    : outcome unit * gstate :=
    match r with
    | Ok c' =>
        if k =? int32_max then (Undef UIntOverflow, (s', w', tr'))
        else if keep_going o final (t_time c')
             then target_loop o u recovery fuel final (k + 1) (t_time c')
                    (t_dt c', t_min c', t_scal c') (s', w', tr')
             else (Ok tt, (s', w', tr'))
    | Throw e => (Throw e, (s', w', tr'))
    | Undef v => (Undef v, (s', w', tr'))
    | NoFuel => (NoFuel, (s', w', tr'))
    end.

  Lemma iter_spec : forall fuel final k c tr0 r s' w' tr',
    target_loop o u recovery (S fuel) final k (t_time c) (t_dt c, t_min c, t_scal c)
      (t_s c, t_w c, tr0) = (r, (s', w', tr')) ->
    r <> NoFuel ->
    exists r1 s1 w1 tr1, iter_result k c r1 s1 w1 tr1 /\
      loop_tail fuel final k r1 s1 w1 (tr0 ++ tr1) = (r, (s', w', tr')).
  Proof.
    intros fuel final k c tr0 r s' w' tr' H Hr. cbn [target_loop] in H.
    unfold bind at 1 in H. unfold do_pol in H.
    destruct (u_pol u k (t_time c) (t_dt c, t_min c, t_scal c) (t_w c))
      as [[[[dt mindt] scal]|e|v|] wa] eqn:Hp.
    2-4: do 4 eexists; split; [eapply IrBad; [eapply BtPol; [eassumption|constructor]|constructor]|exact H].
    destruct (sltb o dt mindt) eqn:Hm.
    { unfold throw in H.
      do 4 eexists; split; [eapply IrBad; [eapply BtMin; eassumption|constructor]|exact H]. }
    destruct (recovery && sleb o scal (s1 o)) eqn:Hsc.
    { apply andb_prop in Hsc. destruct Hsc. unfold throw in H.
      do 4 eexists; split; [eapply IrBad; [eapply BtScal; eassumption|constructor]|exact H]. }
    assert (Hsc' : recovery = true -> sleb o scal (s1 o) = false).
    { intros E. rewrite E in Hsc. exact Hsc. }
    unfold bind at 1 in H.
    destruct (one_step o u recovery fuel (t_time c) k dt mindt scal
                (t_s c, wa, tr0 ++ [CPol k (t_time c)])) as [rs [[s1' w1'] tr1]] eqn:Hs.
    destruct rs as [dt'|e|v|].
    4: { exfalso; inversion H; congruence. }
    all: apply one_step_spec in Hs; [|discriminate]; destruct Hs as (tr2 & -> & HS).
    2,3: inversion H; subst; clear H;
         inversion HS as [|dt' r0 r0' s2 w2 tr3 HA Hsf Hts|dt' s2 w2 tr3 Hrec HA Hsm]; subst;
         try (inversion Hsf; subst;
          do 4 eexists; split; [eapply IrBad; [eapply BtStep; try eassumption; discriminate|apply SfThrow || apply SfUndef]|];
          cbn; rewrite <- app_assoc; reflexivity).
    2: { do 4 eexists; split; [eapply IrBad; [eapply BtTooSmall; eauto|constructor]|].
         cbn. rewrite <- app_assoc. reflexivity. }
    inversion HS as [dt'' s2 w2 tr3 HA|dt'' r0 r0' s2 w2 tr3 HA Hsf Hts|]; subst; [|inversion Hsf].
    unfold bind at 1 in H. unfold do_obs in H.
    destruct (u_obs u k (sadd o (t_time c) dt') s1' w1') as [[[]|e|v|] w2] eqn:Ho.
    2-4: do 4 eexists; split;
         [eapply IrBad; [eapply BtObs; try eassumption; constructor|constructor]|];
         cbn in *; rewrite <- H; rewrite <- !app_assoc; reflexivity.
    do 4 eexists; split; [eapply IrGood; econstructor; eassumption|].
    unfold loop_tail. cbn [t_time t_dt t_min t_scal t_s t_w].
    rewrite <- H. unfold bind, incr, undef, ret. rewrite <- !app_assoc. cbn [app].
    destruct (k =? int32_max); [reflexivity|]. cbn.
    destruct (keep_going o final (sadd o (t_time c) dt')); reflexivity.
  Qed.

  Lemma iter_fuel : forall k c r s' w' tr,
    iter_result k c r s' w' tr ->
    exists F, forall fuel final tr0, (F <= fuel)%nat ->
      target_loop o u recovery (S fuel) final k (t_time c) (t_dt c, t_min c, t_scal c)
        (t_s c, t_w c, tr0) = loop_tail fuel final k r s' w' (tr0 ++ tr).
  Proof.
    intros k c r s' w' tr H.
    assert (Haux : forall dt mindt scal wa,
      u_pol u k (t_time c) (t_dt c, t_min c, t_scal c) (t_w c) = (Ok (dt, mindt, scal), wa) ->
      sltb o dt mindt = false -> (recovery = true -> sleb o scal (s1 o) = false) ->
      forall fuel final tr0,
      target_loop o u recovery (S fuel) final k (t_time c) (t_dt c, t_min c, t_scal c)
        (t_s c, t_w c, tr0) =
      bind (one_step o u recovery fuel (t_time c) k dt mindt scal) (fun dt' =>
        bind (do_obs u k (sadd o (t_time c) dt')) (fun _ =>
        bind (incr k) (fun step' =>
        if keep_going o final (sadd o (t_time c) dt')
        then target_loop o u recovery fuel final step' (sadd o (t_time c) dt') (dt', mindt, scal)
        else ret tt))) (t_s c, wa, tr0 ++ [CPol k (t_time c)])).
    { intros dt mindt scal wa Hp Hm Hsc fuel final tr0. cbn [target_loop].
      unfold bind at 1. unfold do_pol. rewrite Hp, Hm.
      replace (recovery && sleb o scal (s1 o)) with false; [reflexivity|].
      destruct recovery; [rewrite Hsc by reflexivity|]; reflexivity. }
    destruct H as [tr c' HG|r r' s' w' tr HB Hsf].
    - inversion HG; subst.
      destruct (step_result_fuel k (t_time c) mindt scal dt (t_s c) wa _ _ _ _ (SrOk _ _ _ _ _ _ _ _ _ _ _ H2)) as [F HF].
      exists F. intros fuel final trx Hf. rewrite (Haux _ _ _ _ H H0 H1).
      unfold bind at 1. rewrite HF by assumption. unfold bind at 1, do_obs. rewrite H3.
      unfold loop_tail, bind, incr, undef, ret. cbn [t_time t_dt t_min t_scal t_s t_w].
      rewrite <- !app_assoc. cbn [app].
      destruct (k =? int32_max); [reflexivity|].
      destruct (keep_going o final (sadd o (t_time c) dt')); reflexivity.
    - inversion HB; subst.
      + exists 0%nat. intros fuel final trx _. cbn [target_loop]. unfold bind at 1, do_pol.
        rewrite H. destruct H0; inversion Hsf; subst; reflexivity.
      + exists 0%nat. intros fuel final trx _. cbn [target_loop]. unfold bind at 1, do_pol.
        rewrite H, H0. inversion Hsf; subst. reflexivity.
      + exists 0%nat. intros fuel final trx _. cbn [target_loop]. unfold bind at 1, do_pol.
        rewrite H, H0. rewrite H2. replace (recovery && true) with true by (rewrite H1; reflexivity).
        inversion Hsf; subst. reflexivity.
      + assert (HS : exists r1, step_result k (t_time c) mindt scal dt (t_s c) wa r1 s' w' tr0 /\ same_failure r r1).
        { destruct r as [[]|e|v|]; [congruence| | |];
          (eexists; split; [eapply SrFail; [eassumption|constructor|assumption]|constructor]). }
        destruct HS as (r1 & HS & Hsf1).
        destruct (step_result_fuel _ _ _ _ _ _ _ _ _ _ _ HS) as [F HF].
        exists F. intros fuel final trx Hf. rewrite (Haux _ _ _ _ H H0 H1).
        unfold bind at 1. rewrite HF by assumption. rewrite <- app_assoc.
        destruct Hsf1; inversion Hsf; subst; reflexivity.
      + destruct (step_result_fuel k (t_time c) mindt scal dt (t_s c) wa _ _ _ _
                    (SrSmall _ _ _ _ _ _ _ _ _ _ _ H1 H3 H4)) as [F HF].
        exists F. intros fuel final trx Hf. rewrite (Haux _ _ _ _ H H0 ltac:(auto)).
        unfold bind at 1. rewrite HF by assumption. rewrite <- app_assoc.
        inversion Hsf; subst. reflexivity.
      + destruct (step_result_fuel k (t_time c) mindt scal dt (t_s c) wa _ _ _ _ (SrOk _ _ _ _ _ _ _ _ _ _ _ H2)) as [F HF].
        exists F. intros fuel final trx Hf. rewrite (Haux _ _ _ _ H H0 H1).
        unfold bind at 1. rewrite HF by assumption. unfold bind at 1, do_obs. rewrite H3.
        rewrite <- !app_assoc.
        destruct H4; inversion Hsf; subst; reflexivity.
  Qed.

  (** ** The whole run *)
  Lemma loop_spec : forall fuel final n c0 tr0 trn c r s' w' tr',
    good_tsteps final c0 n trn c ->
    (n <> 0%nat -> ~ reached o final (t_time c)) ->
    Z.of_nat n < int32_max ->
    target_loop o u recovery fuel final (Z.of_nat (S n)) (t_time c) (t_dt c, t_min c, t_scal c)
      (t_s c, t_w c, tr0 ++ trn) = (r, (s', w', tr')) ->
    r <> NoFuel ->
    (exists m tr c1 tr1, good_tsteps final c0 m tr c1 /\
       (m <> 0%nat -> ~ reached o final (t_time c1)) /\ Z.of_nat m < int32_max /\
       bad_tstep (Z.of_nat (S m)) c1 r s' w' tr1 /\ tr' = tr0 ++ tr ++ tr1) \/
    (exists m tr c1, good_tsteps final c0 (S m) tr c1 /\ reached o final (t_time c1) /\
       Z.of_nat (S m) < int32_max /\ r = Ok tt /\ s' = t_s c1 /\ w' = t_w c1 /\ tr' = tr0 ++ tr) \/
    (exists m tr c1, good_tsteps final c0 m tr c1 /\
       Z.of_nat m = int32_max /\ r = Undef UIntOverflow /\ s' = t_s c1 /\ w' = t_w c1 /\ tr' = tr0 ++ tr).
  Proof.
    induction fuel; intros final n c0 tr0 trn c r s' w' tr' HG Hnr Hn H Hr.
    - inversion H; subst; congruence.
    - apply iter_spec in H; [|assumption].
      destruct H as (r1 & s1' & w1' & tr1 & HI & H).
      inversion HI as [tr2 c' Hgood|rb rb' sb wb trb HB Hsf]; subst.
      + assert (HG' : good_tsteps final c0 (S n) (trn ++ tr1) c') by (econstructor; eassumption).
        unfold loop_tail in H. rewrite <- app_assoc in H.
        destruct (Z.of_nat (S n) =? int32_max) eqn:Hk.
        { inversion H; subst. right; right. apply Z.eqb_eq in Hk.
          do 3 eexists; repeat split; eassumption || reflexivity. }
        apply Z.eqb_neq in Hk.
        destruct (keep_going o final (t_time c')) eqn:Hkg.
        * replace (Z.of_nat (S n) + 1) with (Z.of_nat (S (S n))) in H by lia.
          apply keep_going_not_reached in Hkg.
          eapply IHfuel; try eassumption; auto; lia.
        * inversion H; subst. apply keep_going_reached in Hkg.
          right; left. exists n. do 2 eexists; repeat split; try eassumption; lia.
      + left. exists n, trn, c, tr1. rewrite <- app_assoc in H.
        assert (rb = r /\ s' = s1' /\ w' = w1' /\ tr' = tr0 ++ trn ++ tr1).
        { destruct Hsf; inversion H; subst; auto. }
        intuition; subst; assumption.
  Qed.

  Lemma to_target_sound : forall fuel start final s w r s' w' tr,
    to_target o u recovery fuel start final (s, w, []) = (r, (s', w', tr)) ->
    r <> NoFuel ->
    target_run start final s w r s' w' tr.
  Proof.
    intros fuel start final s w r s' w' tr H Hr. unfold to_target in H.
    destruct (sltb o final start) eqn:Hlt.
    { inversion H; subst. apply TrBackwards; assumption. }
    destruct (seqb o final start) eqn:Heq.
    { inversion H; subst. apply TrNothing; assumption. }
    unfold bind in H. unfold do_obs in H.
    destruct (u_obs u 0 start s w) as [[[]|e|v|] w0] eqn:Ho.
    2-4: inversion H; subst; eapply TrObsFails; try eassumption; constructor.
    pose (c0 := mk_tcfg start (s0 o) (s0 o) (s1 o) s w0).
    destruct (loop_spec fuel final 0 c0 [CObs 0 start s] [] c0 r s' w' tr
                (GtsNil _ _ _ _ _) ltac:(congruence) ltac:(unfold int32_max; lia) H Hr) as
      [(m & trm & c1 & tr1 & A & B & C & D & E)|[(m & trm & c1 & A & B & C & D & E & F & G)|
       (m & trm & c1 & A & B & C & D & E & F)]]; subst; cbn [app].
    - eapply TrFailsAt; eassumption.
    - eapply TrCompletes; eassumption.
    - eapply TrOverflow; eassumption.
  Qed.

  Lemma steps_fuel : forall final c0 n tr c,
    good_tsteps final c0 n tr c ->
    (n <> 0%nat -> ~ reached o final (t_time c)) -> Z.of_nat n < int32_max ->
    exists F, forall fuel tr0, (F <= fuel)%nat ->
      target_loop o u recovery (n + fuel) final 1 (t_time c0) (t_dt c0, t_min c0, t_scal c0)
        (t_s c0, t_w c0, tr0) =
      target_loop o u recovery fuel final (Z.of_nat (S n)) (t_time c) (t_dt c, t_min c, t_scal c)
        (t_s c, t_w c, tr0 ++ tr).
  Proof.
    intros final c0 n tr c H. induction H as [|n tr c1 tr' c2 H IH Hnr HS]; intros Hr Hn.
    - exists 0%nat. intros. rewrite app_nil_r. reflexivity.
    - destruct IH as [F HF]; [assumption|lia|].
      destruct (iter_fuel _ _ _ _ _ _ (IrGood _ _ _ _ HS)) as [F' HF'].
      exists (Nat.max F F'). intros fuel tr0 Hf.
      replace (S n + fuel)%nat with (n + S fuel)%nat by lia.
      rewrite HF by lia. rewrite HF' by lia. unfold loop_tail.
      rewrite (proj2 (Z.eqb_neq _ _)) by lia.
      rewrite (proj2 (keep_going_not_reached _ _)) by (apply Hr; discriminate).
      replace (Z.of_nat (S n) + 1) with (Z.of_nat (S (S n))) by lia.
      rewrite app_assoc. reflexivity.
  Qed.

  Lemma to_target_complete : forall start final s w r s' w' tr,
    target_run start final s w r s' w' tr ->
    exists F, forall fuel, (F <= fuel)%nat ->
      to_target o u recovery fuel start final (s, w, []) = (r, (s', w', tr)).
  Proof.
    intros start final s w r s' w' tr H. inversion H; subst.
    - exists 0%nat; intros. unfold to_target. rewrite H0. reflexivity.
    - exists 0%nat; intros. unfold to_target. rewrite H0, H1. reflexivity.
    - exists 0%nat; intros. unfold to_target. rewrite H0, H1. unfold bind, do_obs. rewrite H2.
      destruct H3; reflexivity.
    - destruct (steps_fuel _ _ _ _ _ H3 H4 H5) as [F HF].
      assert (HI : exists r1, iter_result (Z.of_nat (S n)) c r1 s' w' tr' /\ same_failure r1 r).
      { assert (r <> Ok tt).
        { inversion H6; subst; try discriminate; try assumption;
          match goal with H : same_failure _ _ |- _ => inversion H; discriminate end. }
        destruct r as [[]|e|v|]; [congruence| | |];
        (eexists; split; [eapply IrBad; [eassumption|constructor]|constructor]). }
      destruct HI as (r1 & HI & Hsf).
      destruct (iter_fuel _ _ _ _ _ _ HI) as [F' HF'].
      exists (n + S (Nat.max F F'))%nat. intros fuel Hf.
      unfold to_target. rewrite H0, H1. unfold bind at 1, do_obs. rewrite H2.
      replace fuel with (n + S (fuel - n - 1))%nat by lia.
      cbn [t_time t_dt t_min t_scal t_s t_w] in HF.
      rewrite HF by lia. rewrite HF' by lia.
      destruct Hsf; cbn [loop_tail]; rewrite <- ?app_assoc; reflexivity.
    - inversion H3 as [|n' tr1 c1 tr2 c2 HG1 HNR HS1]; subst.
      destruct (steps_fuel _ _ _ _ _ HG1 HNR) as [F HF]; [lia|].
      destruct (iter_fuel _ _ _ _ _ _ (IrGood _ _ _ _ HS1)) as [F' HF'].
      exists (n + S (Nat.max F F'))%nat. intros fuel Hf.
      unfold to_target. rewrite H0, H1. unfold bind at 1, do_obs. rewrite H2.
      replace fuel with (n + S (fuel - n - 1))%nat by lia.
      cbn [t_time t_dt t_min t_scal t_s t_w] in HF.
      rewrite HF by lia. rewrite HF' by lia. cbn [loop_tail].
      rewrite (proj2 (Z.eqb_neq _ _)) by lia.
      rewrite (proj2 (keep_going_reached _ _)) by assumption.
      rewrite <- app_assoc. reflexivity.
    - destruct n as [|n]; [discriminate|].
      inversion H3 as [|n' tr1 c1 tr2 c2 HG1 HNR HS1]; subst.
      destruct (steps_fuel _ _ _ _ _ HG1 HNR) as [F HF]; [lia|].
      destruct (iter_fuel _ _ _ _ _ _ (IrGood _ _ _ _ HS1)) as [F' HF'].
      exists (n + S (Nat.max F F'))%nat. intros fuel Hf.
      unfold to_target. rewrite H0, H1. unfold bind at 1, do_obs. rewrite H2.
      replace fuel with (n + S (fuel - n - 1))%nat by lia.
      cbn [t_time t_dt t_min t_scal t_s t_w] in HF.
      rewrite HF by lia. rewrite HF' by lia. cbn [loop_tail].
      rewrite (proj2 (Z.eqb_eq _ _)) by lia.
      rewrite <- app_assoc. reflexivity.
  Qed.

  (** ** Consequences in terms of reported times *)
  Lemma obs_times_app : forall (a b : list (call T St)), obs_times (a ++ b) = obs_times a ++ obs_times b.
  Proof. induction a as [|x a IHa]; intros; [reflexivity|]. destruct x; cbn; rewrite ?IHa; reflexivity. Qed.
  Lemma stepper_calls_app : forall (a b : list (call T St)), stepper_calls (a ++ b) = stepper_calls a ++ stepper_calls b.
  Proof. induction a as [|x a IHa]; intros; [reflexivity|]. destruct x; cbn; rewrite ?IHa; reflexivity. Qed.

  Lemma attempts_obs : forall k t mindt scal dt s w tr dt' r s' w',
    attempts k t mindt scal dt s w tr dt' r s' w' -> obs_times tr = [].
  Proof. intros. induction H; cbn; auto. Qed.

  Lemma good_tstep_obs : forall k c tr c', good_tstep k c tr c' -> obs_times tr = [t_time c'].
  Proof.
    intros. inversion H; subst. cbn. rewrite obs_times_app, (attempts_obs _ _ _ _ _ _ _ _ _ _ _ _ H3). reflexivity.
  Qed.

  Lemma good_tsteps_obs : forall final c0 n tr c, good_tsteps final c0 (S n) tr c ->
    exists ts, obs_times tr = ts ++ [t_time c] /\ length ts = n /\
               Forall (fun t => ~ reached o final t) ts.
  Proof.
    intros final c0 n. induction n; intros tr c H;
      inversion H as [|n' tr1 c1 tr2 c2 HG1 HNR HS1]; subst.
    - inversion HG1; subst. exists []. cbn. rewrite (good_tstep_obs _ _ _ _ HS1). repeat constructor.
    - destruct (IHn _ _ HG1) as (ts & E & L & F). exists (ts ++ [t_time c1]).
      rewrite obs_times_app, E, (good_tstep_obs _ _ _ _ HS1). repeat split.
      + rewrite app_length, L. cbn. lia.
      + apply Forall_app; split; [assumption|]. repeat constructor. apply HNR. discriminate.
  Qed.

  (** sizes of the attempts at one step *)
  Fixpoint iter_div (scal dt : T) (j : nat) : T :=
    match j with O => dt | S i => iter_div scal (sdiv o dt scal) i end.

  Lemma attempts_sizes : forall k t mindt scal dt s w tr dt' r s' w',
    attempts k t mindt scal dt s w tr dt' r s' w' ->
    sltb o dt mindt = false ->
    exists j, map (fun c => let '(k', t', d, _) := c in (k', t', d)) (stepper_calls tr)
              = map (fun i => (k, t, iter_div scal dt i)) (seq 0 (S j)) /\
      dt' = iter_div scal dt j /\
      (forall i, (i <= j)%nat -> sltb o (iter_div scal dt i) mindt = false) /\
      (recovery = false -> j = 0%nat).
  Proof.
    intros k t mindt scal dt s w tr dt' r s' w' H. induction H; intros Hm.
    - exists 0%nat. cbn. repeat split. intros i Hi. assert (i = 0%nat) by lia. subst; assumption.
    - destruct (IHattempts H1) as (j & E1 & E2 & E3 & E4). exists (S j). cbn [stepper_calls map].
      rewrite E1. split; [|split; [|split]].
      + change (seq 0 (S (S j))) with (0%nat :: seq 1 (S j)).
        rewrite <- (seq_shift (S j) 0). cbn [map]. rewrite map_map. reflexivity.
      + exact E2.
      + intros i Hi. destruct i as [|i]; [assumption|]. cbn [iter_div]. apply E3. lia.
      + congruence.
  Qed.
End Target.

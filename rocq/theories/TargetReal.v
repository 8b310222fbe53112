From Coq Require Import ZArith List Bool Lia Reals Lra.
From Verif Require Import Base RInst AdvanceModel AdvanceSpec AdvanceProofs TargetProofs.
Import ListNotations.
Local Open Scope R_scope.

Section Term.
  Context {St W : Type} (eps : R) (u : user R St W) (recovery : bool).
  Let o := Rops eps.
  Variable d : R.
  Hypothesis eps_nonneg : 0 <= eps.
  Hypothesis d_pos : 0 < d.
  (** every user call returns *)
  Hypothesis obs_ret : forall k t s w, fst (u_obs u k t s w) <> NoFuel.
  Hypothesis pol_ret : forall k t x w, fst (u_pol u k t x w) <> NoFuel.
  Hypothesis step_ret : forall s t k dt w, fst (u_step u s t k dt w) <> NoFuel.
  (** every step size set by the policy is at least [d]; with recovery also the
      minimum it sets *)
  Hypothesis pol_pos : forall k t x w dt m c w',
    u_pol u k t x w = (Ok (dt, m, c), w') -> d <= dt /\ (recovery = true -> d <= m).

  Lemma retry_term : forall n fuel k t dt mindt scal s w tr,
    1 < scal -> d <= mindt -> mindt <= dt -> dt < mindt * scal ^ n -> (n <= fuel)%nat ->
    fst (retry_loop o u fuel t k dt mindt scal (s, w, tr)) <> NoFuel /\
    forall dt' g', retry_loop o u fuel t k dt mindt scal (s, w, tr) = (Ok dt', g') -> d <= dt'.
  Proof.
    induction n; intros fuel k t dt mindt scal s w tr Hsc Hd Hm Hn Hf.
    - simpl in Hn. exfalso; lra.
    - destruct fuel as [|fuel]; [lia|]. cbn [retry_loop]. unfold do_step.
      pose proof (step_ret s t k dt w) as HS.
      destruct (u_step u s t k dt w) as [[[]|e|v|] [s' w']]; cbn in *; try congruence.
      + split; [discriminate|]. intros dt' g' H; inversion H; subst; lra.
      + destruct e; try (split; [discriminate|intros; discriminate]).
        destruct (Rltb (dt / scal) mindt) eqn:E.
        * split; [discriminate|intros; discriminate].
        * apply Rltb_false in E.
          apply IHn; try assumption; try lia.
          apply Rmult_lt_reg_r with scal; [lra|].
          unfold Rdiv. rewrite Rmult_assoc, Rinv_l by lra.
          simpl in Hn. nra.
      + split; [discriminate|intros; discriminate].
  Qed.

  Lemma pow_exceeds : forall scal a b, 1 < scal -> 0 < b -> exists n, a < b * scal ^ n.
  Proof.
    intros scal a b Hs Hb.
    destruct (Pow_x_infinity scal) with (b := (Rabs a + 1) / b) as [N HN].
    { rewrite Rabs_right; lra. }
    exists N. specialize (HN N (le_n _)).
    assert (0 < scal ^ N) by (apply pow_lt; lra).
    rewrite Rabs_right in HN by lra.
    apply Rge_le in HN.
    apply Rmult_le_compat_l with (r := b) in HN; [|lra].
    replace (b * ((Rabs a + 1) / b)) with (Rabs a + 1) in HN by (field; lra).
    pose proof (Rle_abs a). lra.
  Qed.

  Lemma one_step_term : forall k t dt mindt scal s w tr,
    d <= dt -> (recovery = true -> d <= mindt /\ mindt <= dt /\ 1 < scal) ->
    exists F, forall fuel, (F <= fuel)%nat ->
      fst (one_step o u recovery fuel t k dt mindt scal (s, w, tr)) <> NoFuel /\
      forall dt' g', one_step o u recovery fuel t k dt mindt scal (s, w, tr) = (Ok dt', g') -> d <= dt'.
  Proof.
    intros k t dt mindt scal s w tr Hd Hr. unfold one_step. destruct recovery.
    - destruct (Hr eq_refl) as (A & B & C).
      destruct (pow_exceeds scal dt mindt C) as [n Hn]; [lra|].
      exists n. intros fuel Hf. eapply retry_term; eassumption.
    - exists 0%nat. intros fuel _. unfold bind, do_step, ret.
      pose proof (step_ret s t k dt w) as HS.
      destruct (u_step u s t k dt w) as [[[]|e|v|] [s' w']]; cbn in *; try congruence;
        (split; [discriminate|intros dt' g' H; inversion H; subst; lra]).
  Qed.

  Lemma one_step_mono : forall F fuel k t dt mindt scal g, (F <= fuel)%nat ->
    fst (one_step o u recovery F t k dt mindt scal g) <> NoFuel ->
    one_step o u recovery fuel t k dt mindt scal g = one_step o u recovery F t k dt mindt scal g.
  Proof.
    intros F fuel k t dt mindt scal [[s w] tr] Hf H. unfold one_step in *. destruct recovery; [|reflexivity].
    revert fuel dt s w tr Hf H. induction F; intros fuel dt s w tr Hf H; [cbn in H; congruence|].
    destruct fuel as [|fuel]; [lia|]. cbn [retry_loop] in *. unfold do_step in *.
    destruct (u_step u s t k dt w) as [[[]|e|v|] [s' w']]; try reflexivity.
    destruct e; try reflexivity.
    destruct (sltb o (sdiv o dt scal) mindt); [reflexivity|]. apply IHF; [lia|assumption].
  Qed.

  Lemma loop_term : forall m final k time dts s w tr,
    final - time <= INR m * d ->
    exists F, forall fuel, (F <= fuel)%nat ->
      fst (target_loop o u recovery fuel final k time dts (s, w, tr)) <> NoFuel.
  Proof.
    induction m; intros final k time dts s w tr Hm.
    all: pose proof (pol_ret k time dts w) as HP;
      pose proof (pol_pos k time dts w) as HPP;
      destruct (u_pol u k time dts w) as [[[[dt mindt] scal]|e|v|] wa] eqn:Hp; cbn in HP; try congruence;
      [|exists 1%nat; intros fuel Hf; destruct fuel as [|fuel]; [lia|]; cbn [target_loop];
        unfold bind at 1, do_pol; rewrite Hp; discriminate
       |exists 1%nat; intros fuel Hf; destruct fuel as [|fuel]; [lia|]; cbn [target_loop];
        unfold bind at 1, do_pol; rewrite Hp; discriminate];
      destruct (HPP _ _ _ _ eq_refl) as [Hdt Hmin];
      (destruct (sltb o dt mindt) eqn:Hlt;
       [exists 1%nat; intros fuel Hf; destruct fuel as [|fuel]; [lia|]; cbn [target_loop];
        unfold bind at 1, do_pol; rewrite Hp, Hlt; discriminate|]);
      (destruct (recovery && sleb o scal (s1 o)) eqn:Hsc;
       [exists 1%nat; intros fuel Hf; destruct fuel as [|fuel]; [lia|]; cbn [target_loop];
        unfold bind at 1, do_pol; rewrite Hp, Hlt, Hsc; discriminate|]);
      cbn in Hlt; apply Rltb_false in Hlt;
      (destruct (one_step_term k time dt mindt scal s wa (tr ++ [CPol k time]) Hdt) as [F1 HF1];
       [intros Hr; split; [auto|]; split; [assumption|];
        destruct recovery; [cbn in Hsc; apply Rleb_false in Hsc; exact Hsc|discriminate]|]);
      assert (Hstep : forall fuel, (F1 <= fuel)%nat ->
         target_loop o u recovery (S fuel) final k time dts (s, w, tr) =
         bind (one_step o u recovery F1 time k dt mindt scal) (fun dt' =>
           bind (do_obs u k (sadd o time dt')) (fun _ =>
           bind (incr k) (fun step' =>
           if keep_going o final (sadd o time dt')
           then target_loop o u recovery fuel final step' (sadd o time dt') (dt', mindt, scal)
           else ret tt))) (s, wa, tr ++ [CPol k time]));
      [intros fuel Hf; cbn [target_loop]; unfold bind at 1, do_pol; rewrite Hp;
       replace (sltb o dt mindt) with false by (symmetry; cbn; apply Rltb_false; assumption);
       rewrite Hsc; unfold bind at 1; unfold bind at 4;
       rewrite (one_step_mono F1) by (assumption || apply (HF1 F1 (le_n _))); reflexivity|];
      destruct (HF1 F1 (le_n _)) as [HF1a HF1b];
      (destruct (one_step o u recovery F1 time k dt mindt scal (s, wa, tr ++ [CPol k time]))
        as [[dt'|e|v|] [[s2 w2] tr2]] eqn:Hos;
       [|exists (S F1); intros fuel Hf; destruct fuel as [|fuel]; [lia|]; rewrite Hstep by lia;
         unfold bind at 1; rewrite Hos; discriminate
        |exists (S F1); intros fuel Hf; destruct fuel as [|fuel]; [lia|]; rewrite Hstep by lia;
         unfold bind at 1; rewrite Hos; discriminate
        |cbn in HF1a; congruence]);
      specialize (HF1b _ _ eq_refl);
      pose proof (obs_ret k (sadd o time dt') s2 w2) as HO;
      (destruct (u_obs u k (sadd o time dt') s2 w2) as [[[]|e|v|] w3] eqn:Ho;
       [|exists (S F1); intros fuel Hf; destruct fuel as [|fuel]; [lia|]; rewrite Hstep by lia;
         unfold bind at 1; rewrite Hos; unfold bind at 1, do_obs; rewrite Ho; discriminate
        |exists (S F1); intros fuel Hf; destruct fuel as [|fuel]; [lia|]; rewrite Hstep by lia;
         unfold bind at 1; rewrite Hos; unfold bind at 1, do_obs; rewrite Ho; discriminate
        |cbn in HO; congruence]);
      (destruct (k =? int32_max)%Z eqn:Hk;
       [exists (S F1); intros fuel Hf; destruct fuel as [|fuel]; [lia|]; rewrite Hstep by lia;
         unfold bind at 1; rewrite Hos; unfold bind at 1, do_obs; rewrite Ho;
         unfold bind, incr; rewrite Hk; discriminate|]);
      (destruct (keep_going o final (sadd o time dt')) eqn:Hkg;
       [|exists (S F1); intros fuel Hf; destruct fuel as [|fuel]; [lia|]; rewrite Hstep by lia;
         unfold bind at 1; rewrite Hos; unfold bind at 1, do_obs; rewrite Ho;
         unfold bind, incr; rewrite Hk, Hkg; discriminate]).
    - exfalso. apply keep_going_not_reached in Hkg. apply Hkg. right. cbn. apply Rltb_true.
      simpl in Hm. lra.
    - destruct m as [|m].
      + exfalso. apply keep_going_not_reached in Hkg. apply Hkg. unfold reached; cbn.
        simpl in Hm. destruct (Rle_lt_dec (time + dt') final) as [Hle|Hgt].
        * left. apply Rleb_true. replace (time + dt' - final) with 0 by lra. rewrite Rabs_R0. assumption.
        * right. apply Rltb_true. assumption.
      + destruct (IHm final (k + 1)%Z (time + dt') (dt', mindt, scal) s2 w3
                   (tr2 ++ [CObs k (time + dt') s2])) as [F2 HF2].
        { rewrite S_INR in Hm. lra. }
        exists (S (Nat.max F1 F2)). intros fuel Hf. destruct fuel as [|fuel]; [lia|].
        rewrite Hstep by lia. unfold bind at 1. rewrite Hos. unfold bind at 1, do_obs. rewrite Ho.
        unfold bind, incr. rewrite Hk. unfold ret. rewrite Hkg. apply HF2. lia.
  Qed.

  Lemma to_target_terminates : forall start final s w,
    exists F, forall fuel, (F <= fuel)%nat ->
      fst (to_target o u recovery fuel start final (s, w, [])) <> NoFuel.
  Proof.
    intros start final s w. unfold to_target.
    destruct (sltb o final start); [exists 0%nat; discriminate|].
    destruct (seqb o final start); [exists 0%nat; discriminate|].
    unfold bind, do_obs.
    pose proof (obs_ret 0%Z start s w) as HO.
    destruct (u_obs u 0 start s w) as [[[]|e|v|] w0]; try (exists 0%nat; discriminate); [|cbn in HO; congruence].
    destruct (INR_above ((final - start) / d)) as [m Hm].
    apply (loop_term m).
    apply Rmult_le_compat_r with (r := d) in Hm; [|lra].
    replace ((final - start) / d * d) with (final - start) in Hm by (field; lra). exact Hm.
  Qed.

  Lemma attempts_size_lb : forall k t mindt scal dt s w tr dt' r s' w',
    attempts o u recovery k t mindt scal dt s w tr dt' r s' w' ->
    d <= dt -> (recovery = true -> d <= mindt) -> d <= dt'.
  Proof.
    intros k t mindt scal dt s w tr dt' r s' w' H.
    induction H as [|dt s w s1 w1 tr dt' r s' w' Hrec Hs Hm H IH]; intros Hd Hmin; [assumption|].
    apply IH; [|assumption]. change (Rltb (dt / scal) mindt = false) in Hm.
    apply Rltb_false in Hm. specialize (Hmin Hrec). change (d <= dt / scal). lra.
  Qed.

  Lemma steps_progress : forall final c0 n tr c,
    good_tsteps o u recovery final c0 n tr c -> t_time c0 + INR n * d <= t_time c.
  Proof.
    intros final c0 n tr c H. induction H as [|n tr c1 tr' c2 H IH Hnr HS].
    - simpl; lra.
    - inversion HS; subst. cbn [t_time].
      destruct (pol_pos _ _ _ _ _ _ _ _ H0) as [A B].
      pose proof (attempts_size_lb _ _ _ _ _ _ _ _ _ _ _ _ H3 A B).
      rewrite S_INR. change (sadd o (t_time c1) dt') with (t_time c1 + dt'). lra.
  Qed.

  (** number of completed steps in any run *)
  Lemma steps_bound : forall final c0 n tr c, t_time c0 < final ->
    good_tsteps o u recovery final c0 n tr c -> (INR n - 1) * d < final - t_time c0.
  Proof.
    intros final c0 n tr c Hlt H. inversion H as [|n' tr1 c1 tr2 c2 HG1 HNR HS1]; subst.
    - simpl. lra.
    - rewrite S_INR. apply steps_progress in HG1.
      destruct n' as [|n']; [simpl; lra|].
      assert (t_time c1 < final).
      { destruct (Rle_lt_dec final (t_time c1)) as [Hle|]; [|assumption]. exfalso.
        apply HNR; [discriminate|]. unfold reached; cbn.
        destruct (Req_dec final (t_time c1)).
        - left. apply Rleb_true. replace (t_time c1 - final) with 0 by lra. rewrite Rabs_R0; assumption.
        - right. apply Rltb_true. lra. }
      lra.
  Qed.
End Term.

(** * Runs that never return *)
Section Forever.
  Context {St : Type} (eps : R).
  Let o := Rops eps.

  (** A policy that does not set dt, and a stepper that always succeeds. *)
  Definition lazy_user : user R St unit :=
    mk_user noop_obs (fun _ _ x w => (Ok x, w)) noop_guess
            (fun s _ _ _ w => (Ok tt, (s, w))).

  Lemma lazy_loop : forall final time, eps < final - time -> time < final ->
    forall fuel k s tr,
    let r := fst (target_loop o lazy_user false fuel final k time (0, 0, 1) (s, tt, tr)) in
    r = NoFuel \/ r = Undef UIntOverflow.
  Proof.
    intros final time H1 H2 fuel. induction fuel; intros k s tr; [left; reflexivity|].
    cbn [target_loop]. unfold bind, do_pol, one_step, do_step, do_obs, incr, ret; cbn.
    replace (Rltb 0 0) with false by (symmetry; apply Rltb_false; lra).
    cbn. destruct (k =? int32_max)%Z; [right; reflexivity|].
    replace (keep_going o final (time + 0)) with true.
    - rewrite Rplus_0_r. apply IHfuel.
    - symmetry. apply keep_going_not_reached. unfold reached; cbn. rewrite Rplus_0_r. intros [A|A].
      + apply Rleb_true in A. rewrite Rabs_left in A; lra.
      + apply Rltb_true in A. lra.
  Qed.

  Lemma lazy_never_ok : forall start final s fuel, eps < final - start -> start < final ->
    let r := fst (to_target o lazy_user false fuel start final (s, tt, [])) in
    r = NoFuel \/ r = Undef UIntOverflow.
  Proof.
    intros start final s fuel He Hlt. unfold to_target; cbn [sltb seqb o Rops].
    replace (Rltb final start) with false by (symmetry; apply Rltb_false; lra).
    replace (Reqb final start) with false by (symmetry; apply Reqb_false; lra).
    unfold bind at 1, do_obs. cbn [u_obs lazy_user noop_obs]. apply lazy_loop; assumption.
  Qed.

  (** With recovery: a policy with minimum 0 and a stepper that always fails. *)
  Definition failing_user : user R St unit :=
    mk_user noop_obs (fun _ _ _ w => (Ok (1, 0, 2), w)) noop_guess
            (fun s _ _ _ w => (Throw ETimeStep, (s, w))).

  Lemma failing_retry : forall fuel t k dt s tr, 0 < dt ->
    fst (retry_loop o failing_user fuel t k dt 0 2 (s, tt, tr)) = NoFuel.
  Proof.
    induction fuel; intros t k dt s tr Hdt; [reflexivity|]. cbn.
    replace (Rltb (dt / 2) 0) with false by (symmetry; apply Rltb_false; lra).
    apply IHfuel. lra.
  Qed.

  Lemma failing_forever : forall start final s fuel, start < final ->
    fst (to_target o failing_user true fuel start final (s, tt, [])) = NoFuel.
  Proof.
    intros start final s fuel Hlt. unfold to_target; cbn [sltb seqb o Rops].
    replace (Rltb final start) with false by (symmetry; apply Rltb_false; lra).
    replace (Reqb final start) with false by (symmetry; apply Reqb_false; lra).
    unfold bind, do_obs; cbn.
    destruct fuel; [reflexivity|]. cbn [target_loop]. unfold bind, do_pol, one_step; cbn.
    replace (Rltb 1 0) with false by (symmetry; apply Rltb_false; lra).
    replace (Rleb 2 1) with false by (symmetry; apply Rleb_false; lra).
    pose proof (failing_retry fuel start 1 1 s [CObs 0 start s; CPol 1 start] ltac:(lra)) as H.
    destruct (retry_loop o failing_user fuel start 1 1 0 2 (s, tt, [CObs 0 start s; CPol 1 start])) as [r g].
    cbn in H. subst r. reflexivity.
  Qed.
End Forever.

(** Number of observations in any finished run. *)
Section Count.
  Context {St W : Type} (eps : R) (u : user R St W) (recovery : bool) (d : R).
  Hypothesis eps_nonneg : 0 <= eps.
  Hypothesis d_pos : 0 < d.
  Hypothesis pol_pos : forall k t x w dt m c w',
    u_pol u k t x w = (Ok (dt, m, c), w') -> d <= dt /\ (recovery = true -> d <= m).

  Lemma good_tsteps_count : forall final c0 n tr c,
    good_tsteps (Rops eps) u recovery final c0 n tr c -> length (obs_times tr) = n.
  Proof.
    intros final c0 n tr c H. destruct n; [inversion H; reflexivity|].
    apply good_tsteps_obs in H. destruct H as (ts & E & L & _).
    rewrite E, app_length, L. cbn. lia.
  Qed.

  Lemma bad_tstep_count : forall k c r s' w' tr,
    bad_tstep (Rops eps) u recovery k c r s' w' tr -> (length (obs_times tr) <= 1)%nat.
  Proof.
    intros. inversion H; subst; cbn [obs_times length]; try lia;
      rewrite ?obs_times_app;
      match goal with A : attempts _ _ _ _ _ _ _ _ _ _ _ _ _ _ _ |- _ => rewrite (attempts_obs _ _ _ _ _ _ _ _ _ _ _ _ _ _ _ A) end;
      cbn; lia.
  Qed.

  Lemma run_count : forall fuel start final s w r s' w' tr,
    to_target (Rops eps) u recovery fuel start final (s, w, []) = (r, (s', w', tr)) ->
    r <> NoFuel -> start < final ->
    (INR (length (obs_times tr)) - 2) * d < final - start.
  Proof.
    intros fuel start final s w r s' w' tr H Hr Hlt.
    apply to_target_sound in H; [|assumption].
    inversion H; subst; cbn [obs_times length].
    - simpl; lra.
    - simpl; lra.
    - simpl; lra.
    - rewrite obs_times_app, app_length, (good_tsteps_count _ _ _ _ _ H3).
      pose proof (bad_tstep_count _ _ _ _ _ _ H6) as Hb.
      assert (INR n * d < final - start).
      { destruct n as [|n]; [simpl; lra|].
        pose proof (steps_progress eps u recovery d pol_pos _ _ _ _ _ H3) as Hp. cbn [t_time] in Hp.
        assert (t_time c < final).
        { destruct (Rle_lt_dec final (t_time c)) as [Hle|]; [|assumption]. exfalso.
          apply H4; [discriminate|]. unfold reached; cbn.
          destruct (Req_dec final (t_time c)).
          - left. apply Rleb_true. replace (t_time c - final) with 0 by lra. rewrite Rabs_R0; assumption.
          - right. apply Rltb_true. lra. }
        lra. }
      assert (INR (length (obs_times tr')) <= 1) by (apply (le_INR _ 1) in Hb; simpl in Hb; exact Hb).
      rewrite S_INR, plus_INR. nra.
    - rewrite (good_tsteps_count _ _ _ _ _ H3).
      pose proof (fun A => steps_bound eps u recovery d eps_nonneg d_pos pol_pos _ _ _ _ _ A H3) as Hb.
      specialize (Hb Hlt). cbn [t_time] in Hb. rewrite S_INR. lra.
    - rewrite (good_tsteps_count _ _ _ _ _ H3).
      pose proof (fun A => steps_bound eps u recovery d eps_nonneg d_pos pol_pos _ _ _ _ _ A H3) as Hb.
      specialize (Hb Hlt). cbn [t_time] in Hb. rewrite S_INR. lra.
  Qed.
End Count.

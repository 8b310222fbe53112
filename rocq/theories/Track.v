(** What every completed run of the advancers does with a stepper that restores
    the state when it reports TimeStepFailure. *)
From Coq Require Import ZArith List Bool Lia.
From Verif Require Import Base AdvanceModel AdvanceSpec AdvanceProofs TargetProofs.
Import ListNotations.
Local Open Scope Z_scope.

(** User objects when the stepper object's memory is [G] and observer and policy
    share a memory [U]. *)
Section User.
  Context {T V G U : Type}.
  Definition split_obs (obs : Z -> T -> V -> U -> outcome unit * U)
    : Z -> T -> V -> G * U -> outcome unit * (G * U) :=
    fun k t s gw => let '(r, w) := obs k t s (snd gw) in (r, (fst gw, w)).
  Definition split_pol {X Y} (pol : Z -> T -> X -> U -> outcome Y * U)
    : Z -> T -> X -> G * U -> outcome Y * (G * U) :=
    fun k t x gw => let '(r, w) := pol k t x (snd gw) in (r, (fst gw, w)).
  Definition split_step (sf : V -> T -> Z -> T -> G -> outcome unit * (V * G))
    : V -> T -> Z -> T -> G * U -> outcome unit * (V * (G * U)) :=
    fun y t k dt gw => let '(r, (y', g')) := sf y t k dt (fst gw) in (r, (y', (g', snd gw))).
End User.

Section Track.
  Context {T V G U : Type} (o : sops T).
  Variable sf : V -> T -> Z -> T -> G -> outcome unit * (V * G).
  Variable obs : Z -> T -> V -> U -> outcome unit * U.
  Variable Rel : accepted T V -> G -> Prop.
  Hypothesis R_ok : forall t d y l g dt y' g', Rel ((t, d, y) :: l) g ->
    sf y t (Z.of_nat (length ((t, d, y) :: l))) dt g = (Ok tt, (y', g')) ->
    Rel ((sadd o t dt, dt, y') :: (t, d, y) :: l) g'.
  Hypothesis R_fail : forall t d y l g dt y' g', Rel ((t, d, y) :: l) g ->
    sf y t (Z.of_nat (length ((t, d, y) :: l))) dt g = (Throw ETimeStep, (y', g')) ->
    y' = y /\ Rel ((t, d, y) :: l) g'.

  Lemma reports_app (a b : list (call T V)) : reports (a ++ b) = reports a ++ reports b.
  Proof. induction a as [|c a IH]; [reflexivity|]. destruct c; cbn; rewrite IH; reflexivity. Qed.

  (** ** To a target *)
  Section Target.
    Variable pol : Z -> T -> (T * T * T) -> U -> outcome (T * T * T) * U.
    Variable recovery : bool.
    Notation u := (mk_user (split_obs obs) (split_pol pol) noop_guess (split_step sf)).

    Lemma attempts_track k t mindt scal dt s w tr dt' r s' w' :
      attempts o u recovery k t mindt scal dt s w tr dt' r s' w' ->
      reports tr = [] /\
      forall d l, Rel ((t, d, s) :: l) (fst w) -> k = Z.of_nat (length ((t, d, s) :: l)) ->
      r = Ok tt -> Rel ((sadd o t dt', dt', s') :: (t, d, s) :: l) (fst w').
    Proof.
      intros H. induction H as [dt s w r s' w' E|dt s w s1 w1 tr dt' r s' w' Hr E Hm H IH].
      - split; [reflexivity|]. intros d l HR -> ->. cbn [u_step] in E. cbv [split_step] in E.
        destruct (sf s t _ dt (fst w)) as [r0 [y0 g0]] eqn:Es. injection E as -> <- <-.
        eapply R_ok; eassumption.
      - destruct IH as [IHr IH]. split; [cbn; exact IHr|]. intros d l HR -> Hok.
        cbn [u_step] in E. cbv [split_step] in E.
        destruct (sf s t _ dt (fst w)) as [r0 [y0 g0]] eqn:Es. injection E as -> <- <-.
        destruct (R_fail _ _ _ _ _ _ _ _ HR Es) as [-> HR'].
        apply (IH d l HR' eq_refl Hok).
    Qed.

    Lemma good_tstep_track k c tr c' : good_tstep o u recovery k c tr c' ->
      forall d l, Rel ((t_time c, d, t_s c) :: l) (fst (t_w c)) ->
      k = Z.of_nat (length ((t_time c, d, t_s c) :: l)) ->
      exists d', t_time c' = sadd o (t_time c) d' /\
        Rel ((t_time c', d', t_s c') :: (t_time c, d, t_s c) :: l) (fst (t_w c')) /\
        reports tr = [(k, t_time c', t_s c')].
    Proof.
      intros H d l HR Hk. inversion H as [dt m c0 wa tr0 dt' s' wb w' Hp Hm Hs Ha Ho]; subst.
      cbn [u_pol] in Hp. cbv [split_pol] in Hp.
      destruct (pol _ _ _ (snd (t_w c))) as [rp up] eqn:Ep. injection Hp as -> <-.
      destruct (attempts_track _ _ _ _ _ _ _ _ _ _ _ _ Ha) as [Hr HA].
      specialize (HA d l HR eq_refl eq_refl).
      cbn [u_obs] in Ho. cbv [split_obs] in Ho.
      destruct (obs _ _ _ (snd wb)) as [ro uo] eqn:Eo. injection Ho as -> <-.
      exists dt'. cbn [t_time t_s t_w fst]. split; [reflexivity|]. split; [exact HA|].
      cbn [reports]. rewrite reports_app, Hr. reflexivity.
    Qed.

    Lemma good_tsteps_track final c n tr c' : good_tsteps o u recovery final c n tr c' ->
      forall d, Rel [(t_time c, d, t_s c)] (fst (t_w c)) ->
      exists d' l, length l = n /\ Rel ((t_time c', d', t_s c') :: l) (fst (t_w c')) /\
        (0, t_time c, t_s c) :: reports tr = numbered ((t_time c', d', t_s c') :: l).
    Proof.
      intros H d HR. induction H as [|n tr c1 tr' c2 H IH Hn Hg].
      - exists d, []. split; [reflexivity|]. split; [exact HR|]. reflexivity.
      - destruct IH as (d1 & l & Hl & HR1 & Hrep).
        destruct (good_tstep_track _ _ _ _ Hg d1 l HR1) as (d2 & Ht & HR2 & Hrep2).
        { cbn [length]. rewrite Hl. reflexivity. }
        exists d2, ((t_time c1, d1, t_s c1) :: l). split; [cbn; rewrite Hl; reflexivity|].
        split; [exact HR2|]. rewrite reports_app, Hrep2.
        change ((0, t_time c, t_s c) :: reports tr ++ [(Z.of_nat (S n), t_time c2, t_s c2)])
          with (((0, t_time c, t_s c) :: reports tr) ++ [(Z.of_nat (S n), t_time c2, t_s c2)]).
        rewrite Hrep. cbn [numbered length]. rewrite Hl. reflexivity.
    Qed.

    Lemma target_track : forall fuel start final s g w s' g' w' tr,
      to_target o u recovery fuel start final (s, (g, w), []) = (Ok tt, (s', (g', w'), tr)) ->
      seqb o final start = false ->
      forall d, Rel [(start, d, s)] g ->
      exists t' d' l, Rel ((t', d', s') :: l) g' /\ reports tr = numbered ((t', d', s') :: l).
    Proof.
      intros fuel start final s g w s' g' w' tr E Hne d HR.
      apply to_target_sound in E; [|discriminate].
      inversion E as [H0|H0 H1|r0 r1 w0 H0 H1 Ho Hf|n w0 tr0 c r0 s0 w1 tr1 H0 H1 Ho Hg Hn Hi Hb
                     |n w0 tr0 c H0 H1 Ho Hg Hre Hi|n w0 tr0 c H0 H1 Ho Hg Hn]; subst.
      - congruence.
      - inversion Hf.
      - exfalso. inversion Hb as [r0 r1 wa Hp Hf|dt m c0 wa Hp Hm|dt m c0 wa Hp Hm Hr Hs
                     |dt m c0 wa tr2 dt' r0 s0 w1 Hp Hm Hs Ha Hr Hr'
                     |dt m c0 wa tr2 dt' s0 w1 Hp Hm Hr Hs Ha Ht
                     |dt m c0 wa tr2 dt' s0 wb w1 r0 r1 Hp Hm Hs Ha Ho' Hf].
        + inversion Hf.
        + congruence.
        + inversion Hf.
      - cbn [u_obs] in Ho. cbv [split_obs] in Ho. cbn [fst snd] in Ho.
        destruct (obs 0 start s w) as [ro uo] eqn:Eo. injection Ho as -> <-.
        destruct (good_tsteps_track _ _ _ _ _ Hg d HR) as (d' & l & _ & HR' & Hrep).
        cbn [t_time t_s] in Hrep. exists (t_time c), d', l. match goal with H : t_w c = _ |- _ => rewrite H in HR' end. split; [exact HR'|].
        cbn [reports]. exact Hrep.
    Qed.
  End Target.

  (** ** A number of steps *)
  Section NSteps.
    Variable pol : Z -> T -> T -> U -> outcome T * U.
    Notation p3 := (split_pol (G := G) pol).

    Lemma good_steps_track c n tr c' :
      good_steps (sadd o) (split_obs obs) p3 noop_guess (split_step sf) c n tr c' ->
      forall d, Rel [(c_t c, d, c_s c)] (fst (c_w c)) ->
      exists d' l, length l = n /\ Rel ((c_t c', d', c_s c') :: l) (fst (c_w c')) /\
        (0, c_t c, c_s c) :: reports tr = numbered ((c_t c', d', c_s c') :: l).
    Proof.
      intros H d HR. induction H as [|n tr c1 tr' c2 H IH Hg].
      - exists d, []. split; [reflexivity|]. split; [exact HR|]. reflexivity.
      - destruct IH as (d1 & l & Hl & HR1 & Hrep).
        inversion Hg as [dt wa y wb s' wc w' Hp Hgu Hs Ho]; subst.
        cbv [split_pol] in Hp. destruct (pol _ _ _ (snd (c_w c1))) as [rp up] eqn:Ep. injection Hp as -> <-.
        cbv [noop_guess] in Hgu. injection Hgu as <- <-.
        cbv [split_step] in Hs. cbn [fst snd] in Hs.
        destruct (sf (c_s c1) (c_t c1) (Z.of_nat (S (length l))) dt (fst (c_w c1))) as [rs [ys gs]] eqn:Es.
        injection Hs as -> <- <-.
        cbv [split_obs] in Ho. cbn [fst snd] in Ho.
        destruct (obs _ _ _ up) as [ro uo] eqn:Eo. injection Ho as -> <-.
        exists dt, ((c_t c1, d1, c_s c1) :: l). split; [reflexivity|].
        cbn [c_t c_s c_w fst]. split; [eapply R_ok; eassumption|].
        rewrite reports_app. cbn [reports app].
        change ((0, c_t c, c_s c) :: reports tr ++ [(Z.of_nat (S (length l)), sadd o (c_t c1) dt, ys)])
          with (((0, c_t c, c_s c) :: reports tr) ++ [(Z.of_nat (S (length l)), sadd o (c_t c1) dt, ys)]).
        rewrite Hrep. reflexivity.
    Qed.

    Lemma n_steps_track : forall num start s g w s' g' w' tr, Z.of_nat num < int32_max ->
      advance_n_steps o (mk_user (split_obs obs) (pol3 p3) noop_guess (split_step sf))
        (Z.of_nat num) start (s, (g, w), []) = (Ok tt, (s', (g', w'), tr)) ->
      forall d, Rel [(start, d, s)] g ->
      exists t' d' l, length l = num /\ Rel ((t', d', s') :: l) g' /\
        reports tr = numbered ((t', d', s') :: l).
    Proof.
      intros num start s g w s' g' w' tr Hn E d HR.
      apply advance_n_steps_spec in E; [|exact Hn].
      inversion E as [r1 r2 w1 O F|j w1 tr1 c r1 s1 w2 tr2 Hj O Gd B|w1 tr1 c O Gd]; subst.
      - inversion F.
      - exfalso. inversion B as [? ? ? P F|? ? ? ? ? ? P Q F|? ? ? ? ? ? ? ? P Q Z F|? ? ? ? ? ? ? ? ? P Q Z O' F]; inversion F.
      - cbv [split_obs] in O. cbn [fst snd] in O. destruct (obs 0 start s w) as [ro uo] eqn:Eo.
        injection O as -> <-.
        destruct (good_steps_track _ _ _ _ Gd d HR) as (d' & l & Hl & HR' & Hrep).
        exists (c_t c), d', l. split; [exact Hl|]. cbn [c_t c_s] in Hrep.
        match goal with H : c_w c = _ |- _ => rewrite H in HR' end. split; [exact HR'|].
        exact Hrep.
    Qed.
  End NSteps.
End Track.

(** Runs in which every step succeeds. *)
From Coq Require Import Reals ZArith List Bool Lra Lia.
From Verif Require Import Base RInst AdvanceModel AdvanceSpec AdvanceProofs TargetProofs Track.
Import ListNotations.
Local Open Scope Z_scope.

Section Complete.
  Context {T V G U : Type} (o : sops T).
  Variable sf : V -> T -> Z -> T -> G -> outcome unit * (V * G).
  Variable obs : Z -> T -> V -> U -> outcome unit * U.
  Variable Rel : accepted T V -> G -> Prop.
  Hypothesis R_step : forall t d y l g dt, Rel ((t, d, y) :: l) g ->
    exists y' g', sf y t (Z.of_nat (length ((t, d, y) :: l))) dt g = (Ok tt, (y', g')) /\
      Rel ((sadd o t dt, dt, y') :: (t, d, y) :: l) g'.
  Lemma complete_ok t d y l g dt y' g' : Rel ((t, d, y) :: l) g ->
    sf y t (Z.of_nat (length ((t, d, y) :: l))) dt g = (Ok tt, (y', g')) ->
    Rel ((sadd o t dt, dt, y') :: (t, d, y) :: l) g'.
  Proof.
    intros HR E. destruct (R_step t d y l g dt HR) as (y1 & g1 & E1 & H1). rewrite E in E1. injection E1 as <- <-. exact H1.
  Qed.
  Lemma complete_fail t d y l g dt y' g' : Rel ((t, d, y) :: l) g ->
    sf y t (Z.of_nat (length ((t, d, y) :: l))) dt g = (Throw ETimeStep, (y', g')) ->
    y' = y /\ Rel ((t, d, y) :: l) g'.
  Proof. intros HR E. destruct (R_step t d y l g dt HR) as (y1 & g1 & E1 & _). rewrite E in E1. discriminate. Qed.

  Variable pol : Z -> T -> T -> U -> outcome T * U.
  Hypothesis Hobs : forall k t y u, fst (obs k t y u) = Ok tt.
  Hypothesis Hpol : forall k t d u, exists dt, fst (pol k t d u) = Ok dt.
  Lemma complete_n_steps num start y0 g0 w d0 : Z.of_nat num < int32_max -> Rel [(start, d0, y0)] g0 ->
    exists y' g' w' tr t' d' l,
      advance_n_steps o (mk_user (split_obs obs) (pol3 (split_pol pol)) noop_guess (split_step sf))
        (Z.of_nat num) start (y0, (g0, w), []) = (Ok tt, (y', (g', w'), tr)) /\
      length l = num /\ Rel ((t', d', y') :: l) g' /\ reports tr = numbered ((t', d', y') :: l).
  Proof.
    intros Hn HR.
    destruct (advance_n_steps o (mk_user (split_obs obs) (pol3 (split_pol pol)) noop_guess (split_step sf))
                (Z.of_nat num) start (y0, (g0, w), [])) as [r [[y' [g' w']] tr]] eqn:E.
    assert (r = Ok tt).
    { pose proof E as E'. apply advance_n_steps_spec in E'; [|exact Hn].
      inversion E' as [r1 r2 w1 O F|j w1 tr1 c r1 s1 w2 tr2 Hj O Gd B|w1 tr1 c O Gd]; subst; [exfalso|exfalso|reflexivity].
      - cbv [split_obs] in O. cbn [snd] in O. match type of O with context [obs ?a ?b ?d ?e] =>
          pose proof (Hobs a b d e) as K; destruct (obs a b d e) as [rb ub] end.
        cbn in K. subst rb. injection O as <- _ _. inversion F.
      - cbv [split_obs] in O. cbn [fst snd] in O. match type of O with context [obs ?a ?b ?d ?e] =>
          destruct (obs a b d e) as [ro uo] end. injection O as -> <-.
        destruct (good_steps_track o sf obs Rel complete_ok pol _ _ _ _ Gd d0 HR) as (d1 & l & Hl & HR1 & _).
        assert (Hp : forall k x, exists dt wa, split_pol (G := G) pol k (c_t c) x (c_w c) = (Ok dt, wa)).
        { intros k x. cbv [split_pol]. destruct (Hpol k (c_t c) x (snd (c_w c))) as [dt Hd].
          destruct (pol k (c_t c) x (snd (c_w c))) as [rp up]. cbn in Hd. subst rp. eexists _, _; reflexivity. }
        inversion B as [? ? ? P F|? ? ? ? ? ? P Q F|? ? ? ? ? ? ? ? P Q Z F|? ? ? ? ? ? ? ? ? P Q Z O' F]; subst.
        + destruct (Hp (Z.of_nat (S (length l))) (c_dt c)) as (dt & wa & E1). rewrite E1 in P. injection P as <- _. inversion F.
        + cbv [noop_guess] in Q. injection Q as <- _ _. inversion F.
        + cbv [noop_guess] in Q. injection Q as <- <-. cbv [split_step] in Z.
          cbv [split_pol] in P. destruct (pol _ _ _ (snd (c_w c))) as [rp up]. injection P as -> <-. cbn [fst snd] in Z.
          destruct (R_step _ _ _ _ _ dt HR1) as (y1 & g1 & E1 & _). cbn [length] in E1. rewrite E1 in Z.
          injection Z as <- _ _. inversion F.
        + cbv [split_obs] in O'. match type of O' with context [obs ?a ?b ?d ?e] =>
            pose proof (Hobs a b d e) as K; destruct (obs a b d e) as [rb ub] end.
          cbn in K. subst rb. injection O' as <- _. inversion F. }
    subst r.
    destruct (n_steps_track o sf obs Rel complete_ok pol num start _ _ _ _ _ _ _ Hn E d0 HR) as (t' & d' & l & Hl & HR' & Hrep).
    exists y', g', w', tr, t', d', l. auto.
  Qed.
End Complete.

(** The times of a run whose policy always gives the same size. *)
Section FixedSize.
  Context {T V W : Type} (o : sops T).
  Variables (obs : Z -> T -> V -> W -> outcome unit * W) (pol : Z -> T -> T -> W -> outcome T * W)
    (guess : Z -> T -> V -> W -> outcome unit * (V * W)) (step : V -> T -> Z -> T -> W -> outcome unit * (V * W)) (h : T).
  Hypothesis Hpol : forall k t d w dt w', pol k t d w = (Ok dt, w') -> dt = h.
  Lemma good_steps_fixed c n tr c' : good_steps (sadd o) obs pol guess step c n tr c' ->
    c_t c' = fixed_time (sadd o) (c_t c) h n /\
    map fst (reports tr) = map (fun k => (Z.of_nat k, fixed_time (sadd o) (c_t c) h k)) (seq 1 n).
  Proof.
    intros H. induction H as [|n tr c1 tr' c2 H [IH1 IH2] Hg]; [split; reflexivity|].
    inversion Hg as [dt wa y wb s' wc w' Hp Hgu Hs Ho]; subst. apply Hpol in Hp. subst dt. cbn [c_t fixed_time]. rewrite <- IH1.
    split; [reflexivity|]. rewrite reports_app, map_app, IH2, seq_S, map_app. cbn [reports map fst]. do 3 f_equal. rewrite IH1. reflexivity.
  Qed.
  Lemma n_steps_fixed num start s w s' w' tr : Z.of_nat num < int32_max ->
    advance_n_steps o (mk_user obs (pol3 pol) guess step) (Z.of_nat num) start (s, w, []) = (Ok tt, (s', w', tr)) ->
    map fst (reports tr) = map (fun k => (Z.of_nat k, fixed_time (sadd o) start h k)) (seq 0 (S num)).
  Proof.
    intros Hn E. apply advance_n_steps_spec in E; [|exact Hn].
    inversion E as [r1 r2 w1 O F|j w1 tr1 c r1 s1 w2 tr2 Hj O Gd B|w1 tr1 c O Gd]; subst.
    - inversion F.
    - exfalso. inversion B as [? ? ? P F|? ? ? ? ? ? P Q F|? ? ? ? ? ? ? ? P Q Z F|? ? ? ? ? ? ? ? ? P Q Z O' F]; inversion F.
    - destruct (good_steps_fixed _ _ _ _ Gd) as [_ K]. cbn [reports map fst seq]. cbn [c_t] in K. rewrite K. reflexivity.
  Qed.
End FixedSize.

(** Integrations to a target in which every step succeeds. *)
Section TargetEnds.
  Context {V G U : Type} (eps : R).
  Notation o := (Rops eps).
  Variable sf : V -> R -> Z -> R -> G -> outcome unit * (V * G).
  Variable obs : Z -> R -> V -> U -> outcome unit * U.
  Variable Rel : accepted R V -> G -> Prop.
  Hypothesis R_step : forall t d y l g dt, Rel ((t, d, y) :: l) g ->
    exists y' g', sf y t (Z.of_nat (length ((t, d, y) :: l))) dt g = (Ok tt, (y', g')) /\
      Rel (((t + dt)%R, dt, y') :: (t, d, y) :: l) g'.
  Variable pol : Z -> R -> R * R * R -> U -> outcome (R * R * R) * U.
  Variable recovery : bool.
  Variable h : R.
  Hypothesis Heps : (0 <= eps)%R.
  Hypothesis Hobs : forall k t y u, fst (obs k t y u) = Ok tt.
  Hypothesis Hpol : forall k t x u, exists dt m c, fst (pol k t x u) = Ok (dt, m, c) /\ (h <= dt)%R /\ (m <= dt)%R /\ (recovery = true -> (1 < c)%R).
  Notation us := (mk_user (split_obs obs) (split_pol pol) noop_guess (split_step sf)).
  Lemma loop_ends final : forall n fuel k t d y l g u dts (tr : list (call R V)), (1 <= n)%nat -> (n < fuel)%nat ->
    (final - t <= INR n * h)%R -> k = Z.of_nat (length ((t, d, y) :: l)) -> k + Z.of_nat n <= int32_max ->
    Rel ((t, d, y) :: l) g -> exists y' g' u' tr', target_loop o us recovery fuel final k t dts (y, (g, u), tr) = (Ok tt, (y', (g', u'), tr')).
  Proof.
    intros n fuel. revert n. induction fuel as [|fuel IH]; intros n k t d y l g u dts tr Hn Hf Ht Hk Hmax HR; [lia|].
    destruct (Hpol k t dts u) as (dt & m & c & Ep & H1 & H2 & H3).
    destruct (pol k t dts u) as [rp u1] eqn:Epol. cbn in Ep. subst rp.
    destruct (R_step t d y l g dt HR) as (y1 & g1 & Es & HR1). rewrite <- Hk in Es.
    assert (Eo := Hobs k (t + dt)%R y1 u1). destruct (obs k (t + dt)%R y1 u1) as [ro u2] eqn:Eobs. cbn in Eo. subst ro.
    assert (EM : sltb o dt m = false). { cbn. unfold Rltb. destruct (Rlt_dec dt m); [lra|reflexivity]. }
    assert (ES : recovery && sleb o c (s1 o) = false).
    { destruct recovery; [|reflexivity]. cbn. unfold Rleb. destruct (Rle_dec c 1); [specialize (H3 eq_refl); lra|reflexivity]. }
    assert (EI : (k =? int32_max) = false) by lia.
    assert (EO : exists tr1, one_step o us recovery fuel t k dt m c (y, (g, u1), tr ++ [CPol k t]) = (Ok dt, (y1, (g1, u1), tr1))).
    { unfold one_step. destruct recovery.
      - destruct fuel as [|fuel]; [lia|]. cbn [retry_loop]. unfold do_step at 1. cbn [u_step]. cbv [split_step]. cbn [fst snd].
        rewrite Es. eexists; reflexivity.
      - cbv [bind do_step]. cbn [u_step]. cbv [split_step]. cbn [fst snd]. rewrite Es. cbv [ret]. eexists; reflexivity. }
    destruct EO as [tr1 EO].
    assert (EP : do_pol us k t dts (y, (g, u), tr) = (Ok (dt, m, c), (y, (g, u1), tr ++ [CPol k t]))).
    { unfold do_pol. cbn [u_pol]. cbv [split_pol]. cbn [fst snd]. rewrite Epol. reflexivity. }
    assert (EB : do_obs us k (t + dt)%R (y1, (g1, u1), tr1) = (Ok tt, (y1, (g1, u2), tr1 ++ [CObs k (t + dt)%R y1]))).
    { unfold do_obs. cbn [u_obs]. cbv [split_obs]. cbn [fst snd]. rewrite Eobs. reflexivity. }
    cbn [target_loop]. unfold bind at 1. rewrite EP, EM, ES. unfold bind at 1. rewrite EO. unfold bind at 1.
    change (sadd o t dt) with (t + dt)%R. rewrite EB. unfold bind at 1. unfold incr. rewrite EI. cbv [ret].
    destruct (keep_going o final (t + dt)%R) eqn:EK; [|eexists _, _, _, _; reflexivity].
    assert (Hd : (t + dt < final)%R).
    { unfold keep_going in EK. apply andb_prop in EK. destruct EK as [K1 K2]. cbn in K1, K2. unfold Rltb, Rleb in *.
      destruct (Rlt_dec final (t + dt)) as [|N]; [discriminate|].
      destruct (Req_dec final (t + dt)) as [->|N']; [|lra].
      exfalso. replace (t + dt - (t + dt))%R with 0%R in K1 by ring. rewrite Rabs_R0 in K1. destruct (Rle_dec 0 eps); [discriminate|contradiction]. }
    destruct n as [|[|n]]; [lia| |].
    - exfalso. cbn [INR] in Ht. lra.
    - apply (IH (S n) (k + 1) (t + dt)%R dt y1 ((t, d, y) :: l)); try lia.
      + rewrite (S_INR (S n)) in Ht. lra.
      + rewrite Hk. cbn [length]. lia.
      + exact HR1.
  Qed.
  Lemma target_ends n fuel start final y0 g0 w d0 : (start < final)%R -> (final - start <= INR n * h)%R -> (n < fuel)%nat ->
    Z.of_nat n < int32_max -> Rel [(start, d0, y0)] g0 ->
    exists y' g' w' tr, to_target o us recovery fuel start final (y0, (g0, w), []) = (Ok tt, (y', (g', w'), tr)).
  Proof.
    intros Hlt Hn Hf Hm HR. unfold to_target.
    assert (E1 : sltb o final start = false). { cbn. unfold Rltb. destruct (Rlt_dec final start); [lra|reflexivity]. }
    assert (E2 : seqb o final start = false). { cbn. unfold Reqb. destruct (Req_EM_T final start); [lra|reflexivity]. }
    rewrite E1, E2. unfold bind at 1. unfold do_obs. cbn [u_obs]. cbv [split_obs]. cbn [fst snd].
    assert (Eo := Hobs 0 start y0 w). destruct (obs 0 start y0 w) as [ro u2]. cbn in Eo. subst ro.
    assert (1 <= n)%nat. { destruct n; [cbn [INR] in Hn; lra|lia]. }
    apply (loop_ends final n fuel 1 start d0 y0 []); try assumption; try reflexivity; lia.
  Qed.
End TargetEnds.

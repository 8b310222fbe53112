From Coq Require Import ZArith List Bool Lia.
From Verif Require Import Base AdvanceModel AdvanceSpec.
Import ListNotations.
Local Open Scope Z_scope.

Lemma same_failure_trans_bind : forall {A B} (r : outcome A) (r' : outcome B),
  same_failure r r' -> forall a, r <> Ok a.
Proof. intros A B r r' H a; destruct H; discriminate. Qed.

(** * advance_n_steps *)
Section N.
  Context {T St W : Type} (o : sops T).
  Variable obs : Z -> T -> St -> W -> outcome unit * W.
  Variable pol : Z -> T -> T -> W -> outcome T * W.
  Variable guess : Z -> T -> St -> W -> outcome unit * (St * W).
  Variable step : St -> T -> Z -> T -> W -> outcome unit * (St * W).
  Let u := mk_user obs (pol3 pol) guess step.

  Definition one_iter (k : Z) (c : @cfg T St W) (tr : list (call T St))
    : outcome (T * T) * gstate :=
    bind (do_pol u k (c_t c) (c_dt c, s0 o, s1 o)) (fun dts =>
    bind (do_guess u k (c_t c)) (fun _ =>
    bind (do_step u (c_t c) k (fst (fst dts))) (fun _ =>
    bind (do_obs u k (sadd o (c_t c) (fst (fst dts)))) (fun _ =>
    ret (sadd o (c_t c) (fst (fst dts)), fst (fst dts))))))
    (c_s c, c_w c, tr).

  Lemma one_iter_spec : forall k c tr,
    (exists tr' c', good_step (sadd o) obs pol guess step k c tr' c' /\
       one_iter k c tr = (Ok (c_t c', c_dt c'), (c_s c', c_w c', tr ++ tr'))) \/
    (exists r r' s' w' tr', bad_step (sadd o) obs pol guess step k c r s' w' tr' /\
       same_failure r r' /\
       one_iter k c tr = (r', (s', w', tr ++ tr'))).
  Proof.
    intros k c tr. unfold one_iter, bind, do_pol, do_guess, do_step, do_obs, ret, u, pol3; cbn.
    destruct (pol k (c_t c) (c_dt c) (c_w c)) as [[dt|e|v|] wa] eqn:Hp; cbn.
    2-4: right; do 2 eexists; exists (c_s c), wa; eexists;
         (split; [eapply BadPol; [eassumption|constructor]|split; [|reflexivity]; constructor]).
    destruct (guess k (c_t c) (c_s c) wa) as [[[]|e|v|] [g wb]] eqn:Hg; cbn.
    2-4: right; do 2 eexists; exists g, wb; eexists;
         (split; [eapply BadGuess; [eassumption|eassumption|constructor]|split; [|rewrite <- app_assoc; reflexivity]; constructor]).
    destruct (step g (c_t c) k dt wb) as [[[]|e|v|] [s' wc]] eqn:Hs; cbn.
    2-4: right; do 2 eexists; exists s', wc; eexists;
         (split; [eapply BadStep; [eassumption|eassumption|eassumption|constructor]|split; [|rewrite <- !app_assoc; reflexivity]; constructor]).
    destruct (obs k (sadd o (c_t c) dt) s' wc) as [[[]|e|v|] w'] eqn:Ho; cbn.
    2-4: right; do 2 eexists; exists s', w'; eexists;
         (split; [eapply BadObs; [eassumption|eassumption|eassumption|eassumption|constructor]|split; [|rewrite <- !app_assoc; reflexivity]; constructor]).
    left. do 2 eexists; split; [econstructor; eassumption|].
    cbn. rewrite <- !app_assoc. reflexivity.
  Qed.

  Lemma n_loop_unfold : forall fuel num k c tr, k <= num ->
    n_steps_loop o u (S fuel) num k (c_t c) (c_dt c) (c_s c, c_w c, tr) =
    match one_iter k c tr with
    | (Ok (t', dt'), g') =>
        if k =? int32_max then (Undef UIntOverflow, g')
        else n_steps_loop o u fuel num (k + 1) t' dt' g'
    | (Throw e, g') => (Throw e, g')
    | (Undef v, g') => (Undef v, g')
    | (NoFuel, g') => (NoFuel, g')
    end.
  Proof.
    intros. cbn [n_steps_loop]. rewrite (proj2 (Z.leb_le k num)) by lia.
    unfold one_iter, bind at 1 5, incr.
    unfold bind, ret, undef.
    destruct (do_pol u k (c_t c) (c_dt c, s0 o, s1 o) (c_s c, c_w c, tr)) as [[[[dt m] sc]|e|v|] g1]; cbn; try reflexivity.
    destruct (do_guess u k (c_t c) g1) as [[[]|e|v|] g2]; cbn; try reflexivity.
    destruct (do_step u (c_t c) k dt g2) as [[[]|e|v|] g3]; cbn; try reflexivity.
    destruct (do_obs u k (sadd o (c_t c) dt) g3) as [[[]|e|v|] g4]; cbn; try reflexivity.
    destruct (k =? int32_max); reflexivity.
  Qed.

  (** Invariant form: after [j] good steps from [c0], the loop continues correctly. *)
  Lemma n_loop_spec : forall m fuel num j c0 tr0 trj c,
    (j + m = num)%nat -> (m < fuel)%nat -> Z.of_nat num < int32_max ->
    good_steps (sadd o) obs pol guess step c0 j trj c ->
    let res := n_steps_loop o u fuel (Z.of_nat num) (Z.of_nat (S j)) (c_t c) (c_dt c)
                 (c_s c, c_w c, tr0 ++ trj) in
    (exists tr c', good_steps (sadd o) obs pol guess step c0 num tr c' /\
        res = (Ok tt, (c_s c', c_w c', tr0 ++ tr))) \/
    (exists i tr c' r s' w' tr', (i < num)%nat /\
        good_steps (sadd o) obs pol guess step c0 i tr c' /\
        bad_step (sadd o) obs pol guess step (Z.of_nat (S i)) c' r s' w' tr' /\
        res = (r, (s', w', tr0 ++ tr ++ tr'))).
  Proof.
    induction m; intros fuel num j c0 tr0 trj c Hjm Hf Hn HG res; subst res.
    - left. exists trj, c. assert (j = num) by lia. subst j. split; [assumption|].
      destruct fuel; cbn [n_steps_loop]; rewrite (proj2 (Z.leb_gt _ _)) by lia; reflexivity.
    - destruct fuel as [|fuel]; [lia|].
      rewrite n_loop_unfold by lia.
      destruct (one_iter_spec (Z.of_nat (S j)) c (tr0 ++ trj)) as
        [(tr' & c' & Hgood & He)|(r & r' & s' & w' & tr' & Hbad & Hsf & He)]; rewrite He.
      + rewrite (proj2 (Z.eqb_neq _ _)) by lia.
        replace (Z.of_nat (S j) + 1) with (Z.of_nat (S (S j))) by lia.
        assert (HG' : good_steps (sadd o) obs pol guess step c0 (S j) (trj ++ tr') c')
          by (econstructor; eassumption).
        rewrite <- app_assoc.
        specialize (IHm fuel num (S j) c0 tr0 (trj ++ tr') c' ltac:(lia) ltac:(lia) Hn HG').
        exact IHm.
      + right. exists j, trj, c, r, s', w', tr'. repeat split; try assumption; try lia.
        rewrite <- app_assoc. destruct Hsf; reflexivity.
  Qed.

  Lemma advance_n_steps_spec : forall (num : nat) start s w r s' w' tr,
    Z.of_nat num < int32_max ->
    advance_n_steps o u (Z.of_nat num) start (s, w, []) = (r, (s', w', tr)) ->
    n_steps_run (sadd o) obs pol guess step num start (s0 o) s w r s' w' tr.
  Proof.
    intros num start s w r s' w' tr Hn H.
    unfold advance_n_steps, bind in H. unfold do_obs in H at 1; cbn [u_obs u] in H.
    destruct (obs 0 start s w) as [[[]|e|v|] w0] eqn:Ho.
    2-4: inversion H; subst; eapply RunObsFails; [eassumption|constructor].
    cbn [app] in H.
    destruct (n_loop_spec num (S (Z.to_nat (Z.of_nat num))) num 0 (mk_cfg start (s0 o) s w0)
                [CObs 0 start s] [] (mk_cfg start (s0 o) s w0)) as
      [(tr1 & c' & HG & He)|(i & tr1 & c' & r1 & s1' & w1' & tr' & Hi & HG & HB & He)];
      try lia; try constructor; cbn [c_t c_dt c_s c_w] in He;
      change (Z.of_nat 1) with 1 in He; rewrite app_nil_r in He; rewrite He in H; inversion H; subst.
    - eapply RunCompletes; eassumption.
    - eapply RunFailsAt; eassumption.
  Qed.

  Lemma advance_n_steps_nonpos : forall num start s w, num <= 0 ->
    advance_n_steps o u num start (s, w, []) =
    let '(r, w') := obs 0 start s w in (r, (s, w', [CObs 0 start s])).
  Proof.
    intros. unfold advance_n_steps, bind, do_obs; cbn.
    destruct (obs 0 start s w) as [[[]|e|v|] w']; try reflexivity.
    rewrite (proj2 (Z.leb_gt _ _)) by lia. reflexivity.
  Qed.
End N.

(** * Fixed step size, stateless stepper, no guesser, no observer *)
Section FixedDt.
  Context {T St : Type} (o : sops T) (step : St -> T -> Z -> T -> St).

  Definition pure_step : St -> T -> Z -> T -> unit -> outcome unit * (St * unit) :=
    fun s t k dt w => (Ok tt, (step s t k dt, w)).

  Definition pure_user : user T St unit :=
    mk_user noop_obs (pol3 (fun _ _ dt w => (Ok dt, w))) noop_guess pure_step.

  Lemma fixed_good : forall h t0 y0 n dt0 w tr c,
    good_steps (sadd o) (@noop_obs T St unit) (fun _ _ _ w => (Ok h, w)) noop_guess pure_step
      (mk_cfg t0 dt0 y0 w) n tr c ->
    c_s c = fixed_state (sadd o) step t0 h y0 n /\
    c_t c = fixed_time (sadd o) t0 h n /\
    stepper_calls tr = map (fun k => (Z.of_nat (S k), fixed_time (sadd o) t0 h k, h,
                                   fixed_state (sadd o) step t0 h y0 k)) (seq 0 n) /\
    obs_times tr = map (fun k => fixed_time (sadd o) t0 h (S k)) (seq 0 n).
  Proof.
    intros h t0 y0 n dt0 w tr c H.
    remember (mk_cfg t0 dt0 y0 w) as c0 eqn:E.
    induction H as [|n tr c1 tr' c2 H IH HS].
    - subst; cbn; repeat split; reflexivity.
    - destruct IH as (I1 & I2 & I3 & I4).
      inversion HS as [dt wa g wb s' wc w' Hp Hg Hs Ho Etr Ec]; subst.
      inversion Hp; inversion Hg; subst. inversion Hs; inversion Ho; subst.
      assert (SA : forall (a b : list (call T St)), stepper_calls (a ++ b) = stepper_calls a ++ stepper_calls b).
      { induction a as [|x a IHa]; intros; [reflexivity|]. destruct x; cbn; rewrite ?IHa; reflexivity. }
      assert (OA : forall (a b : list (call T St)), obs_times (a ++ b) = obs_times a ++ obs_times b).
      { induction a as [|x a IHa]; intros; [reflexivity|]. destruct x; cbn; rewrite ?IHa; reflexivity. }
      cbn [c_s c_t]. rewrite SA, OA, seq_S, !map_app, I3, I4, I1, I2. cbn.
      repeat split; reflexivity.
  Qed.

  Lemma fixed_run : forall num t0 h y0, Z.of_nat num < int32_max ->
    exists tr,
      advance_n_steps_fixed o pure_user (Z.of_nat num) t0 h (y0, tt, []) =
        (Ok tt, (fixed_state (sadd o) step t0 h y0 num, tt, tr)) /\
      stepper_calls tr = map (fun k => (Z.of_nat (S k), fixed_time (sadd o) t0 h k, h,
                                   fixed_state (sadd o) step t0 h y0 k)) (seq 0 num) /\
      obs_times tr = map (fixed_time (sadd o) t0 h) (seq 0 (S num)).
  Proof.
    intros num t0 h y0 Hn.
    destruct (advance_n_steps_fixed o pure_user (Z.of_nat num) t0 h (y0, tt, [])) as [r [[s' w'] tr]] eqn:E.
    pose proof (advance_n_steps_spec o noop_obs (fun _ _ _ w => (Ok h, w)) noop_guess pure_step
                  num t0 y0 tt r s' w' tr Hn E) as R.
    inversion R; subst.
    - inversion H; subst. inversion H0.
    - inversion H2; subst;
        repeat match goal with H : same_failure _ _ |- _ => inversion H; subst; clear H end;
        unfold noop_obs, noop_guess, pure_step in *; try congruence.
    - inversion H; subst. apply fixed_good in H0. destruct H0 as (I1 & I2 & I3 & I4).
      eexists; split; [|split].
      + destruct (c_w c). rewrite I1. reflexivity.
      + exact I3.
      + cbn [obs_times]. rewrite I4. change (seq 0 (S num)) with (0%nat :: seq 1 num). cbn [map].
        f_equal. rewrite <- seq_shift, map_map. reflexivity.
  Qed.

  Lemma fixed_shift : (forall s t k k' dt, step s t k dt = step s t k' dt) ->
    forall h t0 y0 n m,
    fixed_time (sadd o) t0 h (n + m) = fixed_time (sadd o) (fixed_time (sadd o) t0 h n) h m /\
    fixed_state (sadd o) step t0 h y0 (n + m) =
    fixed_state (sadd o) step (fixed_time (sadd o) t0 h n) h (fixed_state (sadd o) step t0 h y0 n) m.
  Proof.
    intros Hk h t0 y0 n m. induction m as [|m [IH1 IH2]].
    - rewrite Nat.add_0_r. split; reflexivity.
    - rewrite Nat.add_succ_r. cbn [fixed_time fixed_state].
      rewrite IH1, IH2. split; [reflexivity|]. apply Hk.
  Qed.

  Lemma fixed_times_shift : forall h t0 n m a,
    map (fixed_time (sadd o) (fixed_time (sadd o) t0 h n) h) (seq a m) =
    map (fixed_time (sadd o) t0 h) (seq (n + a) m).
  Proof.
    intros h t0 n m. induction m; intros a; [reflexivity|]. cbn [seq map].
    f_equal.
    - induction a; [rewrite Nat.add_0_r; reflexivity|].
      rewrite Nat.add_succ_r. cbn [fixed_time]. rewrite IHa. reflexivity.
    - rewrite <- Nat.add_succ_r. apply IHm.
  Qed.

  Lemma split_run : (forall s t k k' dt, step s t k dt = step s t k' dt) ->
    forall n m t0 h y0, Z.of_nat (n + m) < int32_max ->
    forall tr1 y1 tr2 y2,
    advance_n_steps_fixed o pure_user (Z.of_nat n) t0 h (y0, tt, []) = (Ok tt, (y1, tt, tr1)) ->
    advance_n_steps_fixed o pure_user (Z.of_nat m) (last (obs_times tr1) t0) h (y1, tt, [])
       = (Ok tt, (y2, tt, tr2)) ->
    exists tr, advance_n_steps_fixed o pure_user (Z.of_nat (n + m)) t0 h (y0, tt, []) =
      (Ok tt, (y2, tt, tr)) /\
      obs_times tr = obs_times tr1 ++ tl (obs_times tr2).
  Proof.
    intros Hk n m t0 h y0 Hn tr1 y1 tr2 y2 H1 H2.
    destruct (fixed_run n t0 h y0 ltac:(lia)) as (tr1' & E1 & _ & O1).
    rewrite E1 in H1; inversion H1; subst; clear H1.
    assert (L : last (obs_times tr1) t0 = fixed_time (sadd o) t0 h n).
    { rewrite O1, seq_S, map_app. cbn [map]. apply last_last. }
    rewrite L in H2.
    destruct (fixed_run m (fixed_time (sadd o) t0 h n) h (fixed_state (sadd o) step t0 h y0 n)
                ltac:(lia)) as (tr2' & E2 & _ & O2).
    rewrite E2 in H2; inversion H2; subst; clear H2.
    destruct (fixed_run (n + m) t0 h y0 Hn) as (tr & E & _ & O3).
    exists tr. rewrite E. destruct (fixed_shift Hk h t0 y0 n m) as [_ ->].
    split; [reflexivity|].
    rewrite O1, O2, O3. change (seq 0 (S m)) with (0%nat :: seq 1 m). cbn [map tl].
    replace (S (n + m)) with (S n + m)%nat by lia. rewrite seq_app, map_app. f_equal.
    rewrite Nat.add_0_l. replace (S n) with (n + 1)%nat by lia.
    symmetry. apply fixed_times_shift.
  Qed.
End FixedDt.

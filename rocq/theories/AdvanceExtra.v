(** Overflow, overload table, floating point: lemmas behind C03, C08, C09; exact
    times for C02; closed form of the attempted sizes for C07. *)
From Coq Require Import ZArith List Bool Lia Reals Lra QArith Qcanon SpecFloat.
From Verif Require Import Base RInst QcInst FloatInst AdvanceModel AdvanceSpec AdvanceProofs
  TargetProofs.
Import ListNotations.
Local Open Scope Z_scope.

(** * C03 *)
Section Overflow.
  Context {T St W : Type} (o : sops T) (u : user T St W).
  Hypothesis obs_ok : forall k t s w, fst (u_obs u k t s w) = Ok tt.
  Hypothesis pol_ok : forall k t x w, exists y, fst (u_pol u k t x w) = Ok y.
  Hypothesis guess_ok : forall k t s w, fst (u_guess u k t s w) = Ok tt.
  Hypothesis step_ok : forall s t k dt w, fst (u_step u s t k dt w) = Ok tt.

  Lemma overflow_loop : forall m fuel k t dt g,
    k + Z.of_nat m = int32_max -> (m < fuel)%nat ->
    fst (n_steps_loop o u fuel int32_max k t dt g) = Undef UIntOverflow.
  Proof.
    assert (St_ : forall fuel k t dt g, k <= int32_max ->
      exists t' dt' g', n_steps_loop o u (S fuel) int32_max k t dt g =
        if k =? int32_max then (Undef UIntOverflow, g')
        else n_steps_loop o u fuel int32_max (k + 1) t' dt' g').
    { intros fuel k t dt [[s w] tr] Hk. cbn [n_steps_loop].
      rewrite (proj2 (Z.leb_le k int32_max)) by lia.
      unfold bind, do_pol, do_guess, do_step, do_obs, incr.
      destruct (pol_ok k t (dt, s0 o, s1 o) w) as [y Hy].
      destruct (u_pol u k t (dt, s0 o, s1 o) w) as [r w1]; cbn in Hy; subst r.
      pose proof (guess_ok k t s w1) as Hg.
      destruct (u_guess u k t s w1) as [r [s2 w2]]; cbn in Hg; subst r.
      pose proof (step_ok s2 t k (fst (fst y)) w2) as Hs.
      destruct (u_step u s2 t k (fst (fst y)) w2) as [r [s3 w3]]; cbn in Hs; subst r.
      pose proof (obs_ok k (sadd o t (fst (fst y))) s3 w3) as Ho.
      destruct (u_obs u k (sadd o t (fst (fst y))) s3 w3) as [r w4]; cbn in Ho; subst r.
      do 3 eexists. destruct (k =? int32_max); reflexivity. }
    induction m; intros fuel k t dt g Hk Hf; destruct fuel as [|fuel]; try lia.
    - destruct (St_ fuel k t dt g ltac:(lia)) as (t' & dt' & g' & E). rewrite E.
      rewrite (proj2 (Z.eqb_eq _ _)) by lia. reflexivity.
    - destruct (St_ fuel k t dt g ltac:(lia)) as (t' & dt' & g' & E). rewrite E.
      rewrite (proj2 (Z.eqb_neq _ _)) by lia. apply IHm; lia.
  Qed.

  Lemma overflow_run : forall start g,
    fst (advance_n_steps o u int32_max start g) = Undef UIntOverflow.
  Proof.
    intros start [[s w] tr]. unfold advance_n_steps, bind, do_obs.
    pose proof (obs_ok 0 start s w) as Ho.
    destruct (u_obs u 0 start s w) as [r w']; cbn in Ho; subst r.
    apply (overflow_loop (Z.to_nat (int32_max - 1))); unfold int32_max; lia.
  Qed.
End Overflow.

Section NoOverflow.
  Context {T St W : Type} (o : sops T).
  Variable obs : Z -> T -> St -> W -> outcome unit * W.
  Variable pol : Z -> T -> T -> W -> outcome T * W.
  Variable guess : Z -> T -> St -> W -> outcome unit * (St * W).
  Variable step : St -> T -> Z -> T -> W -> outcome unit * (St * W).
  Hypothesis obs_ok : forall k t s w, fst (obs k t s w) <> Undef UIntOverflow.
  Hypothesis pol_ok : forall k t x w, fst (pol k t x w) <> Undef UIntOverflow.
  Hypothesis guess_ok : forall k t s w, fst (guess k t s w) <> Undef UIntOverflow.
  Hypothesis step_ok : forall s t k dt w, fst (step s t k dt w) <> Undef UIntOverflow.

  Lemma no_overflow : forall num start s w, num < int32_max ->
    fst (advance_n_steps o (mk_user obs (pol3 pol) guess step) num start (s, w, [])) <> Undef UIntOverflow.
  Proof.
    intros num start s w Hn.
    destruct (Z_le_gt_dec num 0) as [Hle|Hgt].
    - rewrite advance_n_steps_nonpos by assumption.
      pose proof (obs_ok 0 start s w). destruct (obs 0 start s w); assumption.
    - destruct (advance_n_steps o (mk_user obs (pol3 pol) guess step) num start (s, w, []))
        as [r [[s' w'] tr]] eqn:E.
      replace num with (Z.of_nat (Z.to_nat num)) in E by lia.
      apply advance_n_steps_spec in E; [|lia].
      assert (SF : forall A (x : outcome A) (y : outcome unit),
        same_failure x y -> x <> Undef UIntOverflow -> y <> Undef UIntOverflow)
        by (intros A x y Hs Hx; destruct Hs; congruence).
      cbn. inversion E; subst; try discriminate.
      + eapply SF; [eassumption|]. intros ->. eapply obs_ok. rewrite H. reflexivity.
      + inversion H2; subst; (eapply SF; [eassumption|]); intros ->.
        * eapply pol_ok. rewrite H3. reflexivity.
        * eapply guess_ok. rewrite H4. reflexivity.
        * eapply step_ok. rewrite H5. reflexivity.
        * eapply obs_ok. rewrite H6. reflexivity.
  Qed.
End NoOverflow.

(** * C02, exact times *)
Lemma fixed_time_R : forall t0 h n, fixed_time Rplus t0 h n = (t0 + INR n * h)%R.
Proof.
  intros. induction n; [simpl; lra|]. cbn [fixed_time]. rewrite IHn, S_INR. lra.
Qed.

(** * C07, closed form over the reals *)
Lemma iter_div_R : forall eps scal, scal <> 0%R -> forall j dt,
  iter_div (Rops eps) scal dt j = (dt / scal ^ j)%R.
Proof.
  intros eps scal Hs j. induction j; intros dt; cbn [iter_div].
  - simpl. field.
  - rewrite IHj. cbn. field. split; [apply pow_nonzero; assumption|assumption].
Qed.

(** * C08 *)
Section NoRecovery.
  Context {T St W : Type} (o : sops T).
  (** One attempt per step: without recovery the outcome of the first failing
      stepper call is the outcome of the run. *)
  Lemma no_recovery : forall (obs : Z -> T -> St -> W -> outcome unit * W) pol step fuel start final s w0 w1 w2 e s' w' dt,
    sltb o final start = false -> seqb o final start = false ->
    obs 0 start s w0 = (Ok tt, w1) ->
    pol 1 start (s0 o) w1 = (Ok dt, w2) -> sltb o dt (s0 o) = false ->
    step s start 1 dt w2 = (Throw e, (s', w')) ->
    with_step_recovery_no_args o obs pol step (S fuel) start final (s, w0, []) =
      (Throw e, (s', w', [CObs 0 start s; CPol 1 start; CStep 1 start dt s])).
  Proof.
    intros. unfold with_step_recovery_no_args, to_target. rewrite H, H0.
    unfold bind at 1, do_obs; cbn [u_obs]. rewrite H1. cbn [target_loop].
    unfold bind at 1, do_pol; cbn [u_pol]. unfold pol3. rewrite H2. rewrite H3. cbn [andb].
    unfold one_step. unfold bind, do_step; cbn [u_step]. rewrite H4. reflexivity.
  Qed.
End NoRecovery.

(** A stepper that works only with steps of at most 1/2 and counts its calls. *)
Definition picky_step (s : Qc) (_ : Qc) (_ : Z) (dt : Qc) (w : Z) : outcome unit * (Qc * Z) :=
  if Qcleb dt (Q2Qc (1 # 2)) then (Ok tt, (Qcplus s dt, w + 1))
  else (Throw ETimeStep, (s, w + 1)).

(** * C09 *)
Definition f64_user : user spec_float Z unit :=
  mk_user noop_obs (const_pol f64_0p1) noop_guess (fun s _ _ _ w => (Ok tt, (s + 1, w))).

Lemma f64_run : 
  let '(r, (s, _, tr)) := to_target F64 f64_user false 100 (s0 F64) f64_6p4 (0, tt, []) in
  r = Ok tt /\ s = 65 /\ length (stepper_calls tr) = 65%nat /\
  sltb F64 f64_6p4 (last (obs_times tr) (s0 F64)) = true.
Proof. vm_compute. repeat split; reflexivity. Qed.

(** 6.4 is exactly 64 * 0.1 in binary64 values: same significand, exponent + 6. *)
Lemma f64_64_times : SFmul 53 1024 (S754_finite false 4503599627370496 (-46)) f64_0p1 = f64_6p4 /\
  f64_6p4 = S754_finite false 7205759403792794 (-50) /\ f64_0p1 = S754_finite false 7205759403792794 (-56).
Proof. vm_compute. repeat split; reflexivity. Qed.

Lemma f64_witness :
  f64_6p4 = SFmul 53 1024 (S754_finite false 4503599627370496 (-46)) f64_0p1 /\
  exists tr,
    to_target F64 f64_user false 100 (s0 F64) f64_6p4 (0, tt, []) = (Ok tt, (65, tt, tr)) /\
    length (stepper_calls tr) = 65%nat /\
    sltb F64 f64_6p4 (last (obs_times tr) (s0 F64)) = true.
Proof.
  split; [vm_compute; reflexivity|].
  pose proof f64_run as H.
  destruct (to_target F64 f64_user false 100 (s0 F64) f64_6p4 (0, tt, [])) as [r [[s []] tr]].
  destruct H as (-> & -> & H1 & H2). exists tr. auto.
Qed.

Lemma no_args_witness :
  exists (pol3v : Z -> Qc -> Qc -> Z -> outcome Qc * Z) pol5
         (step : Qc -> Qc -> Z -> Qc -> Z -> outcome unit * (Qc * Z)) start final s w,
  fst (with_step_recovery_args QcS noop_obs pol5 step 10 start final (s, w, [])) = Ok tt /\
  fst (with_step_recovery_no_args QcS noop_obs pol3v step 10 start final (s, w, [])) = Throw ETimeStep.
Proof.
  exists (fun _ _ _ w => (Ok (Q2Qc 1), w)),
         (fun _ _ _ w => (Ok (Q2Qc 1, Q2Qc (1 # 10), Q2Qc 2), w)), picky_step,
         (Q2Qc 0), (Q2Qc 1), (Q2Qc 7), 0.
  split; vm_compute; reflexivity.
Qed.

Lemma backwards :
  forall (T St W : Type) (o : sops T) (u : user T St W) recovery fuel start final g,
  sltb o final start = true ->
  to_target o u recovery fuel start final g = (Throw ERuntime, g).
Proof. intros. unfold to_target. rewrite H. reflexivity. Qed.

Lemma nothing_to_do :
  forall (T St W : Type) (o : sops T) (u : user T St W) recovery fuel start final g,
  sltb o final start = false -> seqb o final start = true ->
  to_target o u recovery fuel start final g = (Ok tt, g).
Proof. intros. unfold to_target. rewrite H, H0. reflexivity. Qed.

Lemma ok_run_times :
  forall (T St W : Type) (o : sops T) (u : user T St W) recovery fuel start final s w s' w' tr,
  to_target o u recovery fuel start final (s, w, []) = (Ok tt, (s', w', tr)) ->
  seqb o final start = false ->
  exists ts tn, obs_times tr = start :: ts ++ [tn] /\
    reached o final tn /\ Forall (fun t => ~ reached o final t) ts.
Proof.
  intros T St W o u recovery fuel start final s w s' w' tr H Hne.
  apply to_target_sound in H; [|discriminate].
  inversion H; subst; try congruence.
  - match goal with H : same_failure _ _ |- _ => inversion H end.
  - exfalso. match goal with H : bad_tstep _ _ _ _ _ _ _ _ _ |- _ => inversion H; subst end;
    try congruence; match goal with H : same_failure _ _ |- _ => inversion H end.
  - match goal with H : good_tsteps _ _ _ _ _ _ _ _ |- _ => apply good_tsteps_obs in H; destruct H as (ts & E & _ & F) end.
    exists ts, (t_time c). cbn. rewrite E. auto.
Qed.

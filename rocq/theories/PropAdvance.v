(** Properties C01-C09: the ODE advancers. *)
From Coq Require Import ZArith List Bool Lia Reals QArith Qcanon SpecFloat.
From Verif Require Import Base RInst QcInst FloatInst AdvanceModel AdvanceSpec AdvanceProofs
  TargetProofs TargetReal AdvanceExtra AdvanceRetry.
Import ListNotations.
Local Open Scope Z_scope.

(** C01. Every run of [advance_n_steps], whatever its outcome, is one of the runs
    described by [n_steps_run]: the exact calls in order, stopping at the first
    call that does not complete. *)
Theorem C01_calls_in_order :
  forall (T St W : Type) (o : sops T) obs pol guess step (num : nat) start (s : St) (w : W) r s' w' tr,
  Z.of_nat num < int32_max ->
  advance_n_steps o (mk_user obs (pol3 pol) guess step) (Z.of_nat num) start (s, w, [])
    = (r, (s', w', tr)) ->
  n_steps_run (sadd o) obs pol guess step num start (s0 o) s w r s' w' tr.
Proof. exact @advance_n_steps_spec. Qed.
Print Assumptions C01_calls_in_order.

Theorem C01_nonpositive_count :
  forall (T St W : Type) (o : sops T) obs pol guess step num start (s : St) (w : W),
  num <= 0 ->
  advance_n_steps o (mk_user obs (pol3 pol) guess step) num start (s, w, []) =
  let '(r, w') := obs 0 start s w in (r, (s, w', [CObs 0 start s])).
Proof. exact @advance_n_steps_nonpos. Qed.
Print Assumptions C01_nonpositive_count.

(** C02. *)
Theorem C02_fixed_dt_states_and_times :
  forall (T St : Type) (o : sops T) (step : St -> T -> Z -> T -> St) num t0 h y0,
  Z.of_nat num < int32_max ->
  exists tr,
    advance_n_steps_fixed o (pure_user step) (Z.of_nat num) t0 h (y0, tt, []) =
      (Ok tt, (fixed_state (sadd o) step t0 h y0 num, tt, tr)) /\
    stepper_calls tr = map (fun k => (Z.of_nat (S k), fixed_time (sadd o) t0 h k, h,
                                 fixed_state (sadd o) step t0 h y0 k)) (seq 0 num) /\
    obs_times tr = map (fixed_time (sadd o) t0 h) (seq 0 (S num)).
Proof. exact @fixed_run. Qed.
Print Assumptions C02_fixed_dt_states_and_times.

Theorem C02_exact_times : forall t0 h n, fixed_time Rplus t0 h n = (t0 + INR n * h)%R.
Proof. exact fixed_time_R. Qed.
Print Assumptions C02_exact_times.

Theorem C02_splitting :
  forall (T St : Type) (o : sops T) (step : St -> T -> Z -> T -> St),
  (forall s t k k' dt, step s t k dt = step s t k' dt) ->
  forall n m t0 h y0, Z.of_nat (n + m) < int32_max ->
  forall tr1 y1 tr2 y2,
  advance_n_steps_fixed o (pure_user step) (Z.of_nat n) t0 h (y0, tt, []) = (Ok tt, (y1, tt, tr1)) ->
  advance_n_steps_fixed o (pure_user step) (Z.of_nat m) (last (obs_times tr1) t0) h (y1, tt, [])
     = (Ok tt, (y2, tt, tr2)) ->
  exists tr, advance_n_steps_fixed o (pure_user step) (Z.of_nat (n + m)) t0 h (y0, tt, []) =
    (Ok tt, (y2, tt, tr)) /\
    obs_times tr = obs_times tr1 ++ tl (obs_times tr2).
Proof. exact @split_run. Qed.
Print Assumptions C02_splitting.

(** C03. *)
Theorem C03_no_overflow_below_max :
  forall (T St W : Type) (o : sops T) obs pol guess step,
  (forall k t (s : St) (w : W), fst (obs k t s w) <> Undef UIntOverflow) ->
  (forall k t x w, fst (pol k t x w) <> Undef UIntOverflow) ->
  (forall k t s w, fst (guess k t s w) <> Undef UIntOverflow) ->
  (forall s t k dt w, fst (step s t k dt w) <> Undef UIntOverflow) ->
  forall num start s w, num < int32_max ->
  fst (advance_n_steps o (mk_user obs (pol3 pol) guess step) num start (s, w, []))
    <> Undef UIntOverflow.
Proof. exact @no_overflow. Qed.
Print Assumptions C03_no_overflow_below_max.

(** The full C03 is false: the largest representable step count overflows for
    every user code that never throws. *)
Theorem C03_step_counter_refuted :
  forall (T St W : Type) (o : sops T) (u : user T St W),
  (forall k t s w, fst (u_obs u k t s w) = Ok tt) ->
  (forall k t x w, exists y, fst (u_pol u k t x w) = Ok y) ->
  (forall k t s w, fst (u_guess u k t s w) = Ok tt) ->
  (forall s t k dt w, fst (u_step u s t k dt w) = Ok tt) ->
  forall start g, fst (advance_n_steps o u int32_max start g) = Undef UIntOverflow.
Proof. exact @overflow_run. Qed.
Print Assumptions C03_step_counter_refuted.

(** C04, C06, C07. Every run that ends is one described by [target_run], and
    every described run is what the program does. *)
Theorem C04_every_run_is_as_specified :
  forall (T St W : Type) (o : sops T) (u : user T St W) recovery fuel start final s w r s' w' tr,
  to_target o u recovery fuel start final (s, w, []) = (r, (s', w', tr)) ->
  r <> NoFuel -> target_run o u recovery start final s w r s' w' tr.
Proof. exact @to_target_sound. Qed.
Print Assumptions C04_every_run_is_as_specified.

Theorem C04_every_specified_run_happens :
  forall (T St W : Type) (o : sops T) (u : user T St W) recovery start final s w r s' w' tr,
  target_run o u recovery start final s w r s' w' tr ->
  exists F, forall fuel, (F <= fuel)%nat ->
    to_target o u recovery fuel start final (s, w, []) = (r, (s', w', tr)).
Proof. exact @to_target_complete. Qed.
Print Assumptions C04_every_specified_run_happens.

Theorem C04_stops_at_first_time_reaching_target :
  forall (T St W : Type) (o : sops T) (u : user T St W) recovery fuel start final s w s' w' tr,
  to_target o u recovery fuel start final (s, w, []) = (Ok tt, (s', w', tr)) ->
  seqb o final start = false ->
  exists ts tn, obs_times tr = start :: ts ++ [tn] /\
    reached o final tn /\ Forall (fun t => ~ reached o final t) ts.
Proof. exact @ok_run_times. Qed.
Print Assumptions C04_stops_at_first_time_reaching_target.

(** C05. *)
Theorem C05_terminates :
  forall (St W : Type) (eps : R) (u : user R St W) (recovery : bool) (d : R),
  (0 <= eps)%R -> (0 < d)%R ->
  (forall k t s w, fst (u_obs u k t s w) <> NoFuel) ->
  (forall k t x w, fst (u_pol u k t x w) <> NoFuel) ->
  (forall s t k dt w, fst (u_step u s t k dt w) <> NoFuel) ->
  (forall k t x w dt m c w', u_pol u k t x w = (Ok (dt, m, c), w') ->
     (d <= dt)%R /\ (recovery = true -> (d <= m)%R)) ->
  forall start final s w, exists F, forall fuel, (F <= fuel)%nat ->
    fst (to_target (Rops eps) u recovery fuel start final (s, w, [])) <> NoFuel.
Proof. exact @to_target_terminates. Qed.
Print Assumptions C05_terminates.

Theorem C05_number_of_steps :
  forall (St W : Type) (eps : R) (u : user R St W) (recovery : bool) (d : R),
  (0 <= eps)%R -> (0 < d)%R ->
  (forall k t x w dt m c w', u_pol u k t x w = (Ok (dt, m, c), w') ->
     (d <= dt)%R /\ (recovery = true -> (d <= m)%R)) ->
  forall final c0 n tr c, (t_time c0 < final)%R ->
  good_tsteps (Rops eps) u recovery final c0 n tr c ->
  ((INR n - 1) * d < final - t_time c0)%R.
Proof. exact @steps_bound. Qed.
Print Assumptions C05_number_of_steps.

Theorem C05_number_of_reports :
  forall (St W : Type) (eps : R) (u : user R St W) (recovery : bool) (d : R),
  (0 <= eps)%R -> (0 < d)%R ->
  (forall k t x w dt m c w', u_pol u k t x w = (Ok (dt, m, c), w') ->
     (d <= dt)%R /\ (recovery = true -> (d <= m)%R)) ->
  forall fuel start final s w r s' w' tr,
  to_target (Rops eps) u recovery fuel start final (s, w, []) = (r, (s', w', tr)) ->
  r <> NoFuel -> (start < final)%R ->
  ((INR (length (obs_times tr)) - 2) * d < final - start)%R.
Proof. exact @run_count. Qed.
Print Assumptions C05_number_of_reports.

(** Without the lower bound: a policy that leaves dt alone never lets the run
    return. *)
Theorem C05_unset_step_size_refuted :
  forall (St : Type) (eps : R) start final (s : St) fuel,
  (eps < final - start)%R -> (start < final)%R ->
  let r := fst (to_target (Rops eps) lazy_user false fuel start final (s, tt, [])) in
  r = NoFuel \/ r = Undef UIntOverflow.
Proof. exact @lazy_never_ok. Qed.
Print Assumptions C05_unset_step_size_refuted.

(** Recovery with minimum 0 (which the interface allows) retries for ever. *)
Theorem C07_zero_minimum_refuted :
  forall (St : Type) (eps : R) start final (s : St) fuel, (start < final)%R ->
  fst (to_target (Rops eps) failing_user true fuel start final (s, tt, [])) = NoFuel.
Proof. exact @failing_forever. Qed.
Print Assumptions C07_zero_minimum_refuted.

(** C06. *)
Theorem C06_backwards_throws_before_any_call :
  forall (T St W : Type) (o : sops T) (u : user T St W) recovery fuel start final g,
  sltb o final start = true ->
  to_target o u recovery fuel start final g = (Throw ERuntime, g).
Proof. exact @backwards. Qed.
Print Assumptions C06_backwards_throws_before_any_call.

Theorem C06_equal_returns_without_any_call :
  forall (T St W : Type) (o : sops T) (u : user T St W) recovery fuel start final g,
  sltb o final start = false -> seqb o final start = true ->
  to_target o u recovery fuel start final g = (Ok tt, g).
Proof. exact @nothing_to_do. Qed.
Print Assumptions C06_equal_returns_without_any_call.

(** C07: sizes of the attempts made for one step (step number k, start t, size dt
    set by the policy). *)
Theorem C07_attempt_sizes :
  forall (T St W : Type) (o : sops T) (u : user T St W) recovery
         k t mindt scal dt s w tr dt' r s' w',
  attempts o u recovery k t mindt scal dt s w tr dt' r s' w' ->
  sltb o dt mindt = false ->
  exists j, map (fun c => let '(k', t', d, _) := c in (k', t', d)) (stepper_calls tr)
            = map (fun i => (k, t, iter_div o scal dt i)) (seq 0 (S j)) /\
    dt' = iter_div o scal dt j /\
    (forall i, (i <= j)%nat -> sltb o (iter_div o scal dt i) mindt = false) /\
    (recovery = false -> j = 0%nat).
Proof. exact @attempts_sizes. Qed.
Print Assumptions C07_attempt_sizes.

Theorem C07_sizes_are_geometric :
  forall eps scal, scal <> 0%R -> forall j dt,
  iter_div (Rops eps) scal dt j = (dt / scal ^ j)%R.
Proof. exact iter_div_R. Qed.
Print Assumptions C07_sizes_are_geometric.

(** C07, on the calls of a whole run: after a call of the stepper comes a retry
    with the divided size, or the observation at the advanced time, or nothing. *)
Theorem C07_retries_in_the_trace :
  forall (T St W : Type) (o : sops T) (u : user T St W) recovery (mindt scal : T),
  (forall k t x w dt m c w', u_pol u k t x w = (Ok (dt, m, c), w') -> m = mindt /\ c = scal) ->
  forall fuel start final s w r s' w' tr,
  to_target o u recovery fuel start final (s, w, []) = (r, (s', w', tr)) -> r <> NoFuel ->
  chain (after_step o mindt scal) tr.
Proof. exact @retries_in_trace. Qed.
Print Assumptions C07_retries_in_the_trace.

(** C08 is false: the overloads without stepper arguments do not recover. *)
Theorem C08_no_args_overload_refuted :
  forall (T St W : Type) (o : sops T) (obs : Z -> T -> St -> W -> outcome unit * W)
         pol step fuel start final s w0 w1 w2 e s' w' dt,
  sltb o final start = false -> seqb o final start = false ->
  obs 0 start s w0 = (Ok tt, w1) ->
  pol 1 start (s0 o) w1 = (Ok dt, w2) -> sltb o dt (s0 o) = false ->
  step s start 1 dt w2 = (Throw e, (s', w')) ->
  with_step_recovery_no_args o obs pol step (S fuel) start final (s, w0, []) =
    (Throw e, (s', w', [CObs 0 start s; CPol 1 start; CStep 1 start dt s])).
Proof. exact @no_recovery. Qed.
Print Assumptions C08_no_args_overload_refuted.

(** The same stepper and policy: recovers with the variadic overload, fails with
    the other. *)
Theorem C08_witness_refuted :
  exists (pol3v : Z -> Qc -> Qc -> Z -> outcome Qc * Z) pol5
         (step : Qc -> Qc -> Z -> Qc -> Z -> outcome unit * (Qc * Z)) start final s w,
  fst (with_step_recovery_args QcS noop_obs pol5 step 10 start final (s, w, [])) = Ok tt /\
  fst (with_step_recovery_no_args QcS noop_obs pol3v step 10 start final (s, w, [])) = Throw ETimeStep.
Proof. exact no_args_witness. Qed.
Print Assumptions C08_witness_refuted.

(** C09 is false in binary64: 64 steps of 0.1 should reach 6.4 = 64 * 0.1; the
    loop makes 65 and ends past the target. *)
Theorem C09_lands_on_target_refuted :
  f64_6p4 = SFmul 53 1024 (S754_finite false 4503599627370496 (-46)) f64_0p1 /\
  exists tr,
    to_target F64 f64_user false 100 (s0 F64) f64_6p4 (0, tt, []) = (Ok tt, (65, tt, tr)) /\
    length (stepper_calls tr) = 65%nat /\
    sltb F64 f64_6p4 (last (obs_times tr) (s0 F64)) = true.
Proof. exact f64_witness. Qed.
Print Assumptions C09_lands_on_target_refuted.

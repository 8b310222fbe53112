(** Model of the ODE advancers (include/pressio/ode/impl/ode_advance_n_steps.hpp
    and ode_advance_to_target_time.hpp). No proofs in this file. *)
From Coq Require Import ZArith List Bool.
From Verif Require Import Base.
Import ListNotations.
Local Open Scope Z_scope.
Local Open Scope cmd_scope.

(** What the outside world can see: calls to the four user objects, with
    arguments. [T] is the independent variable, [St] the ODE state. *)
(* the calls in ode/impl/ode_advance_n_steps.hpp 77, 88-90, 95, 97-100, 103 and ode/impl/ode_advance_to_target_time.hpp 118, 129-131, 152-155, 171-174, 178 *)
Inductive call (T St : Type) :=
| CObs (step : Z) (time : T) (state : St)
| CPol (step : Z) (time : T)
| CGuess (step : Z) (time : T) (state : St)
| CStep (step : Z) (time : T) (dt : T) (state : St).
Arguments CObs {T St}. Arguments CPol {T St}.
Arguments CGuess {T St}. Arguments CStep {T St}.

(** User objects. They share a world [W]; each call returns an outcome and the
    new world. Guesser and stepper get the state by reference and return its
    new value, also when they throw. The policy gets [dt] (and with recovery the
    minimum and the scaling factor) by reference. *)
(* the objects called there: observer, dtManager or dtPolicy, guesser, stepper (ode/impl/ode_advance_n_steps.hpp 65-72, ode/impl/ode_advance_to_target_time.hpp 92-98) *)
Record user (T St W : Type) := mk_user {
  u_obs : Z -> T -> St -> W -> outcome unit * W;
  u_pol : Z -> T -> (T * T * T) -> W -> outcome (T * T * T) * W;
  u_guess : Z -> T -> St -> W -> outcome unit * (St * W);
  u_step : St -> T -> Z -> T -> W -> outcome unit * (St * W)
}.
Arguments mk_user {T St W}.
Arguments u_obs {T St W}. Arguments u_pol {T St W}.
Arguments u_guess {T St W}. Arguments u_step {T St W}.

Section Advance.
  Context {T St W : Type} (o : sops T) (u : user T St W).

  (** Everything that survives a call: caller's state, user world, call trace
      (most recent call last). *)
  (* odeState (ode/impl/ode_advance_n_steps.hpp 68, ode/impl/ode_advance_to_target_time.hpp 95), the rest is the model's own *)
  Definition gstate : Type := (St * W * list (call T St))%type.
  (* model only: computations over gstate *)
  Definition acmd := cmd gstate.

  (* ode/impl/ode_advance_n_steps.hpp 77, 103; ode/impl/ode_advance_to_target_time.hpp 118, 178 *)
  Definition do_obs (step : Z) (time : T) : acmd unit :=
    fun '(s, w, tr) =>
      let '(r, w') := u_obs u step time s w in
      (r, (s, w', tr ++ [CObs step time s])).
  (** ode_advance_to_target_time.hpp 56-82: call_dt_policy. A policy that takes
      only dt (no recovery) leaves the other two components alone; such policies
      are the image of [pol3] below. *)
  Definition do_pol (step : Z) (time : T) (dts : T * T * T) : acmd (T * T * T) :=
    fun '(s, w, tr) =>
      let '(r, w') := u_pol u step time dts w in
      (r, (s, w', tr ++ [CPol step time])).
  (* ode/impl/ode_advance_n_steps.hpp 95 *)
  Definition do_guess (step : Z) (time : T) : acmd unit :=
    fun '(s, w, tr) =>
      let '(r, (s', w')) := u_guess u step time s w in
      (r, (s', w', tr ++ [CGuess step time s])).
  (* ode/impl/ode_advance_n_steps.hpp 97-100; ode/impl/ode_advance_to_target_time.hpp 152-155, 171-174 *)
  Definition do_step (time : T) (step : Z) (dt : T) : acmd unit :=
    fun '(s, w, tr) =>
      let '(r, (s', w')) := u_step u s time step dt w in
      (r, (s', w', tr ++ [CStep step time dt s])).

  (** ++step on int32_t: signed overflow is undefined behaviour. *)
  (* ode/impl/ode_advance_n_steps.hpp 83; ode/impl/ode_advance_to_target_time.hpp 186 *)
  Definition incr (step : Z) : acmd Z :=
    if step =? int32_max then undef UIntOverflow else ret (step + 1).

  (** ode_advance_n_steps.hpp 83-104: the for loop. *)
  Fixpoint n_steps_loop (fuel : nat) (num step : Z) (time dt : T) : acmd unit :=
    if step <=? num then
      match fuel with
      | O => nofuel
      | S fuel' =>
          dts <- do_pol step time (dt, s0 o, s1 o);;
          let dt' := fst (fst dts) in
          do_guess step time;;;
          do_step time step dt';;;
          let time' := sadd o time dt' in
          do_obs step time';;;
          step' <- incr step;;
          n_steps_loop fuel' num step' time' dt'
      end
    else ret tt.

  (** ode_advance_n_steps.hpp 65-105: advance_n_steps_with_dt_policy.
      [dt] is default constructed: StepSize(): 0 (ode_strong_types.hpp). *)
  Definition advance_n_steps (num : Z) (start : T) : acmd unit :=
    do_obs 0 start;;;
    n_steps_loop (S (Z.to_nat num)) num 1 start (s0 o).

  (** ode_advance_to_target_time.hpp 146-175: one step, with (recovery = true)
      or without retries. Returns the dt used. *)
  Fixpoint retry_loop (fuel : nat) (time : T) (step : Z) (dt mindt scal : T)
    : acmd T :=
    match fuel with
    | O => nofuel
    | S fuel' =>
        fun g =>
          match do_step time step dt g with
          | (Ok _, g') => (Ok dt, g')
          | (Throw ETimeStep, g') =>
              let dt' := sdiv o dt scal in
              if sltb o dt' mindt then (Throw ERuntime, g')
              else retry_loop fuel' time step dt' mindt scal g'
          | (Throw e, g') => (Throw e, g')
          | (Undef v, g') => (Undef v, g')
          | (NoFuel, g') => (NoFuel, g')
          end
    end.

  (* ode/impl/ode_advance_to_target_time.hpp 146-175 *)
  Definition one_step (recovery : bool) (fuel : nat) (time : T) (step : Z)
             (dt mindt scal : T) : acmd T :=
    if recovery then retry_loop fuel time step dt mindt scal
    else (do_step time step dt;;; ret dt).

  (** ode_advance_to_target_time.hpp 181-184: keep going? *)
  Definition keep_going (final time : T) : bool :=
    negb (sleb o (sabs o (ssub o time final)) (seps o))
    && negb (sltb o final time).

  (** ode_advance_to_target_time.hpp 124-187: the while loop. *)
  Fixpoint target_loop (recovery : bool) (fuel : nat) (final : T) (step : Z)
           (time : T) (dts : T * T * T) : acmd unit :=
    match fuel with
    | O => nofuel
    | S fuel' =>
        dts' <- do_pol step time dts;;
        let '(dt, mindt, scal) := dts' in
        if sltb o dt mindt then throw ERuntime
        else if recovery && sleb o scal (s1 o) then throw ERuntime
        else
          dt' <- one_step recovery fuel' time step dt mindt scal;;
          let time' := sadd o time dt' in
          do_obs step time';;;
          step' <- incr step;;
          if keep_going final time'
          then target_loop recovery fuel' final step' time' (dt', mindt, scal)
          else ret tt
    end.

  (** ode_advance_to_target_time.hpp 92-188. [recovery] is the template
      parameter enableTimeStepRecovery. *)
  Definition to_target (recovery : bool) (fuel : nat) (start final : T)
    : acmd unit :=
    if sltb o final start then throw ERuntime
    else if seqb o final start then ret tt
    else
      do_obs 0 start;;;
      target_loop recovery fuel final 1 start (s0 o, s0 o, s1 o).

End Advance.

(** A step size policy called without the recovery arguments: it sees and sets
    only dt (ode_advance_to_target_time.hpp 70-82, ode_advance_n_steps.hpp 88). *)
Definition pol3 {T W} (p : Z -> T -> T -> W -> outcome T * W)
  : Z -> T -> (T * T * T) -> W -> outcome (T * T * T) * W :=
  fun k t '(dt, m, c) w =>
    match p k t dt w with
    | (Ok dt', w') => (Ok (dt', m, c), w')
    | (Throw e, w') => (Throw e, w')
    | (Undef v, w') => (Undef v, w')
    | (NoFuel, w') => (NoFuel, w')
    end.

(** ode_advance_n_steps.hpp 127-132: the dtSetter of the fixed step size. *)
Definition const_pol {T W} (h : T) : Z -> T -> (T * T * T) -> W -> outcome (T * T * T) * W :=
  pol3 (fun _ _ _ w => (Ok h, w)).

(** ode/impl/ode_advance_noop_guesser.hpp, ode_advance_noop_observer.hpp:
    used when the caller passes no guesser / observer. *)
(* ode/impl/ode_advance_noop_guesser.hpp 54-63 *)
Definition noop_guess {T St W} : Z -> T -> St -> W -> outcome unit * (St * W) :=
  fun _ _ s w => (Ok tt, (s, w)).
(* ode/impl/ode_advance_noop_observer.hpp 54-63 *)
Definition noop_obs {T St W} : Z -> T -> St -> W -> outcome unit * W :=
  fun _ _ _ w => (Ok tt, w).

(** ** Public entry points *)
Section Public.
  Context {T St W : Type} (o : sops T).

  (* ode/impl/ode_advance_n_steps.hpp 127-138 *)
  Definition with_dt (h : T) (u : user T St W) : user T St W :=
    mk_user (u_obs u) (const_pol h) (u_guess u) (u_step u).

  (** ode/ode_advance_n_steps.hpp, ode_advance_n_steps_with_guesser.hpp and the
      variadic versions: all forward to the two functions above, with no-op
      observer or guesser where none is given. *)
  (* ode/impl/ode_advance_n_steps.hpp 116-139; called at ode/ode_advance_n_steps.hpp 74-76 and 130-133 *)
  Definition advance_n_steps_fixed (u : user T St W) (num : Z) (start h : T) :=
    advance_n_steps o (with_dt h u) num start.

  (** ode/ode_advance_to_target_point.hpp 58-108 and _variadic.hpp: <false>; the
      policy is called with dt only. *)
  Definition advance_to_target_point obs
             (pol : Z -> T -> T -> W -> outcome T * W) step fuel start final :=
    to_target o (mk_user (St:=St) obs (pol3 pol) noop_guess step) false fuel start final.

  (** ode/ode_advance_to_target_point_with_step_recovery.hpp 58-110: the
      overloads without stepper arguments instantiate
      to_target_time_with_step_size_policy<false> (lines 77 and 105). With
      <false> the policy is called with dt only, although the overload's
      constraint (StepSizePolicyWithReductionScheme, concepts/ode_others.hpp
      130-152) demands the five-argument call; so only policies that offer both
      calls compile at all. [pol] is the three-argument call of such a policy. *)
  Definition with_step_recovery_no_args obs
             (pol : Z -> T -> T -> W -> outcome T * W) step fuel start final :=
    to_target o (mk_user (St:=St) obs (pol3 pol) noop_guess step) false fuel start final.

  (** ode/ode_advance_to_target_point_with_step_recovery_variadic.hpp 58-123:
      <true>. The extra stepper arguments are part of [step]. *)
  Definition with_step_recovery_args obs
             (pol : Z -> T -> (T * T * T) -> W -> outcome (T * T * T) * W) step fuel start final :=
    to_target o (mk_user (St:=St) obs pol noop_guess step) true fuel start final.
End Public.

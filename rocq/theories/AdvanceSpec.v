(** Specification vocabulary for the advancers, independent of the loops in
    [AdvanceModel.v]: it only refers to the user's four objects. *)
From Coq Require Import ZArith List Bool.
From Verif Require Import Base AdvanceModel.
Import ListNotations.
Local Open Scope Z_scope.

(** [r] and [r'] are the same way of not completing normally. *)
Inductive same_failure {A B} : outcome A -> outcome B -> Prop :=
| SfThrow e : same_failure (Throw e) (Throw e)
| SfUndef u : same_failure (Undef u) (Undef u)
| SfNoFuel : same_failure NoFuel NoFuel.

Section Spec.
  Context {T St W : Type} (plus : T -> T -> T).
  Variable obs : Z -> T -> St -> W -> outcome unit * W.
  Variable pol : Z -> T -> T -> W -> outcome T * W.
  Variable guess : Z -> T -> St -> W -> outcome unit * (St * W).
  Variable step : St -> T -> Z -> T -> W -> outcome unit * (St * W).

  (** Situation between two steps: current time, last step size, state, world. *)
  Record cfg := mk_cfg { c_t : T; c_dt : T; c_s : St; c_w : W }.

  (** Step number [k] made completely, from [c], with these calls. *)
  Inductive good_step (k : Z) (c : cfg) : list (call T St) -> cfg -> Prop :=
  | GoodStep dt wa g wb s' wc w' :
      pol k (c_t c) (c_dt c) (c_w c) = (Ok dt, wa) ->
      guess k (c_t c) (c_s c) wa = (Ok tt, (g, wb)) ->
      step g (c_t c) k dt wb = (Ok tt, (s', wc)) ->
      obs k (plus (c_t c) dt) s' wc = (Ok tt, w') ->
      good_step k c
        [CPol k (c_t c); CGuess k (c_t c) (c_s c);
         CStep k (c_t c) dt g; CObs k (plus (c_t c) dt) s']
        (mk_cfg (plus (c_t c) dt) dt s' w').

  (** [n] consecutive complete steps numbered 1, ..., n. *)
  Inductive good_steps (c : cfg) : nat -> list (call T St) -> cfg -> Prop :=
  | GsNil : good_steps c 0 [] c
  | GsSnoc n tr c1 tr' c2 :
      good_steps c n tr c1 -> good_step (Z.of_nat (S n)) c1 tr' c2 ->
      good_steps c (S n) (tr ++ tr') c2.

  (** Step number [k] started from [c] but one of the four calls did not
      complete: the outcome is that call's, the state and world are as that call
      left them, and no later call was made. *)
  Inductive bad_step (k : Z) (c : cfg)
    : outcome unit -> St -> W -> list (call T St) -> Prop :=
  | BadPol r r' wa :
      pol k (c_t c) (c_dt c) (c_w c) = (r, wa) -> same_failure r r' ->
      bad_step k c r' (c_s c) wa [CPol k (c_t c)]
  | BadGuess dt wa g wb r r' :
      pol k (c_t c) (c_dt c) (c_w c) = (Ok dt, wa) ->
      guess k (c_t c) (c_s c) wa = (r, (g, wb)) -> same_failure r r' ->
      bad_step k c r' g wb [CPol k (c_t c); CGuess k (c_t c) (c_s c)]
  | BadStep dt wa g wb s' wc r r' :
      pol k (c_t c) (c_dt c) (c_w c) = (Ok dt, wa) ->
      guess k (c_t c) (c_s c) wa = (Ok tt, (g, wb)) ->
      step g (c_t c) k dt wb = (r, (s', wc)) -> same_failure r r' ->
      bad_step k c r' s' wc
        [CPol k (c_t c); CGuess k (c_t c) (c_s c); CStep k (c_t c) dt g]
  | BadObs dt wa g wb s' wc w' r r' :
      pol k (c_t c) (c_dt c) (c_w c) = (Ok dt, wa) ->
      guess k (c_t c) (c_s c) wa = (Ok tt, (g, wb)) ->
      step g (c_t c) k dt wb = (Ok tt, (s', wc)) ->
      obs k (plus (c_t c) dt) s' wc = (r, w') -> same_failure r r' ->
      bad_step k c r' s' w'
        [CPol k (c_t c); CGuess k (c_t c) (c_s c);
         CStep k (c_t c) dt g; CObs k (plus (c_t c) dt) s'].

  (** What a whole advance-n run of [num] steps is required to do: outcome,
      final state, final world and the calls made. [dt0] is the step size the
      first policy call finds. *)
  Inductive n_steps_run (num : nat) (start dt0 : T) (s : St) (w : W)
    : outcome unit -> St -> W -> list (call T St) -> Prop :=
  | RunObsFails r r' w' :
      obs 0 start s w = (r, w') -> same_failure r r' ->
      n_steps_run num start dt0 s w r' s w' [CObs 0 start s]
  | RunFailsAt j w0 tr c r s' w' tr' :
      (j < num)%nat ->
      obs 0 start s w = (Ok tt, w0) ->
      good_steps (mk_cfg start dt0 s w0) j tr c ->
      bad_step (Z.of_nat (S j)) c r s' w' tr' ->
      n_steps_run num start dt0 s w r s' w' (CObs 0 start s :: tr ++ tr')
  | RunCompletes w0 tr c :
      obs 0 start s w = (Ok tt, w0) ->
      good_steps (mk_cfg start dt0 s w0) num tr c ->
      n_steps_run num start dt0 s w (Ok tt) (c_s c) (c_w c) (CObs 0 start s :: tr).
End Spec.
Arguments mk_cfg {T St W}.

(** State after [n] steps of a stateless stepper with constant step size:
    y_n = step y_{n-1} at t_{n-1} with number n; t_n = t_{n-1} + h. *)
Section Fixed.
  Context {T St : Type} (plus : T -> T -> T).
  Variable step : St -> T -> Z -> T -> St.
  Fixpoint fixed_time (t0 h : T) (n : nat) : T :=
    match n with O => t0 | S m => plus (fixed_time t0 h m) h end.
  Fixpoint fixed_state (t0 h : T) (y0 : St) (n : nat) : St :=
    match n with
    | O => y0
    | S m => step (fixed_state t0 h y0 m) (fixed_time t0 h m) (Z.of_nat (S m)) h
    end.
End Fixed.

(** The times reported to the observer in a call trace, in order. *)
Fixpoint obs_times {T St} (tr : list (call T St)) : list T :=
  match tr with
  | [] => []
  | CObs _ t _ :: tr' => t :: obs_times tr'
  | _ :: tr' => obs_times tr'
  end.
(** The calls to the stepper in a call trace, in order. *)
Fixpoint stepper_calls {T St} (tr : list (call T St)) : list (Z * T * T * St) :=
  match tr with
  | [] => []
  | CStep k t dt s :: tr' => (k, t, dt, s) :: stepper_calls tr'
  | _ :: tr' => stepper_calls tr'
  end.

(** ** Advancing to a target, with or without step recovery *)
Section TargetSpec.
  Context {T St W : Type} (o : sops T) (u : user T St W) (recovery : bool).

  (** Attempts at one step, the first with size [dt]: every attempt but the last
      ends in TimeStepFailure and is followed by one with size dt/scal, which is
      not below [mindt]. Only with [recovery]. The relation gives the calls made,
      the size of the last attempt and its outcome. *)
  Inductive attempts (k : Z) (t mindt scal : T)
    : T -> St -> W -> list (call T St) -> T -> outcome unit -> St -> W -> Prop :=
  | AttLast dt s w r s' w' :
      u_step u s t k dt w = (r, (s', w')) ->
      attempts k t mindt scal dt s w [CStep k t dt s] dt r s' w'
  | AttRetry dt s w s1 w1 tr dt' r s' w' :
      recovery = true ->
      u_step u s t k dt w = (Throw ETimeStep, (s1, w1)) ->
      sltb o (sdiv o dt scal) mindt = false ->
      attempts k t mindt scal (sdiv o dt scal) s1 w1 tr dt' r s' w' ->
      attempts k t mindt scal dt s w (CStep k t dt s :: tr) dt' r s' w'.

  (** Situation between two steps. *)
  Record tcfg := mk_tcfg
    { t_time : T; t_dt : T; t_min : T; t_scal : T; t_s : St; t_w : W }.

  Inductive good_tstep (k : Z) (c : tcfg) : list (call T St) -> tcfg -> Prop :=
  | GoodTStep dt mindt scal wa tr dt' s' wb w' :
      u_pol u k (t_time c) (t_dt c, t_min c, t_scal c) (t_w c)
        = (Ok (dt, mindt, scal), wa) ->
      sltb o dt mindt = false ->
      (recovery = true -> sleb o scal (s1 o) = false) ->
      attempts k (t_time c) mindt scal dt (t_s c) wa tr dt' (Ok tt) s' wb ->
      u_obs u k (sadd o (t_time c) dt') s' wb = (Ok tt, w') ->
      good_tstep k c
        (CPol k (t_time c) :: tr ++ [CObs k (sadd o (t_time c) dt') s'])
        (mk_tcfg (sadd o (t_time c) dt') dt' mindt scal s' w').

  (** The target is considered reached at time [t]. *)
  Definition reached (final t : T) : Prop :=
    sleb o (sabs o (ssub o t final)) (seps o) = true \/ sltb o final t = true.

  (** [n] complete steps numbered 1, ..., n; the target is not reached after any
      of them but possibly the last. *)
  Inductive good_tsteps (final : T) (c : tcfg)
    : nat -> list (call T St) -> tcfg -> Prop :=
  | GtsNil : good_tsteps final c 0 [] c
  | GtsSnoc n tr c1 tr' c2 :
      good_tsteps final c n tr c1 ->
      (n <> 0%nat -> ~ reached final (t_time c1)) ->
      good_tstep (Z.of_nat (S n)) c1 tr' c2 ->
      good_tsteps final c (S n) (tr ++ tr') c2.

  (** Step number [k] started from [c] but not completed. *)
  Inductive bad_tstep (k : Z) (c : tcfg)
    : outcome unit -> St -> W -> list (call T St) -> Prop :=
  | BtPol r r' wa :
      u_pol u k (t_time c) (t_dt c, t_min c, t_scal c) (t_w c) = (r, wa) ->
      same_failure r r' ->
      bad_tstep k c r' (t_s c) wa [CPol k (t_time c)]
  | BtMin dt mindt scal wa :
      u_pol u k (t_time c) (t_dt c, t_min c, t_scal c) (t_w c)
        = (Ok (dt, mindt, scal), wa) ->
      sltb o dt mindt = true ->
      bad_tstep k c (Throw ERuntime) (t_s c) wa [CPol k (t_time c)]
  | BtScal dt mindt scal wa :
      u_pol u k (t_time c) (t_dt c, t_min c, t_scal c) (t_w c)
        = (Ok (dt, mindt, scal), wa) ->
      sltb o dt mindt = false -> recovery = true -> sleb o scal (s1 o) = true ->
      bad_tstep k c (Throw ERuntime) (t_s c) wa [CPol k (t_time c)]
  | BtStep dt mindt scal wa tr dt' r s' w' :
      u_pol u k (t_time c) (t_dt c, t_min c, t_scal c) (t_w c)
        = (Ok (dt, mindt, scal), wa) ->
      sltb o dt mindt = false ->
      (recovery = true -> sleb o scal (s1 o) = false) ->
      attempts k (t_time c) mindt scal dt (t_s c) wa tr dt' r s' w' ->
      r <> Ok tt -> (recovery = true -> r <> Throw ETimeStep) ->
      bad_tstep k c r s' w' (CPol k (t_time c) :: tr)
  | BtTooSmall dt mindt scal wa tr dt' s' w' :
      u_pol u k (t_time c) (t_dt c, t_min c, t_scal c) (t_w c)
        = (Ok (dt, mindt, scal), wa) ->
      sltb o dt mindt = false ->
      recovery = true -> sleb o scal (s1 o) = false ->
      attempts k (t_time c) mindt scal dt (t_s c) wa tr dt' (Throw ETimeStep) s' w' ->
      sltb o (sdiv o dt' scal) mindt = true ->
      bad_tstep k c (Throw ERuntime) s' w' (CPol k (t_time c) :: tr)
  | BtObs dt mindt scal wa tr dt' s' wb w' r r' :
      u_pol u k (t_time c) (t_dt c, t_min c, t_scal c) (t_w c)
        = (Ok (dt, mindt, scal), wa) ->
      sltb o dt mindt = false ->
      (recovery = true -> sleb o scal (s1 o) = false) ->
      attempts k (t_time c) mindt scal dt (t_s c) wa tr dt' (Ok tt) s' wb ->
      u_obs u k (sadd o (t_time c) dt') s' wb = (r, w') -> same_failure r r' ->
      bad_tstep k c r' s' w'
        (CPol k (t_time c) :: tr ++ [CObs k (sadd o (t_time c) dt') s']).

  (** What a whole run to a target is required to do. *)
  Inductive target_run (start final : T) (s : St) (w : W)
    : outcome unit -> St -> W -> list (call T St) -> Prop :=
  | TrBackwards :
      sltb o final start = true ->
      target_run start final s w (Throw ERuntime) s w []
  | TrNothing :
      sltb o final start = false -> seqb o final start = true ->
      target_run start final s w (Ok tt) s w []
  | TrObsFails r r' w' :
      sltb o final start = false -> seqb o final start = false ->
      u_obs u 0 start s w = (r, w') -> same_failure r r' ->
      target_run start final s w r' s w' [CObs 0 start s]
  | TrFailsAt n w0 tr c r s' w' tr' :
      sltb o final start = false -> seqb o final start = false ->
      u_obs u 0 start s w = (Ok tt, w0) ->
      good_tsteps final (mk_tcfg start (s0 o) (s0 o) (s1 o) s w0) n tr c ->
      (n <> 0%nat -> ~ reached final (t_time c)) ->
      (Z.of_nat n < int32_max)%Z ->
      bad_tstep (Z.of_nat (S n)) c r s' w' tr' ->
      target_run start final s w r s' w' (CObs 0 start s :: tr ++ tr')
  | TrCompletes n w0 tr c :
      sltb o final start = false -> seqb o final start = false ->
      u_obs u 0 start s w = (Ok tt, w0) ->
      good_tsteps final (mk_tcfg start (s0 o) (s0 o) (s1 o) s w0) (S n) tr c ->
      reached final (t_time c) ->
      (Z.of_nat (S n) < int32_max)%Z ->
      target_run start final s w (Ok tt) (t_s c) (t_w c) (CObs 0 start s :: tr)
  | TrOverflow n w0 tr c :
      sltb o final start = false -> seqb o final start = false ->
      u_obs u 0 start s w = (Ok tt, w0) ->
      good_tsteps final (mk_tcfg start (s0 o) (s0 o) (s1 o) s w0) n tr c ->
      Z.of_nat n = int32_max ->
      target_run start final s w (Undef UIntOverflow) (t_s c) (t_w c)
        (CObs 0 start s :: tr).
End TargetSpec.
Arguments mk_tcfg {T St W}.

(** Each element of a list stands in relation [P] to the next one. *)
Fixpoint chain {A} (P : A -> A -> Prop) (l : list A) : Prop :=
  match l with
  | a :: ((b :: _) as l') => P a b /\ chain P l'
  | _ => True
  end.
(** What may directly follow a call of the stepper in a run with recovery, when
    minimum and scaling factor are [mindt] and [scal]: a retry of the same step
    from the same time with the size divided by [scal] and not below [mindt], or
    the observation of the step just taken, at the advanced time. *)
Definition after_step {T St} (o : sops T) (mindt scal : T) (a b : call T St) : Prop :=
  match a with
  | CStep k t d _ =>
      match b with
      | CStep k' t' d' _ => k' = k /\ t' = t /\ d' = sdiv o d scal /\ sltb o d' mindt = false
      | CObs k' t' _ => k' = k /\ t' = sadd o t d
      | _ => False
      end
  | _ => True
  end.

(** What the observer was told, in order: step number, time, state. *)
Fixpoint reports {T St} (tr : list (call T St)) : list (Z * T * St) :=
  match tr with
  | [] => []
  | CObs k t s :: tr' => (k, t, s) :: reports tr'
  | _ :: tr' => reports tr'
  end.
(** The accepted states of a run, newest first: time, size of the step that led
    there (meaningless for the first), state. *)
Definition accepted (T St : Type) := list (T * T * St).
Fixpoint numbered {T St} (l : accepted T St) : list (Z * T * St) :=
  match l with
  | [] => []
  | (t, _, s) :: l' => numbered l' ++ [(Z.of_nat (length l'), t, s)]
  end.
(** Each accepted state came from the ones before it as [P] demands. *)
Fixpoint linked {T St} (plus : T -> T -> T) (P : list St -> T -> T -> St -> Prop)
         (l : accepted T St) : Prop :=
  match l with
  | [] => False
  | [_] => True
  | (t', dt, y') :: (((t, _, _) :: _) as l') =>
      t' = plus t dt /\ P (map snd l') t dt y' /\ linked plus P l'
  end.
(** ... beginning with the initial condition. *)
Definition linked_from {T St} (plus : T -> T -> T) (P : list St -> T -> T -> St -> Prop)
           (t0 : T) (y0 : St) (l : accepted T St) : Prop :=
  linked plus P l /\ exists d0 l0, l = l0 ++ [(t0, d0, y0)].

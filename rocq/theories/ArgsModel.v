(** The extra arguments of the variadic advance functions.

    [AdvanceModel.v] treats the stepper call as one user object. Here the
    stepper's extra arguments are made visible: they are objects that live in
    the caller's scope for the whole advance call (named objects, or temporaries
    that live until the end of the full expression), and each call of the
    stepper receives [std::forward<Args>(args)...]. *)
From Coq Require Import ZArith List Bool.
From Verif Require Import Base AdvanceModel.
Import ListNotations.

(** How the caller passed an argument: a named object ([AuxT] is deduced as
    [A &], [std::forward] gives an lvalue), or a temporary / std::move'd object
    ([AuxT] is deduced as [A], [std::forward] gives an rvalue). *)
(* ode/ode_advance_n_steps_variadic.hpp 64-75: AuxT && auxArg, Args && ... args *)
Inductive passing := ByLvalue | ByRvalue.

(** What the stepper does with the argument it is handed: it takes it by value,
    or by [A &&] and moves it away ([TakesValue]); or it takes it by reference
    and only reads it ([TakesReference]). *)
(* user code; ode/concepts/ode_others.hpp 36-55 asks only that the call compiles *)
Inductive receiving := TakesValue | TakesReference.

(* model only: one argument, its passing, its parameter and its current value *)
Record arg (A : Type) := mk_arg { a_pass : passing; a_recv : receiving; a_val : A }.
Arguments mk_arg {A}. Arguments a_pass {A}. Arguments a_recv {A}. Arguments a_val {A}.

Section Args.
  Context {T St W A : Type}.
  (* user code: value of an object after it has been moved from *)
  Variable moved : A -> A.
  (* user code: body of the stepper's operator(), run with these values *)
  Variable body : list A -> St -> T -> Z -> T -> W -> outcome unit * (St * W).

  (** What initialising the stepper's parameter does to the caller's object: a
      by-value parameter is move constructed from an rvalue, copied from an
      lvalue; a reference binds to the object. *)
  (* ode/impl/ode_advance_n_steps.hpp 97-100; ode/impl/ode_advance_to_target_time.hpp 152-155, 171-174 *)
  Definition after_passing (x : arg A) : arg A :=
    match a_pass x, a_recv x with
    | ByRvalue, TakesValue => mk_arg (a_pass x) (a_recv x) (moved (a_val x))
    | _, _ => x
    end.

  (** One call of the stepper: the parameters get the arguments' current values.
      The parameters are initialised before the body runs, so the caller's
      objects are changed whatever the body does. Simplification: bodies that
      write through a reference parameter are not covered here; those are
      steppers whose world contains the object. *)
  (* ode/impl/ode_advance_n_steps.hpp 97-100; ode/impl/ode_advance_to_target_time.hpp 152-155, 171-174 *)
  Definition step_args (s : St) (t : T) (k : Z) (h : T) (x : W * list (arg A))
    : outcome unit * (St * (W * list (arg A))) :=
    let '(w, args) := x in
    let '(r, (s', w')) := body (map a_val args) s t k h w in
    (r, (s', (w', map after_passing args))).

  (** The four user objects, with the arguments as part of what persists between
      calls; observer, policy and guesser do not see them. *)
  (* ode/impl/ode_advance_n_steps.hpp 65-72; ode/impl/ode_advance_to_target_time.hpp 92-98 *)
  Definition user_args (u : user T St W) : user T St (W * list (arg A)) :=
    mk_user
      (fun k t s '(w, args) => let '(r, w') := u_obs u k t s w in (r, (w', args)))
      (fun k t d '(w, args) => let '(r, w') := u_pol u k t d w in (r, (w', args)))
      (fun k t s '(w, args) =>
         let '(r, (s', w')) := u_guess u k t s w in (r, (s', (w', args))))
      step_args.

  (** ode_advance_n_steps_variadic.hpp 69-87, 103-119, 136-153, 172-189 and
      ode_advance_n_steps_with_guesser_variadic.hpp 69-87, 102-119, 135-152,
      170-187: forwarded to advance_n_steps_with_dt_policy (for a fixed step
      size through ode/impl/ode_advance_n_steps.hpp 116-139, where the policy is
      [const_pol]). *)
  Definition advance_n_steps_args (o : sops T) (u : user T St W) (num : Z) (start : T) :=
    advance_n_steps o (user_args u) num start.

  (** ode_advance_to_target_point_variadic.hpp 71-87, 105-121 ([false]) and
      ode_advance_to_target_point_with_step_recovery_variadic.hpp 71-88, 105-122
      ([true]). *)
  Definition to_target_args (o : sops T) (u : user T St W) (recovery : bool)
             (fuel : nat) (start final : T) :=
    to_target o (user_args u) recovery fuel start final.
End Args.

(** A stepper into which the arguments' values are built: no arguments passed. *)
(* model only: the reading of "every step gets the arguments the caller passed" *)
Definition built_in {T St W A} (body : list A -> St -> T -> Z -> T -> W -> outcome unit * (St * W))
           (u : user T St W) (vals : list A) : user T St W :=
  mk_user (u_obs u) (u_pol u) (u_guess u) (body vals).

(** Specification vocabulary for the extra arguments of the advance functions. *)
From Coq Require Import ZArith List Bool.
From Verif Require Import Base AdvanceModel ArgsModel.
Import ListNotations.

Section Spec.
  Context {T St W A : Type}.
  Variable moved : A -> A.
  Variable body : list A -> St -> T -> Z -> T -> W -> outcome unit * (St * W).

  (** The argument survives being handed to the stepper: a named object, or a
      parameter that only refers to it, or a type for which moving is copying. *)
  Definition survives (x : arg A) : Prop :=
    a_pass x = ByLvalue \/ a_recv x = TakesReference \/ moved (a_val x) = a_val x.

  (** The result [r] of a run without arguments, with the arguments [args] put
      beside the user's world. *)
  Definition beside (args : list (arg A)) (r : outcome unit * (St * W * list (call T St)))
    : outcome unit * (St * (W * list (arg A)) * list (call T St)) :=
    let '(e, (s, w, tr)) := r in (e, (s, (w, args), tr)).

  (** Value found by the stepper in this argument when it is called for the
      [j]-th time (j = 0 for the first). *)
  Definition received (j : nat) (x : arg A) : A :=
    match a_pass x, a_recv x with
    | ByRvalue, TakesValue => Nat.iter j moved (a_val x)
    | _, _ => a_val x
    end.

  (** The arguments after [j] calls of the stepper. *)
  Definition at_call (args : list (arg A)) (j : nat) : list (arg A) :=
    map (fun x => mk_arg (a_pass x) (a_recv x) (received j x)) args.

  (** A run's result without what became of the arguments. *)
  Definition forget (r : outcome unit * (St * (W * list (arg A)) * list (call T St)))
    : outcome unit * (St * W * list (call T St)) :=
    let '(e, (s, (w, _), tr)) := r in (e, (s, w, tr)).

  (** A stepper without arguments that counts its own calls and runs the body
      with values chosen by that count. *)
  Definition counted (vals : nat -> list A) (u : user T St W) : user T St (W * nat) :=
    mk_user
      (fun k t s '(w, j) => let '(r, w') := u_obs u k t s w in (r, (w', j)))
      (fun k t d '(w, j) => let '(r, w') := u_pol u k t d w in (r, (w', j)))
      (fun k t s '(w, j) => let '(r, (s', w')) := u_guess u k t s w in (r, (s', (w', j))))
      (fun s t k h '(w, j) =>
         let '(r, (s', w')) := body (vals j) s t k h w in (r, (s', (w', S j)))).
End Spec.

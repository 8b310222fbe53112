(** Property C86: the extra arguments of the advance functions. *)
From Coq Require Import ZArith List Bool QArith Qcanon.
From Verif Require Import Base QcInst AdvanceModel ArgsModel ArgsSpec ArgsProofs ArgsRefute.
Import ListNotations.
Local Open Scope Z_scope.

(** C86. Arguments that survive being handed over (named objects, parameters
    that only refer, types whose move is a copy): the run is that of a stepper
    into which the arguments' values are built, and the arguments come back as
    they were. All step counts, policies, observers, guessers and outcomes. *)
Theorem C86_n_steps_partial :
  forall (T St W A : Type) (o : sops T) (moved : A -> A)
         (body : list A -> St -> T -> Z -> T -> W -> outcome unit * (St * W))
         (u : user T St W) (args : list (arg A)),
  Forall (survives moved) args ->
  forall num start s w tr,
  advance_n_steps_args moved body o u num start (s, (w, args), tr) =
  beside args (advance_n_steps o (built_in body u (map a_val args)) num start (s, w, tr)).
Proof. exact @n_steps_keep. Qed.
Print Assumptions C86_n_steps_partial.

Theorem C86_to_target_partial :
  forall (T St W A : Type) (o : sops T) (moved : A -> A)
         (body : list A -> St -> T -> Z -> T -> W -> outcome unit * (St * W))
         (u : user T St W) (args : list (arg A)),
  Forall (survives moved) args ->
  forall recovery fuel start final s w tr,
  to_target_args moved body o u recovery fuel start final (s, (w, args), tr) =
  beside args (to_target o (built_in body u (map a_val args)) recovery fuel start final (s, w, tr)).
Proof. exact @target_keep. Qed.
Print Assumptions C86_to_target_partial.

(** Whatever the arguments: a single step gets what the caller passed. *)
Theorem C86_single_step :
  forall (T St W A : Type) (o : sops T) (moved : A -> A)
         (body : list A -> St -> T -> Z -> T -> W -> outcome unit * (St * W))
         (u : user T St W) (args : list (arg A)) start s w tr,
  forget (advance_n_steps_args moved body o u 1 start (s, (w, args), tr)) =
  advance_n_steps o (built_in body u (map a_val args)) 1 start (s, w, tr).
Proof. exact @one_step_fine. Qed.
Print Assumptions C86_single_step.

(** Whatever the arguments, exactly: at its call number j (from 0, retries
    included) the stepper finds a consumed temporary moved from j times. *)
Theorem C86_n_steps_exact :
  forall (T St W A : Type) (o : sops T) (moved : A -> A)
         (body : list A -> St -> T -> Z -> T -> W -> outcome unit * (St * W))
         (u : user T St W) (args : list (arg A)) num start s w tr,
  exists e s' w' j tr',
    advance_n_steps o (counted body (fun j => map (received moved j) args) u) num start (s, (w, 0%nat), tr)
      = (e, (s', (w', j), tr')) /\
    advance_n_steps_args moved body o u num start (s, (w, args), tr)
      = (e, (s', (w', at_call moved args j), tr')).
Proof. exact @n_steps_exact. Qed.
Print Assumptions C86_n_steps_exact.

Theorem C86_to_target_exact :
  forall (T St W A : Type) (o : sops T) (moved : A -> A)
         (body : list A -> St -> T -> Z -> T -> W -> outcome unit * (St * W))
         (u : user T St W) (args : list (arg A)) recovery fuel start final s w tr,
  exists e s' w' j tr',
    to_target o (counted body (fun j => map (received moved j) args) u) recovery fuel start final (s, (w, 0%nat), tr)
      = (e, (s', (w', j), tr')) /\
    to_target_args moved body o u recovery fuel start final (s, (w, args), tr)
      = (e, (s', (w', at_call moved args j), tr')).
Proof. exact @target_exact. Qed.
Print Assumptions C86_to_target_exact.

(** The full statement is false: one std::vector passed as a temporary to a
    stepper that takes it by value. In a run of two steps the second step finds
    it empty. *)
Theorem C86_n_steps_refuted :
  ~ (forall (body : list (list Qc) -> Qc -> Qc -> Z -> Qc -> unit -> outcome unit * (Qc * unit))
            (u : user Qc Qc unit) (args : list (arg (list Qc))) num start s w tr,
     forget (advance_n_steps_args (fun _ => []) body QcS u num start (s, (w, args), tr)) =
     advance_n_steps QcS (built_in body u (map a_val args)) num start (s, w, tr)).
Proof. exact n_steps_temporaries. Qed.
Print Assumptions C86_n_steps_refuted.

(** With step recovery already the first step is affected: the retry after a
    rejected attempt finds it empty. *)
Theorem C86_retry_refuted :
  ~ (forall (body : list (list Qc) -> Qc -> Qc -> Z -> Qc -> unit -> outcome unit * (Qc * unit))
            (u : user Qc Qc unit) (args : list (arg (list Qc))) fuel start final s w tr e s' w' tr',
     to_target QcS (built_in body u (map a_val args)) true fuel start final (s, w, tr)
       = (e, (s', w', tr')) ->
     filter (fun c => match c with CPol _ _ => true | _ => false end) tr' = [CPol 1 start] ->
     forget (to_target_args (fun _ => []) body QcS u true fuel start final (s, (w, args), tr)) =
     (e, (s', w', tr'))).
Proof. exact retry_temporaries. Qed.
Print Assumptions C86_retry_refuted.

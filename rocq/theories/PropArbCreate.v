(** C44 for implicit steppers of fully discrete systems. *)
From Coq Require Import ZArith List.
From Verif Require Import Base ImplicitModel ArbCreate.
Import ListNotations.
Local Open Scope Z_scope.

Theorem C44_arbitrary_from_lvalue :
  forall (Sys V : Type) (createState : Sys -> V) moved_from, arb_creates_from_system createState moved_from false.
Proof. exact @arb_lvalue. Qed.
Print Assumptions C44_arbitrary_from_lvalue.

Theorem C44_arbitrary_from_temporary_partial :
  forall (Sys V : Type) (createState : Sys -> V) moved_from,
  (forall s, createState (moved_from s) = createState s) -> arb_creates_from_system createState moved_from true.
Proof. exact @arb_rvalue. Qed.
Print Assumptions C44_arbitrary_from_temporary_partial.

Theorem C44_arbitrary_from_temporary_refuted :
  ~ arb_creates_from_system (fun mesh : list Z => map (fun _ => 0) mesh) (fun _ => []) true.
Proof. exact arb_rvalue_fails. Qed.
Print Assumptions C44_arbitrary_from_temporary_refuted.

(** What such a stepper gets: empty stencil states and an empty recovery state, while the system keeps its mesh. *)
Theorem C44_arbitrary_temporary_states :
  forall n mesh, arb_create (fun mesh : list Z => map (fun _ => 0) mesh) (fun _ => []) n true mesh = (mesh, repeat [] n, []).
Proof. exact arb_rvalue_states. Qed.
Print Assumptions C44_arbitrary_temporary_states.

(** Creation of implicit steppers from fully discrete systems. *)
From Coq Require Import ZArith List.
From Verif Require Import Base ImplicitModel.
Import ListNotations.
Local Open Scope Z_scope.

(** The stencil states and the recovery state of a created stepper are those the given system creates. *)
Definition arb_creates_from_system {Sys V} (createState : Sys -> V) (moved_from : Sys -> Sys) (temporary : bool) : Prop :=
  forall n sys, arb_create createState moved_from n temporary sys = (sys, repeat (createState sys) n, createState sys).

Lemma arb_lvalue {Sys V} (cs : Sys -> V) mv : arb_creates_from_system cs mv false.
Proof. intros n sys. reflexivity. Qed.
Lemma arb_rvalue {Sys V} (cs : Sys -> V) mv : (forall s, cs (mv s) = cs s) -> arb_creates_from_system cs mv true.
Proof. intros H n sys. unfold arb_create. rewrite H. reflexivity. Qed.
(** The system of [create_rvalue_fails]: it owns a mesh, which a move takes away *)
Lemma arb_rvalue_fails :
  ~ arb_creates_from_system (fun mesh : list Z => map (fun _ => 0) mesh) (fun _ => []) true.
Proof. intros H. specialize (H 1%nat [1; 2]). discriminate H. Qed.
(** all its states are empty then *)
Lemma arb_rvalue_states : forall n mesh,
  arb_create (fun mesh : list Z => map (fun _ => 0) mesh) (fun _ => []) n true mesh = (mesh, repeat [] n, []).
Proof. reflexivity. Qed.

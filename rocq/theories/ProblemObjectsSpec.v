(** Specification of the lifetimes of problem objects (C62): the caller's own bookkeeping. *)
From Coq Require Import List Bool Arith.
From Verif Require Import Base ProblemObjects.
Import ListNotations.

(** What is at a place: nothing, a usable problem, or one that was moved from. *)
Inductive status := Empty | Usable | MovedFrom.
(** What the caller may do: create, copy and move into empty places, copy, move and step usable
    problems, destroy problems. *)
Definition allowed (u : use) (s : nat -> status) : Prop :=
  match u with
  | UCreate a => s a = Empty
  | UCopy a b | UMove a b => s a = Usable /\ s b = Empty
  | UDestroy a => s a <> Empty
  | UStep a => s a = Usable
  end.
Definition put (s : nat -> status) (a : nat) (v : status) : nat -> status := fun b => if Nat.eqb a b then v else s b.
Definition after (u : use) (s : nat -> status) : nat -> status :=
  match u with
  | UCreate a => put s a Usable
  | UCopy a b => put s b Usable
  | UMove a b => put (put s b Usable) a MovedFrom
  | UDestroy a => put s a Empty
  | UStep _ => s
  end.
Fixpoint correct_use (l : list use) (s : nat -> status) : Prop :=
  match l with
  | [] => True
  | u :: l' => allowed u s /\ correct_use l' (after u s)
  end.
Definition nothing : nat -> status := fun _ => Empty.
(** Copying and moving excluded. *)
Definition stays (u : use) : Prop := match u with UCopy _ _ | UMove _ _ => False | _ => True end.
Definition not_copied (u : use) : Prop := match u with UCopy _ _ => False | _ => True end.

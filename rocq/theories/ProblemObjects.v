(** Lifetimes of problem objects: GalerkinUnsteadyExplicitProblem and
    GalerkinUnsteadyWithMassMatrixExplicitProblem
    (rom/impl/galerkin_unsteady_explicit_problem.hpp) and LspgUnsteadyProblem
    (rom/impl/lspg_unsteady_problem.hpp). Only what the steppers refer to is
    modelled, not what a step computes. No proofs in this file. *)
From Coq Require Import List Bool Arith.
From Verif Require Import Base.
Import ListNotations.

(** What a caller does with problem objects, named by the places they are in *)
(* model only *)
Inductive use := UCreate (a : nat) | UCopy (a b : nat) | UMove (a b : nat) | UDestroy (a : nat) | UStep (a : nat).
(* model only: the memory that holds the problem objects *)
Definition upd_heap {A} (h : nat -> option A) (a : nat) (v : option A) : nat -> option A :=
  fun b => if Nat.eqb a b then v else h b.

(** ** Explicit Galerkin problems
    galSystem_ is a member; stepper_ is created with galSystem_ as an lvalue, so
    it keeps a reference to that member: InstanceOrReferenceWrapper<T&>
    (solvers_nonlinear/impl/instance_or_reference_wrapper.hpp 90-106). [gp_ref]: the place of the problem
    whose member is referred to. *)
(* galerkin_unsteady_explicit_problem.hpp 39-40, 78-79 *)
Record gprob := mk_gprob { gp_ref : nat }.
(* model only: the problem objects that exist *)
Definition gheap := nat -> option gprob.
(** operator(): the stepper calls the system it refers to
    (galerkin_unsteady_explicit_problem.hpp 30-36, 67-75) *)
Definition gp_step (h : gheap) (a : nat) : outcome unit :=
  match h a with
  | Some p => match h (gp_ref p) with Some _ => Ok tt | None => Undef UDangling end
  | None => Undef UDangling
  end.
(** galerkin_unsteady_explicit_problem.hpp 23-28, 60-65: the constructor. Copy and move constructors are implicit; the stepper's
    copy constructor is defaulted and there is no move constructor
    (ode_explicit_stepper_without_mass_matrix.hpp 78-81, ..._with_mass_matrix.hpp
    86-89), so both copy the reference. *)
Definition gp_use (u : use) (h : gheap) : outcome unit * gheap :=
  match u with
  | UCreate a => (Ok tt, upd_heap h a (Some (mk_gprob a)))
  | UCopy a b | UMove a b => (Ok tt, upd_heap h b (h a))
  | UDestroy a => (Ok tt, upd_heap h a None)
  | UStep a => (gp_step h a, h)
  end.

(** ** Unsteady LSPG problems
    fomStatesManager_ and rjPolicyOrFullyDiscreteSystem_ are unique_ptrs
    (lspg_unsteady_problem.hpp 101-102) and
    stepper_ refers to what the second points to. [lq_own]: the cell owned, none
    after a move; [lq_ref]: the cell the stepper refers to. Copying does not
    compile. *)
(* lspg_unsteady_problem.hpp 101-103 *)
Record lprob := mk_lprob { lq_own : option nat; lq_ref : nat }.
(* model only: the problem objects and the cells owned by unique_ptrs *)
Record lheap := mk_lheap { lh_obj : nat -> option lprob; lh_cell : nat -> bool; lh_next : nat }.
(* lspg_unsteady_problem.hpp 101-102: what destroying a unique_ptr does *)
Definition free_cell (h : lheap) (c : option nat) : nat -> bool :=
  fun d => match c with Some c => if Nat.eqb c d then false else lh_cell h d | None => lh_cell h d end.
(* lspg_unsteady_problem.hpp 88-98 *)
Definition lp_step (h : lheap) (a : nat) : outcome unit :=
  match lh_obj h a with
  | Some p => if lh_cell h (lq_ref p) then Ok tt else Undef UDangling
  | None => Undef UDangling
  end.
(* lspg_unsteady_problem.hpp 50-84: constructors; move constructor and destructor are implicit *)
Definition lp_use (u : use) (h : lheap) : outcome unit * lheap :=
  match u with
  | UCreate a =>
      let c := lh_next h in
      (Ok tt, mk_lheap (upd_heap (lh_obj h) a (Some (mk_lprob (Some c) c)))
                       (fun d => if Nat.eqb c d then true else lh_cell h d) (S c))
  | UCopy a b => (NoFuel, h)   (* not expressible: a placeholder *)
  | UMove a b =>
      match lh_obj h a with
      | Some p => (Ok tt, mk_lheap (upd_heap (upd_heap (lh_obj h) b (Some p)) a (Some (mk_lprob None (lq_ref p))))
                                   (lh_cell h) (lh_next h))
      | None => (Undef UDangling, h)
      end
  | UDestroy a =>
      match lh_obj h a with
      | Some p => (Ok tt, mk_lheap (upd_heap (lh_obj h) a None) (free_cell h (lq_own p)) (lh_next h))
      | None => (Undef UDangling, h)
      end
  | UStep a => (lp_step h a, h)
  end.

(* model only: a history *)
Fixpoint uses {H} (f : use -> H -> outcome unit * H) (l : list use) (h : H) : list (outcome unit) * H :=
  match l with
  | [] => ([], h)
  | u :: l' => let '(r, h1) := f u h in let '(rs, h') := uses f l' h1 in (r :: rs, h')
  end.

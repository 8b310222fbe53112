(** Model of the factories of steppers and unsteady problems, as far as the scheme matters:
    which object they create, or that they throw. No proofs in this file.
    Assertions are not checked (as with NDEBUG). *)
From Coq Require Import ZArith List Bool.
From Verif Require Import Base ExplicitModel ImplicitModel LspgModel.
Import ListNotations.

(** The overloads, ode/ode_create_explicit_stepper.hpp 61-115; ode/ode_create_implicit_stepper.hpp (1), (2)
    and from a policy, 63-156; rom/galerkin_unsteady_explicit.hpp 29-135 and
    rom/galerkin_unsteady_implicit.hpp (1)-(4), 28-149,
    without and with mass matrix (hyper-reduced and masked problems as without);
    rom/lspg_unsteady.hpp (1)-(5), 25-214 *)
Inductive factory :=
| FExplicit | FExplicitMM
| FImplicit | FImplicitMM | FPolicy
| FGalerkinExplicit | FGalerkinExplicitMM | FGalerkinImplicit | FGalerkinImplicitMM
| FLspg.

(** The created stepper: name_, and the number of its buffers: right-hand sides (or solutions,
    with mass matrix) of explicit steppers; stencil states and right-hand sides of implicit ones. *)
(* model only: what of the created object is described *)
Record made := mk_made { md_name : scheme; md_bufs : nat; md_rhs : nat }.

(* model only: an exception passes through *)
Definition bind_o {A B} (x : outcome A) (f : A -> outcome B) : outcome B :=
  match x with Ok a => f a | Throw e => Throw e | Undef u => Undef u | NoFuel => NoFuel end.

(** ode/ode_enum_and_tags.hpp 67-75 and, below, 77-80 *)
Definition is_explicit_scheme (name : scheme) : bool :=
  match name with ForwardEuler | RungeKutta4 | AdamsBashforth2 | SSPRungeKutta3 => true | _ => false end.
(* ode/ode_enum_and_tags.hpp 77-80 *)
Definition is_implicit_scheme (name : scheme) : bool := negb (is_explicit_scheme name).
(** rom/impl/galerkin_helpers.hpp 7-13 and, below, 15-21 *)
Definition valid_for_explicit_galerkin (name : scheme) : outcome unit :=
  if is_explicit_scheme name then Ok tt else Throw ERuntime.
(* rom/impl/galerkin_helpers.hpp 15-21 *)
Definition valid_for_implicit_galerkin (name : scheme) : outcome unit :=
  if is_implicit_scheme name then Ok tt else Throw ERuntime.

(** ode/impl/ode_explicit_create_impl.hpp 54-83 with the constructors selected by tag *)
Definition make_explicit (name : scheme) : outcome made :=
  bind_o (explicit_num_bufs name) (fun n => Ok (mk_made name n 0)).
(* ode/impl/ode_explicit_create_impl.hpp 54-83 with the constructors selected by tag *)
Definition make_explicit_mm (name : scheme) : outcome made :=
  bind_o (explicit_num_bufs_mm name) (fun n => Ok (mk_made name n 0)).
(** ode/impl/ode_implicit_create_impl.hpp 54-77, the same for every policy *)
Definition make_implicit (name : scheme) : outcome made :=
  bind_o (implicit_sizes name) (fun nm => Ok (mk_made name (fst nm) (snd nm))).

(* the factories listed above *)
Definition make (f : factory) (name : scheme) : outcome made :=
  match f with
  | FExplicit => make_explicit name
  | FExplicitMM => make_explicit_mm name
  | FImplicit | FImplicitMM | FPolicy => make_implicit name
  | FGalerkinExplicit => bind_o (valid_for_explicit_galerkin name) (fun _ => make_explicit name)
  | FGalerkinExplicitMM => bind_o (valid_for_explicit_galerkin name) (fun _ => make_explicit_mm name)
  | FGalerkinImplicit | FGalerkinImplicitMM => bind_o (valid_for_implicit_galerkin name) (fun _ => make_implicit name)
  | FLspg => bind_o (valid_for_lspg name) (fun _ => bind_o (manager_for name tt) (fun _ => make_implicit name))
  end.

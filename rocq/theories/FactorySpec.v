(** Specification of the scheme selection (C41): the documented schemes. *)
From Coq Require Import ZArith List Bool.
From Verif Require Import Base ExplicitModel ImplicitModel ImplicitSpec FactoryModel.
Import ListNotations.

(** docs/source/components: ode_steppers_explicit.rst 83, ode_steppers_implicit_standard_use.rst 76,
    rom_galerkin_unsteady_explicit.rst 135, rom_galerkin_unsteady_implicit.rst 152, rom_lspg_unsteady.rst 78 *)
Definition documented (f : factory) : list scheme :=
  match f with
  | FExplicit | FExplicitMM | FGalerkinExplicit | FGalerkinExplicitMM =>
      [ForwardEuler; RungeKutta4; AdamsBashforth2; SSPRungeKutta3]
  | FImplicit | FImplicitMM | FPolicy | FLspg => [BDF1; BDF2]
  | FGalerkinImplicit | FGalerkinImplicitMM => [BDF1; BDF2; CrankNicolson]
  end.
(** The implicit steppers of the ode component *)
Definition ode_implicit (f : factory) : bool := match f with FImplicit | FImplicitMM | FPolicy => true | _ => false end.
(** A solver that starts by evaluating the residual, and lets a runtime_error through *)
Definition evaluates_first {V R J Ws} (solver : Ws -> V -> sol V R J Ws) : Prop :=
  forall ws y, exists y' r j k, solver ws y = SCall y' r j k /\
    forall r' j', exists y'' ws', k (Throw ERuntime) r' j' = SEnd (Throw ERuntime) y'' ws'.
(** What it means that a state is a step of an implicit scheme (ImplicitSpec.v) *)
Definition accepted_by {S V} (o : sops S) (vo : vops S V) (Acc : V -> Prop) (f : V -> S -> V) (name : scheme) :=
  match name with BDF1 => accepted_bdf1 o vo Acc f | BDF2 => accepted_bdf2 o vo Acc f | _ => accepted_cn o vo Acc f end.
Definition accepted_by_mm {S V J} (o : sops S) (vo : vops S V) (japp : J -> V -> V) (Acc : V -> Prop) (M : V -> S -> J)
  (f : V -> S -> V) (name : scheme) :=
  match name with BDF1 => accepted_bdf1_mm o vo japp Acc M f | _ => accepted_bdf2_mm o vo japp Acc M f end.
(** The stepper object as it is created: all buffers of the sizes chosen by the factory are clones, no step has been made *)
Definition created {S V R P Ws} (o : sops S) (m : made) (cs : V) (cr : R) (p : P) (y : V) (ws : Ws) : @sst S V R P Ws :=
  mk_sst y (repeat cs (md_bufs m)) (repeat cr (md_rhs m)) (s0 o) (s0 o) 0 p ws.

(** Outcomes of modelled C++ code, and records of arithmetic operations
    (operations only; laws are separate, see [Laws.v]). *)
From Coq Require Import ZArith List Bool.
Import ListNotations.
Local Open Scope Z_scope.

(** C++ exceptions that the modelled code throws or lets through.
    - [ERuntime]: std::runtime_error
    - [EOutOfRange]: std::out_of_range (std::unordered_map::at)
    - [ETimeStep], [EVelocity], [EDiscreteTimeResidual]: ode/exceptions.hpp
    - the others: solvers_nonlinear/solvers_exceptions.hpp
    - [EUser n]: any other exception, thrown by user code. *)
Inductive exn :=
| ERuntime
| EOutOfRange
| ETimeStep
| EVelocity
| EDiscreteTimeResidual
| ENonlinearSolve
| EResidualEvaluation
| EResidualHasNans
| ELineSearchStepTooSmall
| ELineSearchObjChangeTooSmall
| EUser (n : Z).

(** Undefined behaviour that the modelled code can run into. *)
Inductive ub :=
| UIntOverflow
| UOutOfBounds
| UNullDeref
| UUninitialized
| UDangling.

Inductive outcome (A : Type) :=
| Ok (a : A)
| Throw (e : exn)
| Undef (u : ub)
| NoFuel.
Arguments Ok {A} a.
Arguments Throw {A} e.
Arguments Undef {A} u.
Arguments NoFuel {A}.

Definition exn_eqb (a b : exn) : bool :=
  match a, b with
  | ERuntime, ERuntime | EOutOfRange, EOutOfRange | ETimeStep, ETimeStep
  | EVelocity, EVelocity | EDiscreteTimeResidual, EDiscreteTimeResidual
  | ENonlinearSolve, ENonlinearSolve | EResidualEvaluation, EResidualEvaluation
  | EResidualHasNans, EResidualHasNans
  | ELineSearchStepTooSmall, ELineSearchStepTooSmall
  | ELineSearchObjChangeTooSmall, ELineSearchObjChangeTooSmall => true
  | EUser m, EUser n => Z.eqb m n
  | _, _ => false
  end.

(** ode/ode_strong_types.hpp 110-128: StepCount holds an int32_t. *)
Definition int32_max : Z := 2147483647.

(** Imperative code: a command transforms a state of type [G] (the caller's
    objects, the user's objects, the call trace) and ends in an outcome. The
    new state is returned also when the command throws. *)
Definition cmd (G A : Type) := G -> outcome A * G.

Definition ret {G A} (a : A) : cmd G A := fun g => (Ok a, g).
Definition throw {G A} (e : exn) : cmd G A := fun g => (Throw e, g).
Definition undef {G A} (u : ub) : cmd G A := fun g => (Undef u, g).
Definition nofuel {G A} : cmd G A := fun g => (NoFuel, g).
Definition bind {G A B} (c : cmd G A) (k : A -> cmd G B) : cmd G B :=
  fun g => match c g with
           | (Ok a, g') => k a g'
           | (Throw e, g') => (Throw e, g')
           | (Undef u, g') => (Undef u, g')
           | (NoFuel, g') => (NoFuel, g')
           end.
(** try { c } catch (handled exceptions) { h e } *)
Definition catch {G A} (c : cmd G A) (handled : exn -> bool)
           (h : exn -> cmd G A) : cmd G A :=
  fun g => match c g with
           | (Throw e, g') => if handled e then h e g' else (Throw e, g')
           | r => r
           end.

Declare Scope cmd_scope.
Delimit Scope cmd_scope with cmd.
Notation "x <- c ;; k" := (bind c (fun x => k))
  (at level 61, c at next level, right associativity) : cmd_scope.
Notation "c ;;; k" := (bind c (fun _ => k))
  (at level 61, right associativity) : cmd_scope.

(** Scalars: the operations of the C++ arithmetic type. [sltb], [sleb] are the
    built-in comparisons; on NaN they may all be false. *)
Record sops (S : Type) := mk_sops {
  s0 : S; s1 : S;
  sadd : S -> S -> S; ssub : S -> S -> S; smul : S -> S -> S;
  sdiv : S -> S -> S; sopp : S -> S; sabs : S -> S;
  sltb : S -> S -> bool; sleb : S -> S -> bool; seqb : S -> S -> bool;
  seps : S (* std::numeric_limits<S>::epsilon() *)
}.
Arguments mk_sops {S}.
Arguments s0 {S} _. Arguments s1 {S} _.
Arguments sadd {S} _ _ _. Arguments ssub {S} _ _ _. Arguments smul {S} _ _ _.
Arguments sdiv {S} _ _ _. Arguments sopp {S} _ _. Arguments sabs {S} _ _.
Arguments sltb {S} _ _ _. Arguments sleb {S} _ _ _. Arguments seqb {S} _ _ _.
Arguments seps {S} _.

(** Small integer literals as scalars, e.g. static_cast<S>(3). *)
Fixpoint s_of_pos {S} (o : sops S) (p : positive) : S :=
  match p with
  | xH => s1 o
  | xO q => let r := s_of_pos o q in sadd o r r
  | xI q => let r := s_of_pos o q in sadd o (sadd o r r) (s1 o)
  end.
Definition sZ {S} (o : sops S) (z : Z) : S :=
  match z with
  | Z0 => s0 o
  | Zpos p => s_of_pos o p
  | Zneg p => sopp o (s_of_pos o p)
  end.

(** Vectors over scalars [S], as far as ops::update, ops::scale, ops::fill and
    ops::deep_copy see them. [vzero] is the all-zero vector of the right size. *)
Record vops (S V : Type) := mk_vops {
  vzero : V;
  vadd : V -> V -> V;
  vscale : S -> V -> V
}.
Arguments mk_vops {S V}.
Arguments vzero {S V} _. Arguments vadd {S V} _ _ _. Arguments vscale {S V} _ _ _.

(** ops::update(v, a, v1, b, ...): v := a*v + b*v1 + ...
    The [_0] forms are the calls whose first coefficient is the literal 0, for
    which the previous content of v is not read. (pressio-ops, external) *)
Section Update.
  Context {S V : Type} (vo : vops S V).
  Definition upd1 (v : V) (a : S) (v1 : V) (b : S) : V :=
    vadd vo (vscale vo a v) (vscale vo b v1).
  Definition upd2 v a v1 b v2 c := vadd vo (upd1 v a v1 b) (vscale vo c v2).
  Definition upd3 v a v1 b v2 c v3 d := vadd vo (upd2 v a v1 b v2 c) (vscale vo d v3).
  Definition upd4 v a v1 b v2 c v3 d v4 e :=
    vadd vo (upd3 v a v1 b v2 c v3 d) (vscale vo e v4).
  Definition upd1_0 (v1 : V) (b : S) : V := vscale vo b v1.
  Definition upd2_0 v1 b v2 c := vadd vo (vscale vo b v1) (vscale vo c v2).
  Definition upd3_0 v1 b v2 c v3 d := vadd vo (upd2_0 v1 b v2 c) (vscale vo d v3).
End Update.

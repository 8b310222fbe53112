(** Specification, continued: the termination file of the root finder, and systems
    whose only failures are those of the residual. *)
From Coq Require Import ZArith List Bool.
From Verif Require Import Base ExplicitModel ImplicitModel NonlinDiag NonlinModel NonlinSpec.
Import ListNotations.
Local Open Scope Z_scope.

(** The termination file tells whether the solve, whose lines are [ls], met its
    criterion; [f0], [f1]: content before and after. *)
Definition file_tells {S V} (o : sops S) (cf : config S) (ls : list (line S V)) (f0 f1 : option report) : Prop :=
  (ls = [] /\ f1 = f0) \/
  (exists a l, ls = a ++ [l] /\ line_met o cf l /\ f1 = f0) \/
  (ls <> [] /\ (forall l, In l ls -> ~ line_met o cf l) /\ exists m, f1 = Some m).
(** Failures of a residual evaluation *)
Definition residual_failures (r : outcome unit) : Prop := exists e, residual_exn e /\ r = Throw e.
Definition fails_with_residual {V R J W} (rj : V -> R -> option J -> W -> outcome unit * (R * option J * W)) : Prop :=
  forall y r j w e z, rj y r j w = (e, z) -> e <> Ok tt -> residual_failures e.

(** A linear system of ODEs y' = A(t) y + b(t) (with mass matrix M(t)) which the user's
    object always evaluates, whatever its world and the buffers hold. *)
Section LinearOde.
  Context {S V J W : Type} (vo : vops S V) (japp : J -> V -> V).
  Variable u : isys (S:=S) (V:=V) (J:=J) (W:=W).
  Definition linear_rhs (A : S -> J) (b : S -> V) (y : V) (t : S) : V := vadd vo (japp (A t) y) (b t).
  Definition linear_ode (A : S -> J) (b : S -> V) : Prop := forall y t R Jo w, exists j w',
    is_eval u y t R Jo w = (Ok tt, (linear_rhs A b y t, j, w')) /\ (Jo <> None -> j = Some (A t)).
  Definition linear_ode_mm (M A : S -> J) (b : S -> V) : Prop := forall y t M0 f0 Jo w, exists j w',
    is_mmeval u y t M0 f0 Jo w = (Ok tt, (M t, linear_rhs A b y t, j, w')) /\ (Jo <> None -> j = Some (A t)).
  (** a matrix whose linear map is one-to-one and onto *)
  Definition invertible (j : J) : Prop :=
    (forall v, japp j v = vzero vo -> v = vzero vo) /\ (forall r, exists d, japp j d = r).
End LinearOde.

(** ** Diagnostics
    What each public diagnostic is about: the quantity, and whether its value itself or
    its ratio to the first value of the solve. *)
Definition about (d : diag) : idiag * bool :=
  match d with
  | CorrectionAbs => (ICorrection, true) | CorrectionRel => (ICorrection, false)
  | ResidualAbs => (IResidual, true) | ResidualRel => (IResidual, false)
  | GradientAbs => (IGradient, true) | GradientRel => (IGradient, false)
  | ObjectiveAbs => (IObjective, true) | ObjectiveRel => (IObjective, false)
  | InvalidDiag => (IInvalid, true)
  end.
(** Values recorded for quantities, oldest first; the flag marks the first value of a
    solve. *)
Definition record_of (S : Type) : Type := idiag * S * bool.
Section Recorded.
  Context {S : Type} (o : sops S).
  Definition is_for (i : idiag) (r : record_of S) : Prop := fst (fst r) = i.
  (** [v] was recorded last for [i] *)
  Definition latest (i : idiag) (rs : list (record_of S)) (v : S) : Prop :=
    exists a f b, rs = a ++ (i, v, f) :: b /\ forall r, In r b -> ~ is_for i r.
  (** [v] was the first value of the last solve in which [i] was recorded *)
  Definition latest_first (i : idiag) (rs : list (record_of S)) (v : S) : Prop :=
    exists a b, rs = a ++ (i, v, true) :: b /\ forall r, In r b -> is_for i r -> snd r = false.
  (** the value the diagnostic [d] stands for *)
  Definition stands_for (d : diag) (rs : list (record_of S)) (x : S) : Prop :=
    let '(i, absolute) := about d in
    if absolute then latest i rs x
    else exists v v0, latest i rs v /\ latest_first i rs v0 /\ x = sdiv o v v0.
  (** recording these values in a container *)
  Fixpoint record_all (c : dcont S) (rs : list (record_of S)) : outcome (dcont S) :=
    match rs with
    | [] => Ok c
    | (i, v, f) :: t => match dc_iupdate o c i v f with Ok c' => record_all c' t | e => e end
    end.
End Recorded.

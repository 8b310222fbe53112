(** What the claims about nonlinear solver objects say, apart from the model of the registries. *)
From Coq Require Import List Bool Arith.
From Verif Require Import Base SolverObjects.
Import ListNotations.

Section Spec.
  Context {Sy L Wt Res : Type}.

  (** The caller neither replaces, moves from nor destroys the solver [s] *)
  Definition keeps (s : nat) (u : @nuse Sy L Wt) : Prop :=
    match u with
    | NCreate s' _ _ _ _ | NCopy _ s' | NDestroy s' => s' <> s
    | NMove s1 s2 => s1 <> s /\ s2 <> s
    | _ => True
    end.
  (** ... nor solves with it *)
  Definition leaves (s : nat) (u : @nuse Sy L Wt) : Prop :=
    keeps s u /\ match u with NSolve s' | NSolveWith s' _ => s' <> s | _ => True end.

  (** The object a factory argument stands for after creation: the named object as it is now, or the temporary *)
  Definition meant {T} (h : nat -> option T) (x : arg T) : option T :=
    match x with Named _ a => h a | Temp _ v => Some v end.
  (** Moving makes the new object equal to the old one *)
  Definition move_ok {T} (mv : T -> T * T) : Prop := forall v, fst (mv v) = v.

  (** A call that solves the system at [a] with [s]: solve(system, x), or solve(x) if [s] was created with that system *)
  Definition solves (s : nat) (sy : arg Sy) (a : nat) (u : @nuse Sy L Wt) : Prop :=
    u = NSolveWith s a \/ (u = NSolve s /\ sy = Named Sy a).
  (** The weighting operator as passed to the iteration *)
  Definition weights (k : kind) (w : Wt) (d : nat) : option (Wt * nat) :=
    match k with Plain => None | _ => Some (w, d) end.
  Definition reported (r : outcome Res) : outcome (option Res) :=
    match r with Ok x => Ok (Some x) | Throw e => Throw e | Undef u => Undef u | NoFuel => NoFuel end.
  (** The leading dimension the buffers should have: of the system's residual, or of the weighting operator given *)
  Definition rows (extent : Sy -> nat) (leading : Wt -> nat) (k : kind) (v : Sy) (w : Wt) : nat :=
    match k with CompactWeighted => leading w | _ => extent v end.
  (** A compact weighting operator given as a temporary still knows its leading dimension after it was moved from *)
  Definition leading_survives (move_w : Wt -> Wt * Wt) (leading : Wt -> nat) (k : kind) (x : arg Wt) : Prop :=
    match k, x with CompactWeighted, Temp _ v => leading (snd (move_w v)) = leading v | _, _ => True end.
  (** Nothing changed but the linear solver object at [b], which is now [l] *)
  Definition only_linear (m m' : @mem Sy L Wt) (b : nat) (l : L) : Prop :=
    m_lin m' b = Some l /\ (forall b', b' <> b -> m_lin m' b' = m_lin m b') /\
    m_sys m' = m_sys m /\ m_w m' = m_w m /\ m_ns m' = m_ns m.
  (** No named object and no solver object but [s] changed *)
  Definition only_solver (m m' : @mem Sy L Wt) (s : nat) : Prop :=
    m_lin m' = m_lin m /\ m_sys m' = m_sys m /\ m_w m' = m_w m /\ (forall s', s' <> s -> m_ns m' s' = m_ns m s').
End Spec.

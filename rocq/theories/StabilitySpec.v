(** Stability and error bounds (C76, C77): the notions used in the statements. *)
From Coq Require Import ZArith List Reals.
From Verif Require Import Base RInst Laws ExplicitModel ExplicitSpec ImplicitModel ImplicitSpec.
Import ListNotations.
Local Open Scope R_scope.

Section Stability.
  Context {V : Type} (eps0 : R) (vo : vops R V).
  Notation o := (Rops eps0).
  (** |x - y| *)
  Definition dist (norm : V -> R) (x y : V) : R := norm (vminus o vo x y).
  (** |f(y,t) - f(z,t)| <= L |y - z| *)
  Definition lipschitz (norm : V -> R) (L : R) (f : V -> R -> V) : Prop :=
    0 <= L /\ forall y z t, dist norm (f y t) (f z t) <= L * dist norm y z.
  (** h_0 + ... + h_(n-1) *)
  Fixpoint elapsed (hs : nat -> R) (n : nat) : R :=
    match n with O => 0 | Datatypes.S m => elapsed hs m + hs m end.
  (** Up to number [n] the sequence [w] obeys the one-step scheme [tab] with errors [err] ... *)
  Definition nearly_erk (norm : V -> R) (f : V -> R -> V) (tab : tableau R) (ts hs err : nat -> R) (n : nat) (w : nat -> V) : Prop :=
    forall k, (k < n)%nat -> dist norm (w (Datatypes.S k)) (erk_next o vo f tab (w k) (ts k) (hs k)) <= err k.
  (** ... or two-step Adams-Bashforth, started with forward Euler. *)
  Definition nearly_ab2 (norm : V -> R) (f : V -> R -> V) (ts hs err : nat -> R) (n : nat) (w : nat -> V) : Prop :=
    ((0 < n)%nat ->
     dist norm (w 1%nat) (vadd vo (w 0%nat) (vscale vo (hs 0%nat) (f (w 0%nat) (ts 0%nat)))) <= err 0%nat) /\
    forall k, (k + 1 < n)%nat -> dist norm (w (k + 2)%nat)
      (vadd vo (w (k + 1)%nat) (vscale vo (hs (k + 1)%nat)
         (vadd vo (vscale vo (3 / 2) (f (w (k + 1)%nat) (ts (k + 1)%nat)))
                  (vscale vo (- (1 / 2)) (f (w k) (ts k)))))) <= err (k + 1)%nat.
  (** The local error of [tab] along [u] between [t0] and [t0 + T] is at most C h^(p+1) ... *)
  Definition local_order (norm : V -> R) (f : V -> R -> V) (tab : tableau R) (u : R -> V) (t0 T C : R) (p : nat) : Prop :=
    forall t h, t0 <= t -> 0 <= h -> t + h <= t0 + T ->
      dist norm (u (t + h)) (erk_next o vo f tab (u t) t h) <= C * h ^ (Datatypes.S p).
  (** ... that of the Adams-Bashforth formula at most C h^3. *)
  Definition local_ab2 (norm : V -> R) (f : V -> R -> V) (u : R -> V) (t0 T C : R) : Prop :=
    forall t h, t0 <= t -> 0 <= h -> t + h + h <= t0 + T ->
      dist norm (u (t + h + h)) (vadd vo (u (t + h)) (vscale vo h
         (vadd vo (vscale vo (3 / 2) (f (u (t + h)) (t + h))) (vscale vo (- (1 / 2)) (f (u t) t))))) <= C * h ^ 3.
End Stability.

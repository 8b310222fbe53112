(** Specification of C100: how far the reconstructed states of an LSPG ROM are from a sequence of FOM states. *)
From Coq Require Import Reals ZArith List.
From Verif Require Import Base RInst Laws AdvanceModel AdvanceSpec ImplicitSpec StabilitySpec DissipSpec OrderSpec SteadyNlSpec.
Import ListNotations.
Local Open Scope R_scope.

Section LspgErr.
  Context {X Y : Type} (eps : R) (yo : vops R Y) (ip : Y -> Y -> R).
  (** y' = A(t) y + b(t) is dissipative, and A(t) is bounded by [L]. *)
  Definition dissipative_bounded (L : R) (A : R -> Y -> Y) : Prop :=
    forall t v, ip (A t v) v <= 0 /\ length_of ip (A t v) <= L * length_of ip v.
  (** [tr]: a run of reduced states from [y0]. Let the full states z 0, z 1, ... obey BDF1 at the times of the run up to residuals
      [err], and let states of the trial space approximate them up to [eta]. Then the error of the k-th reconstructed state is at
      most the initial error and, for each step j < k, (1 + L h_j) eta_j+1 + 2 err_j. *)
  Definition tracks (recon : X -> Y) (f : Y -> R -> Y) (L : R) (y0 : X) (tr : list (call R X)) : Prop :=
    forall (ts err eta : nat -> R) (n : nat) (z : nat -> Y),
    times_are tr ts -> (forall k, (k < n)%nat -> ts k <= ts (Datatypes.S k)) ->
    near_bdf1 eps yo ip f ts err n z ->
    (forall k, (k < n)%nat -> exists a : X, distance eps yo ip (recon a) (z (Datatypes.S k)) <= eta (Datatypes.S k)) ->
    forall k t x, (k <= n)%nat -> In (Z.of_nat k, t, x) (reports tr) ->
    distance eps yo ip (recon x) (z k) <= distance eps yo ip (recon y0) (z 0%nat) +
      elapsed (fun j => (1 + L * (ts (Datatypes.S j) - ts j)) * eta (Datatypes.S j) + 2 * err j) k.
  (** The same against a solution of the FOM's equations: let its second derivative be at most [K] long, let the trial space approximate
      it up to [eta], and let the steps go forward by at most [hm]. *)
  Definition tracks_solution (recon : X -> Y) (f : Y -> R -> Y) (L start : R) (y0 : X) (tr : list (call R X)) : Prop :=
    forall (sol : R -> Y) (T K hm eta : R),
    solution ip f sol start T -> twice_smooth ip f sol start T K ->
    (forall t, start <= t <= start + T -> exists a : X, distance eps yo ip (recon a) (sol t) <= eta) ->
    forward_in_time tr ->
    (forall k t s t' s', In (k, t, s) (reports tr) -> In ((k + 1)%Z, t', s') (reports tr) -> t' - t <= hm) ->
    forall k t x, In (k, t, x) (reports tr) -> t <= start + T ->
    distance eps yo ip (recon x) (sol t) <= distance eps yo ip (recon y0) (sol start) + (IZR k * ((1 + L * hm) * eta) + K * hm * (t - start)).
End LspgErr.

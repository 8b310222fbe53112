(** Specification of C99: steady problems of nonlinear FOMs, and how far the reconstructed ROM states are from the FOM's solution. *)
From Coq Require Import Reals ZArith List.
From Verif Require Import Base RInst Laws ImplicitSpec DissipSpec.
Local Open Scope R_scope.

Section SteadyNl.
  Context {X Y : Type} (eps : R) (xo : vops R X) (yo : vops R Y) (ip : Y -> Y -> R).
  Notation minus := (vminus (Rops eps) yo).
  (** |y - z| *)
  Definition distance (y z : Y) : R := length_of ip (minus y z).
  (** c |y - z|^2 <= |(f y - f z, y - z)|: -f or f is strongly monotone. *)
  Definition strongly_monotone (c : R) (f : Y -> Y) : Prop :=
    forall y z, c * distance y z ^ 2 <= Rabs (ip (minus (f y) (f z)) (minus y z)).
  Definition lipschitz_fom (L : R) (f : Y -> Y) : Prop := forall y z, distance (f y) (f z) <= L * distance y z.
  (** The trial space is {bapp x + off}; the columns of the basis are orthonormal, |bapp x| = |x|, and [P] is the product with
      their transpose, (P r, x) = (r, bapp x). *)
  Record orthonormal_trial (xip : X -> X -> R) (recon bapp : X -> Y) (off : Y) (P : Y -> X) : Prop := {
    ot_linear : linear xo yo bapp;
    ot_recon : forall x, recon x = vadd yo (bapp x) off;
    ot_isometry : forall x, ip (bapp x) (bapp x) = xip x x;
    ot_adjoint : forall r x, xip (P r) x = ip r (bapp x) }.
End SteadyNl.

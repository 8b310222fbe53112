(** Specification of C96: how fast Gauss-Newton approaches a least-squares solution
    at which the residual does not vanish. *)
From Coq Require Import Reals ZArith List.
From Verif Require Import Base RInst NonlinDiag NonlinModel NonlinSpec NewtonSpec.
Import ListNotations.
Local Open Scope R_scope.

Section GaussSpec.
  Context {V Rs J H : Type}.
  Variable no : nlops R V Rs J H.
  Variable ro : vops R Rs.
  Variable apJ : J -> V -> Rs.
  Notation vo := (n_vo no).
  Notation minus a b := (vadd ro a (vscale ro (- (1)) b)).

  (** At [xs] the gradient F'(xs)^T F(xs) of |F|^2/2 vanishes, and |F(xs)| <= rho. At distance at most
      [rad] from it, |v| <= beta |F'(x) v|, the linearisation of F at x misses F(xs) by at most
      gamma/2 |x - xs|^2 and F'(x) differs from F'(xs) by at most gamma |x - xs|. The residual and the
      radius are small enough. *)
  Record regular_minimum (F : V -> Rs) (DF : V -> J) (xs : V) (rad beta gamma rho : R) : Prop := {
    rm_gradient : forall v, n_rdot no (F xs) (apJ (DF xs) v) = 0;
    rm_residual : n_rnorm no (F xs) <= rho;
    rm_beta : 0 <= beta;
    rm_gamma : 0 <= gamma;
    rm_inverse : forall x, apart no x xs <= rad -> forall v, n_norm no v <= beta * n_rnorm no (apJ (DF x) v);
    rm_smooth : forall x, apart no x xs <= rad ->
      n_rnorm no (minus (apJ (DF x) (from no xs x)) (minus (F x) (F xs))) <= gamma / 2 * (apart no x xs) ^ 2;
    rm_lipschitz : forall x v, apart no x xs <= rad ->
      n_rnorm no (minus (apJ (DF x) v) (apJ (DF xs) v)) <= gamma * apart no x xs * n_norm no v;
    rm_small : beta ^ 2 * gamma * rho + beta * (gamma / 2) * rad < 1 }.

  (** After k steps of e -> (sigma + kappa e) e *)
  Fixpoint shrunk (sigma kappa e : R) (k : nat) : R :=
    match k with
    | O => e
    | S k => (sigma + kappa * shrunk sigma kappa e k) * shrunk sigma kappa e k
    end.

  (** As [approaches] in C90. *)
  Definition approaches_minimum (eps : R) (cf : config R) (sigma kappa : R) (xs x0 : V) (ls : list (line R V)) (x : V) : Prop :=
    (forall k l, nth_error ls k = Some l -> apart no (l_state l) xs <= shrunk sigma kappa (apart no x0 xs) k) /\
    (forall k l l', nth_error ls k = Some l -> nth_error ls (k + 1) = Some l' ->
       apart no (l_state l') xs <= (sigma + kappa * apart no (l_state l) xs) * apart no (l_state l) xs) /\
    ((exists a l, ls = a ++ [l] /\ l_state l = x /\ line_met (Rops eps) cf l) \/
     (Z.of_nat (length ls) = f_max cf /\ apart no x xs <= shrunk sigma kappa (apart no x0 xs) (length ls))).

  (** As [judged] in C90; the residual does not vanish here, and the gradient does. q: the
      factor by which a step shrinks every distance up to the radius. *)
  Definition judged_minimum (st : stop) (q beta M : R) (near far : R) : Prop :=
    match st with
    | WhenAbsCorrection => near = 2 /\ far = 1 / (1 - q)
    | WhenAbsGradient => 0 <= M /\ near = 2 * M ^ 2 /\ far = beta ^ 2 / (1 - q)
    | _ => False
    end.
End GaussSpec.

(** Specification of C90: how fast the iterations approach a root. *)
From Coq Require Import Reals ZArith List.
From Verif Require Import Base RInst NonlinDiag NonlinModel NonlinSpec.
Import ListNotations.
Local Open Scope R_scope.

Section NewtonSpec.
  Context {V Rs J H : Type}.
  Variable no : nlops R V Rs J H.
  Variable ro : vops R Rs.
  Variable apJ : J -> V -> Rs.
  Notation vo := (n_vo no).
  Definition from (y x : V) : V := vadd vo x (vscale vo (- (1)) y).
  (** |x - y| *)
  Definition apart (x y : V) : R := n_norm no (from y x).

  (** [xs] is a root of F. At distance at most [rad] from it, |v| <= beta |F'(x) v|,
      and the linearisation of F at x misses F(xs) = 0 by at most gamma/2 |x - xs|^2,
      as it does if F' is Lipschitz with constant gamma. The radius is small enough. *)
  Record regular_near (F : V -> Rs) (DF : V -> J) (xs : V) (rad beta gamma : R) : Prop := {
    rg_root : F xs = vzero ro;
    rg_beta : 0 <= beta;
    rg_gamma : 0 <= gamma;
    rg_inverse : forall x, apart x xs <= rad -> forall v, n_norm no v <= beta * n_rnorm no (apJ (DF x) v);
    rg_smooth : forall x, apart x xs <= rad ->
      n_rnorm no (vadd ro (apJ (DF x) (from xs x)) (vscale ro (- (1)) (F x))) <= gamma / 2 * (apart x xs) ^ 2;
    rg_small : beta * (gamma / 2) * rad < 1 }.

  (** After k steps of e -> kappa e^2 *)
  Definition quadratic (kappa e : R) (k : nat) : R := e * (kappa * e) ^ (2 ^ k - 1).

  (** The logged states, and the state returned: every logged state is as close to the root as k
      quadratic steps bring it, and each one is a quadratic step closer than the one before. The solve
      ends at the state of the last line, where the criterion is met, or with one more
      update after the maximal number of iterations. *)
  Definition approaches (eps : R) (cf : config R) (kappa : R) (xs x0 : V) (ls : list (line R V)) (x : V) : Prop :=
    (forall k l, nth_error ls k = Some l -> apart (l_state l) xs <= quadratic kappa (apart x0 xs) k) /\
    (forall k l l', nth_error ls k = Some l -> nth_error ls (k + 1) = Some l' ->
       apart (l_state l') xs <= kappa * (apart (l_state l) xs) ^ 2) /\
    ((exists a l, ls = a ++ [l] /\ l_state l = x /\ line_met (Rops eps) cf l) \/
     (Z.of_nat (length ls) = f_max cf /\ apart x xs <= quadratic kappa (apart x0 xs) (length ls))).

  (** When the criterion recognises states close to the root ([near]: its value is at
      most this many times the distance), and how close a state is where it is met ([far]: the distance is at
      most this many times the tolerance). [M]: |F'(x) v| <= M |v|. *)
  Definition judged (st : stop) (rad beta gamma M : R) (near far : R) : Prop :=
    match st with
    | WhenAbsCorrection => near = 2 /\ far = 1 / (1 - beta * (gamma / 2) * rad)
    | WhenAbsResidual => 0 <= M /\ near = M + gamma / 2 * rad /\ far = beta / (1 - beta * (gamma / 2) * rad)
    | _ => False
    end.

  (** xs + t (x - xs) *)
  Definition between (xs x : V) (t : R) : V := vadd vo xs (vscale vo t (from xs x)).
  (** F' is the derivative of F along the segments that end at [xs] (tested against every w), and is
      Lipschitz with constant gamma *)
  Definition derivative_near (F : V -> Rs) (DF : V -> J) (xs : V) (rad : R) : Prop :=
    forall x w t, apart x xs <= rad -> 0 <= t <= 1 ->
      derivable_pt_lim (fun u => n_rdot no (F (between xs x u)) w) t
                       (n_rdot no (apJ (DF (between xs x t)) (from xs x)) w).
  Definition lipschitz_near (DF : V -> J) (xs : V) (rad gamma : R) : Prop :=
    forall x y v, apart x xs <= rad -> apart y xs <= rad ->
      n_rnorm no (vadd ro (apJ (DF x) v) (vscale ro (- (1)) (apJ (DF y) v))) <= gamma * apart x y * n_norm no v.
End NewtonSpec.

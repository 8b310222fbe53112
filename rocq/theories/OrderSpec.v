(** Specification of C94: solutions and their smoothness, without reference to the code. *)
From Coq Require Import Reals ZArith List.
From Verif Require Import Base RInst Laws ExplicitModel ImplicitModel ImplicitSpec DissipSpec.
Import ListNotations.
Local Open Scope R_scope.

Section Solutions.
  Context {V : Type} (vo : vops R V) (ip : V -> V -> R).
  (** b is the derivative of a on [t0, t0+T] (every component of it) *)
  Definition differentiates (a b : R -> V) (t0 T : R) : Prop :=
    forall w t, t0 <= t <= t0 + T -> derivable_pt_lim (fun s => ip (a s) w) t (ip (b t) w).
  (** sol'(t) = f(sol(t), t) *)
  Definition solution (f : V -> R -> V) (sol : R -> V) (t0 T : R) : Prop := differentiates sol (fun t => f (sol t) t) t0 T.
  (** the second derivative of the solution is at most M long ... *)
  Definition twice_smooth (f : V -> R -> V) (sol : R -> V) (t0 T M : R) : Prop :=
    exists y2, differentiates (fun t => f (sol t) t) y2 t0 T /\ forall t, t0 <= t <= t0 + T -> length_of ip (y2 t) <= M.
  (** ... the third one *)
  Definition thrice_smooth (f : V -> R -> V) (sol : R -> V) (t0 T M : R) : Prop :=
    exists y2 y3, differentiates (fun t => f (sol t) t) y2 t0 T /\ differentiates y2 y3 t0 T /\
      forall t, t0 <= t <= t0 + T -> length_of ip (y3 t) <= M.

  (** ** Taylor expansion of f in both arguments. A direction is a pair (v, tau). *)
  Definition pairs : vops R (V * R) :=
    mk_vops (vzero vo, 0) (fun x y => (vadd vo (fst x) (fst y), snd x + snd y)) (fun a x => (vscale vo a (fst x), a * snd x)).
  Definition pair_ip (x y : V * R) : R := ip (fst x) (fst y) + snd x * snd y.
  Notation size := (length_of pair_ip).
  (** D1, D2, D3: first, second and third derivative at (y, t), as multilinear maps *)
  Record multilinear (B : R) (D1 : V * R -> V) (D2 : V * R -> V * R -> V) : Prop := {
    mu_1 : linear pairs vo D1;
    mu_2 : forall x, linear pairs vo (D2 x);
    mu_sym : forall x y, D2 x y = D2 y x;
    mu_bound_1 : forall x, length_of ip (D1 x) <= B * size x;
    mu_bound_2 : forall x y, length_of ip (D2 x y) <= B * (size x * size y)
  }.
  Record trilinear (B : R) (D3 : V * R -> V * R -> V * R -> V) : Prop := {
    tr_lin : forall x y, linear pairs vo (D3 x y);
    tr_sym : forall x y z, D3 x y z = D3 x z y;
    tr_sym' : forall x y z, D3 x y z = D3 y x z;
    tr_bound : forall x y z, length_of ip (D3 x y z) <= B * (size x * size y * size z)
  }.
  (** f(y + v, t + tau) up to terms of third order, at the points of the solution ... *)
  Definition expands_2 (eps0 : R) (f : V -> R -> V) (sol : R -> V) (t0 T B : R) : Prop :=
    exists D1 D2, forall t, t0 <= t <= t0 + T -> length_of ip (f (sol t) t) <= B /\ multilinear B (D1 t) (D2 t) /\ forall v tau,
      length_of ip (vminus (Rops eps0) vo (f (vadd vo (sol t) v) (t + tau))
        (vadd vo (vadd vo (f (sol t) t) (D1 t (v, tau))) (vscale vo (1 / 2) (D2 t (v, tau) (v, tau))))) <= B * size (v, tau) ^ 3.
  (** ... of fourth order *)
  Definition expands_3 (eps0 : R) (f : V -> R -> V) (sol : R -> V) (t0 T B : R) : Prop :=
    exists D1 D2 D3, forall t, t0 <= t <= t0 + T -> length_of ip (f (sol t) t) <= B /\ multilinear B (D1 t) (D2 t) /\ trilinear B (D3 t) /\ forall v tau,
      length_of ip (vminus (Rops eps0) vo (f (vadd vo (sol t) v) (t + tau))
        (vadd vo (vadd vo (vadd vo (f (sol t) t) (D1 t (v, tau))) (vscale vo (1 / 2) (D2 t (v, tau) (v, tau))))
          (vscale vo (1 / 6) (D3 t (v, tau) (v, tau) (v, tau))))) <= B * size (v, tau) ^ 4.
End Solutions.

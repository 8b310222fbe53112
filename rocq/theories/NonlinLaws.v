(** Specification of exact linear algebra: what the operations used by the nonlinear
    solvers mean over the real numbers. *)
From Coq Require Import Reals ZArith List.
From Verif Require Import Base RInst Laws NonlinDiag NonlinModel NonlinSpec.
Import ListNotations.
Local Open Scope R_scope.

(** A real inner product space *)
Record inner {eps V} (vo : vops R V) (dot : V -> V -> R) : Prop := {
  in_space : vspace (Rops eps) vo;
  in_sym : forall x y, dot x y = dot y x;
  in_add : forall x y z, dot (vadd vo x y) z = dot x z + dot y z;
  in_scale : forall a x y, dot (vscale vo a x) y = a * dot x y;
  in_pos : forall x, 0 <= dot x x;
  in_zero : forall x, dot x x = 0 -> x = vzero vo }.
Arguments inner eps {V}.

(** [apJ j v] is J v, [apH h v] is H v. *)
Record nl_laws (eps : R) {V Rs J H} (no : nlops R V Rs J H) (ro : vops R Rs)
       (apJ : J -> V -> Rs) (apH : H -> V -> V) : Prop := {
  nl_v : inner eps (n_vo no) (n_dot no);
  nl_r : inner eps ro (n_rdot no);
  nl_norm : forall x, n_norm no x = sqrt (n_dot no x x);
  nl_rnorm : forall r, n_rnorm no r = sqrt (n_rdot no r r);
  nl_apJ : forall j, linear (n_vo no) ro (apJ j);
  nl_apH : forall h, linear (n_vo no) (n_vo no) (apH h);
  nl_jtr : forall j r v, n_dot no (n_jtr no j r) v = n_rdot no r (apJ j v);
  nl_jtj : forall a b v, apH (n_jtj no a b) v = n_jtr no a (apJ b v);
  nl_adddiag : forall h mu v, apH (n_adddiag no h mu) v =
    vadd (n_vo no) (apH h v) (vscale (n_vo no) mu (n_diagmul no h v));
  nl_diag_sym : forall h v w, n_dot no (n_diagmul no h v) w = n_dot no v (n_diagmul no h w);
  nl_diag_lin : forall h, linear (n_vo no) (n_vo no) (n_diagmul no h);
  (* the diagonal of J^T J is not negative *)
  nl_diag_pos : forall j v, 0 <= n_dot no v (n_diagmul no (n_jtj no j j) v) }.

Section Exact.
  Context {V Rs J H : Type}.
  Variable no : nlops R V Rs J H.
  Variable ro : vops R Rs.
  Variable apJ : J -> V -> Rs.
  Variable apH : H -> V -> V.
  Notation vo := (n_vo no).
  (** J has full column rank *)
  Definition full_rank (j : J) : Prop := forall v, apJ j v = vzero ro -> v = vzero vo.
  Definition positive_definite (h : H) : Prop := forall v, v <> vzero vo -> 0 < n_dot no v (apH h v).
  (** exact solutions *)
  Definition normal_exact (h : H) (g d : V) : Prop := apH h d = g.
  Definition newton_exact (j : J) (r : Rs) (d : V) : Prop := apJ j d = r.
  (** d solves U d = Q^T r, where J = Q U and Q has orthonormal columns *)
  Definition qr_exact (j : J) (r : Rs) (d : V) : Prop :=
    exists (Q : V -> Rs) (U : V -> V) (Qt : Rs -> V),
      (forall v, apJ j v = Q (U v)) /\
      (forall v w, n_rdot no (Q v) (Q w) = n_dot no v w) /\
      (forall s v, n_dot no (Qt s) v = n_rdot no s (Q v)) /\
      U d = Qt r.
  (** The linear solver finds the solution of every system that has exactly one. *)
  Definition if_solvable {X Y Z : Type} (P : X -> Y -> Z -> Prop) (a : X) (b : Y) (d : Z) : Prop :=
    (exists e, P a b e /\ forall e', P a b e' -> e' = e) -> P a b d.
  (** J c + r *)
  Definition model_residual (j : J) (r : Rs) (c : V) : Rs := vadd ro (apJ j c) r.
  (** F(x) = A x + b *)
  Definition affine (A : J) (b : Rs) (x : V) : Rs := vadd ro (apJ A x) b.
  (** The quadratic model of the objective half the squared norm of the residual, at
      distance c: half the squared norm of J c + r; and its change. *)
  Definition half_square (r : Rs) : R := n_rdot no r r / 2.
  (** The full step is taken if it decreases the objective, and the state is kept
      otherwise. *)
  Definition step_if_better (F : V -> Rs) (x c x' : V) : Prop :=
    let trial := vadd vo (vscale vo 1 x) (vscale vo 1 c) in
    (half_square (F trial) < half_square (F x) /\ x' = trial) \/
    (half_square (F x) <= half_square (F trial) /\ x' = x).
  Definition predicted (j : J) (r : Rs) (c : V) : R := half_square (model_residual j r c) - half_square r.
End Exact.

(** Weighting operators *)
Record weighting {V Rs J : Type} (ro : vops R Rs) (apJ : J -> V -> Rs)
       (wr : Rs -> Rs) (wj : J -> J) : Prop := {
  wg_lin : linear ro ro wr;
  wg_j : forall j v, apJ (wj j) v = wr (apJ j v) }.
Definition symmetric_psd {V Rs J H} (no : nlops R V Rs J H) (wr : Rs -> Rs) : Prop :=
  (forall r s, n_rdot no (wr r) s = n_rdot no r (wr s)) /\ (forall r, 0 <= n_rdot no r (wr r)).

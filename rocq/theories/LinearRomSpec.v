(** Specification of the linear reduced operators (C39). *)
From Coq Require Import List.
From Verif Require Import Base.
Import ListNotations.

Section Spec.
  Context {S V W : Type} (o : sops S) (vo : vops S V).
  (** R x: the combination of the columns [cols] with the coefficients [x] *)
  Fixpoint combine_cols (cols : list V) (x : list S) : V :=
    match cols, x with
    | c :: cols', a :: x' => vadd vo (vscale vo a c) (combine_cols cols' x')
    | _, _ => vzero vo
    end.
  (** row . x, a matrix given by rows times x, sums *)
  Fixpoint row_times (r x : list S) : S :=
    match r, x with
    | a :: r', b :: x' => sadd o (smul o a b) (row_times r' x')
    | _, _ => s0 o
    end.
  Definition mat_times (rows : list (list S)) (x : list S) : list S := map (fun r => row_times r x) rows.
  Fixpoint plus (a b : list S) : list S :=
    match a, b with
    | x :: a', y :: b' => sadd o x y :: plus a' b'
    | _, _ => []
    end.
  (** L^T v *)
  Definition tested (dot : V -> V -> S) (lb : list V) (v : V) : list S := map (fun l => dot l v) lb.
  (** The FOM operator: from worlds in [good], apply(v) computes A v + b. *)
  Definition applies (good : W -> Prop) (apply : V -> V -> W -> outcome unit * (V * W)) (A : V -> V) (b : V) : Prop :=
    forall v r w, good w -> exists w', apply v r w = (Ok tt, (vadd vo (A v) b, w')) /\ good w'.
  (** Some call of apply ends like [e]. *)
  Definition fails_with (apply : V -> V -> W -> outcome unit * (V * W)) (e : outcome unit) : Prop :=
    exists v r w, fst (apply v r w) = e.
End Spec.

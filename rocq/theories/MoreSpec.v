(** The documented default settings of the nonlinear solvers
    (docs/source/components/nonlinsolvers.rst 298-303). *)
From Coq Require Import Reals ZArith List.
From Verif Require Import Base NonlinDiag NonlinModel NonlinSpec.
Import ListNotations.
Local Open Scope R_scope.

(** A run printed [ls] and ended at [x] by the rule "the norm of the correction is below
    0.000001, at most 100 iterations". *)
Definition default_rule {V} (x : V) (ls : list (line R V)) : Prop :=
  let below l := exists v, value_of CorrectionAbs l = Some v /\ v < 0.000001 in
  (length ls <= 100)%nat /\
  (forall a l b, ls = a ++ l :: b -> b <> [] -> ~ below l) /\
  ((exists a l, ls = a ++ [l] /\ l_state l = x /\ below l) \/ (length ls = 100%nat /\ forall l, In l ls -> ~ below l)).

(** Specification of C92: Levenberg-Marquardt for linear least-squares problems min |A x + b|. *)
From Coq Require Import Reals ZArith List.
From Verif Require Import Base RInst Laws NonlinDiag NonlinModel NonlinSpec NonlinLaws NewtonSpec.
Import ListNotations.
Local Open Scope R_scope.

(** The damping of iteration number [k], counted from 0: it starts with 1 and is divided by 3; the second schedule stops at 10^-7. *)
Definition damping_at (u : update) (k : nat) : R :=
  match u with ULMSchedule2 => Rmax (1 / 10000000) ((1 / 3) ^ k) | _ => (1 / 3) ^ k end.
(** What is left of the error after [k] iterations *)
Fixpoint left_after (u : update) (lam : R) (k : nat) : R :=
  match k with
  | O => 1
  | Datatypes.S j => left_after u lam j * (damping_at u j / (lam + damping_at u j))
  end.

Section Lm.
  Context {V Rs J H : Type}.
  Variable no : nlops R V Rs J H.
  Variable ro : vops R Rs.
  Variable apJ : J -> V -> Rs.
  Variable apH : H -> V -> V.
  (** the length of a vector whose entries are multiplied by the lengths of the columns of A *)
  Definition scaled (A : J) (v : V) : R := sqrt (n_dot no v (n_diagmul no (n_jtj no A A) v)).
  (** [xs] solves the least-squares problem; [lam] measures how independent the columns of A are, none of which is zero; the
      damped normal equations have solutions. *)
  Record lm_problem (A : J) (b : Rs) (xs : V) (lam : R) : Prop := {
    lp_lam : 0 < lam;
    lp_rank : forall v, lam * (scaled A v) ^ 2 <= (n_rnorm no (apJ A v)) ^ 2;
    lp_columns : forall v, scaled A v = 0 -> v = vzero (n_vo no);
    lp_solvable : forall mu g, 0 < mu -> exists d, apH (n_adddiag no (n_jtj no A A) mu) d = g;
    lp_solution : n_jtr no A (affine ro apJ A b xs) = vzero (n_vo no) }.
  Notation F A b := (affine ro apJ A b).
  (** the error, measured like this, at the logged states and at the state returned *)
  Definition dies_out (eps : R) (cf : config R) (A : J) (b : Rs) (xs : V) (lam : R) (x0 : V) (ls : list (line R V)) (x : V) : Prop :=
    let err y := scaled A (from no xs y) in
    (forall k l, nth_error ls k = Some l -> err (l_state l) <= left_after (f_update cf) lam k * err x0) /\
    (forall k l l', nth_error ls k = Some l -> nth_error ls (k + 1) = Some l' ->
       half_square no (F A b (l_state l')) < half_square no (F A b (l_state l)) \/ l_state l = xs /\ l_state l' = xs) /\
    ((exists a l, ls = a ++ [l] /\ l_state l = x /\ line_met (Rops eps) cf l) \/
     (Z.of_nat (length ls) = f_max cf /\ err x <= left_after (f_update cf) lam (length ls) * err x0)).
  (** [near]: the value a criterion looks at is at most this many times the error; [far]: where it is met, the error is at most this
      many times the tolerance. [lo], [hi]: lo |v| <= scaled v <= hi |v|; |A v| <= M |v|. *)
  Definition lm_sized (A : J) (lo hi M : R) : Prop :=
    0 < lo /\ 0 <= hi /\ 0 <= M /\ forall v, lo * n_norm no v <= scaled A v /\ scaled A v <= hi * n_norm no v /\ n_rnorm no (apJ A v) <= M * n_norm no v.
  Definition lm_judged (st : stop) (lam lo hi M near far : R) : Prop :=
    match st with
    | WhenAbsCorrection => near = 2 / lo /\ far = hi * (1 + 1 / lam)
    | WhenAbsGradient => near = M ^ 2 / lo /\ far = 1 / (lam * lo)
    | _ => False
    end.
End Lm.

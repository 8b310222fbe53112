(** Property C91, continued: statements only. Spec: [NewtonRunSpec.v]. *)
From Coq Require Import Reals ZArith List.
From Verif Require Import Base RInst Laws AdvanceModel AdvanceSpec Track ExplicitModel ImplicitModel ImplicitSpec
  NonlinDiag NonlinModel NonlinSpec NonlinLaws NonlinMoreSpec DissipSpec LinRunSpec NewtonSpec NewtonRunSpec NewtonBdf2.
Import ListNotations.
Local Open Scope R_scope.

(** Right hand sides bounded by [B], steps of at most [h]: one condition on [h] is enough for every step of BDF2, which begins where the
    previous step went; how far that is follows from the residuals with which the previous steps ended. *)
Theorem C91_bounded_bdf2 :
  forall (eps : R) (V J H L W U : Type) (no : nlops R V V J H) (ap : J -> V -> V) (apH : H -> V -> V),
  let o := Rops eps in let vo := n_vo no in let dot := n_dot no in
  nl_laws eps no vo ap apH -> (forall x y, n_rdot no x y = dot x y) ->
  forall (jo : vops R J) (jid : J), vspace o jo -> matrices vo jo jid ap ->
  forall xt : exts V V J H L,
  linear_ok xt (if_solvable (normal_exact apH)) (if_solvable (qr_exact no ap)) (if_solvable (newton_exact ap)) nothing ->
  forall cf, newton_absolute cf -> f_stop cf = WhenAbsResidual ->
  forall (u : isys (S:=R) (V:=V) (J:=J) (W:=W)) (f : V -> R -> V) (Df : V -> R -> J), smooth_user u f Df ->
  forall lip, derivative_of vo ap dot f Df -> dissipative_derivative ap dot Df -> 0 <= lip -> lipschitz_derivative vo ap dot Df lip -> square vo ap ->
  forall B, (forall y t, length_of dot (f y t) <= B) ->
  forall start y0 tr h, integrated_std U eps no xt cf jo jid u BDF2 start y0 tr ->
  (forall k t y t' y', In (k, t, y) (reports tr) -> In ((k + 1)%Z, t', y') (reports tr) -> 0 <= t' - t <= h) ->
  0 <= f_tol cf -> begun cf 1 lip h (h * B + f_tol cf / 2) -> well_begun eps vo dot f cf lip BDF2 tr.
Proof. exact bounded_bdf2. Qed.
Print Assumptions C91_bounded_bdf2.

(** Property C91: statements only. Spec: [NewtonRunSpec.v], and [NewtonSpec.v], [LinRunSpec.v], [DissipSpec.v], [NonlinSpec.v]. *)
From Coq Require Import Reals ZArith List.
From Verif Require Import Base RInst Laws AdvanceModel AdvanceSpec AdvanceProofs TargetProofs Track ExplicitModel ImplicitModel ImplicitSpec
  NonlinDiag NonlinModel NonlinWp NonlinSpec NonlinLaws NonlinMoreSpec RomLsSpec StabilitySpec DissipSpec LinRunSpec NewtonSpec NewtonRunSpec NewtonRunProofs NewtonRunClaims.
Import ListNotations.
Local Open Scope R_scope.

(** Newton's method started where the residual is small: no root is assumed to exist. *)
Theorem C91_newton :
  forall (eps : R) (V Rs J H L W : Type) (no : nlops R V Rs J H) (ro : vops R Rs)
    (apJ : J -> V -> Rs) (apH : H -> V -> V), nl_laws eps no ro apJ apH ->
  forall (xt : exts V Rs J H L) (rj : V -> Rs -> option J -> W -> outcome unit * (Rs * option J * W))
    (F : V -> Rs) (DF : V -> J), computes rj F DF ->
  linear_ok xt (if_solvable (normal_exact apH)) (if_solvable (qr_exact no apJ)) (if_solvable (newton_exact apJ)) nothing ->
  forall (cf : config R) (s : reg R V Rs J H L) (w : W) (r : outcome unit) (s' : reg R V Rs J H L) (w' : W),
  root_object (Rops eps) s -> root_supported cf -> f_update cf = UStandard -> (0 <= f_max cf < int32_max)%Z ->
  exec rj (root_solve (Rops eps) no xt cf) (s, w) = (r, (s', w')) ->
  forall rad beta gamma : R, regular_around no ro apJ F DF (g_x s) rad beta gamma ->
  exists ls, g_log s' = g_log s ++ ls /\ r = Ok tt /\ NewtonSpec.apart no (g_x s') (g_x s) <= rad /\
    shrinks no eps cf F (rate beta gamma) (g_x s) rad ls (g_x s').
Proof. exact @around_shrinks. Qed.
Print Assumptions C91_newton.

(** The criterion is met after at most [n] corrections, with a residual as small as the tolerance asks. *)
Theorem C91_newton_finds :
  forall (eps : R) (V Rs J H L W : Type) (no : nlops R V Rs J H) (ro : vops R Rs)
    (apJ : J -> V -> Rs) (apH : H -> V -> V), nl_laws eps no ro apJ apH ->
  forall (xt : exts V Rs J H L) (rj : V -> Rs -> option J -> W -> outcome unit * (Rs * option J * W))
    (F : V -> Rs) (DF : V -> J), computes rj F DF ->
  linear_ok xt (if_solvable (normal_exact apH)) (if_solvable (qr_exact no apJ)) (if_solvable (newton_exact apJ)) nothing ->
  forall (cf : config R) (s : reg R V Rs J H L) (w : W) (r : outcome unit) (s' : reg R V Rs J H L) (w' : W),
  root_object (Rops eps) s -> root_supported cf -> f_update cf = UStandard -> (0 <= f_max cf < int32_max)%Z ->
  exec rj (root_solve (Rops eps) no xt cf) (s, w) = (r, (s', w')) ->
  forall rad beta gamma : R, regular_around no ro apJ F DF (g_x s) rad beta gamma ->
  forall M near far : R, weighed (f_stop cf) beta M near far ->
  (f_stop cf = WhenAbsCorrection -> 0 <= M /\ forall x, NewtonSpec.apart no x (g_x s) <= rad -> forall v, n_rnorm no (apJ (DF x) v) <= M * n_norm no v) ->
  forall n, near * quadratic (rate beta gamma) (n_rnorm no (F (g_x s))) n < f_tol cf -> (Z.of_nat n < f_max cf)%Z ->
  exists a l, g_log s' = g_log s ++ a ++ [l] /\ l_state l = g_x s' /\ line_met (Rops eps) cf l /\ (length a <= n)%nat /\
    n_rnorm no (F (g_x s')) <= far * f_tol cf.
Proof. exact @around_finds. Qed.
Print Assumptions C91_newton_finds.

(** [num] steps of y' = f(y,t): the integration returns normally, and every step that starts well ends with a residual as small as the tolerance asks. *)
Theorem C91_n_steps :
  forall (eps : R) (V J H L W U : Type) (no : nlops R V V J H) (ap : J -> V -> V) (apH : H -> V -> V),
  let o := Rops eps in let vo := n_vo no in nl_laws eps no vo ap apH ->
  forall (jo : vops R J) (jid : J), vspace o jo ->
  forall xt : exts V V J H L,
  linear_ok xt (if_solvable (normal_exact apH)) (if_solvable (qr_exact no ap)) (if_solvable (newton_exact ap)) nothing ->
  forall cf, newton_absolute cf ->
  forall (u : isys (S:=R) (V:=V) (J:=J) (W:=W)) (f : V -> R -> V) (Df : V -> R -> J), smooth_user u f Df -> forall name,
  forall (obs : Z -> R -> V -> U -> outcome unit * U) cs cr w0 x0 ws g0,
  root_object o ws -> implicit_create o name cs cr (mk_ppol (-1) w0) x0 ws = Ok g0 ->
  let step := implicit_step o (policy_std o vo jo jid u) (as_solver (root_solve o no xt cf)) name in
  let residual := scheme_residual o vo f name in let jacobian := scheme_jacobian o jo jid Df name in
  forall pol num start y0 w, (Z.of_nat num < int32_max)%Z ->
  (forall k t y u, fst (obs k t y u) = Ok tt) -> (forall k t d u, exists dt, fst (pol k t d u) = Ok dt) ->
  exists y' g' w' tr l,
    advance_n_steps o (mk_user (split_obs obs) (pol3 (split_pol pol)) noop_guess (split_step (implicit_fn step)))
      (Z.of_nat num) start (y0, (g0, w), []) = (Ok tt, (y', (g', w'), tr)) /\
    length l = Datatypes.S num /\ reports tr = numbered l /\ hd y0 (map snd l) = y' /\
    linked_from Rplus (fun past t dt y => forall far,
      starts_well no vo ap cf (residual past t dt) (jacobian past t dt) (hd (vzero vo) past) far ->
      n_rnorm no (residual past t dt y) <= far * f_tol cf) start y0 l.
Proof. exact newton_n_steps. Qed.
Print Assumptions C91_n_steps.

(** The same for integrations to a target time, which end. *)
Theorem C91_to_target :
  forall (eps : R) (V J H L W U : Type) (no : nlops R V V J H) (ap : J -> V -> V) (apH : H -> V -> V),
  let o := Rops eps in let vo := n_vo no in nl_laws eps no vo ap apH ->
  forall (jo : vops R J) (jid : J), vspace o jo ->
  forall xt : exts V V J H L,
  linear_ok xt (if_solvable (normal_exact apH)) (if_solvable (qr_exact no ap)) (if_solvable (newton_exact ap)) nothing ->
  forall cf, newton_absolute cf ->
  forall (u : isys (S:=R) (V:=V) (J:=J) (W:=W)) (f : V -> R -> V) (Df : V -> R -> J), smooth_user u f Df -> forall name,
  forall (obs : Z -> R -> V -> U -> outcome unit * U) cs cr w0 x0 ws g0,
  root_object o ws -> implicit_create o name cs cr (mk_ppol (-1) w0) x0 ws = Ok g0 ->
  let step := implicit_step o (policy_std o vo jo jid u) (as_solver (root_solve o no xt cf)) name in
  let residual := scheme_residual o vo f name in let jacobian := scheme_jacobian o jo jid Df name in
  forall pol recovery h n fuel start final y0 w,
  0 <= eps -> (forall k t y u, fst (obs k t y u) = Ok tt) ->
  (forall k t x u, exists dt m c, fst (pol k t x u) = Ok (dt, m, c) /\ h <= dt /\ m <= dt /\ (recovery = true -> 1 < c)) ->
  start < final -> final - start <= INR n * h -> (n < fuel)%nat -> (Z.of_nat n < int32_max)%Z ->
  exists y' g' w' tr l,
    to_target o (mk_user (split_obs obs) (split_pol pol) noop_guess (split_step (implicit_fn step))) recovery fuel
      start final (y0, (g0, w), []) = (Ok tt, (y', (g', w'), tr)) /\
    reports tr = numbered l /\ hd y0 (map snd l) = y' /\
    linked_from Rplus (fun past t dt y => forall far,
      starts_well no vo ap cf (residual past t dt) (jacobian past t dt) (hd (vzero vo) past) far ->
      n_rnorm no (residual past t dt y) <= far * f_tol cf) start y0 l.
Proof. exact newton_to_target. Qed.
Print Assumptions C91_to_target.

(** Dissipative equations with a Lipschitz Jacobian: what starts well is a matter of the step size, the Lipschitz constant and the residual
    the step begins with. *)
Theorem C91_dissipative :
  forall (eps : R) (V J H L W U : Type) (no : nlops R V V J H) (ap : J -> V -> V) (apH : H -> V -> V),
  let o := Rops eps in let vo := n_vo no in let dot := n_dot no in
  nl_laws eps no vo ap apH -> (forall x y, n_rdot no x y = dot x y) ->
  forall (jo : vops R J) (jid : J), vspace o jo -> matrices vo jo jid ap ->
  forall xt : exts V V J H L,
  linear_ok xt (if_solvable (normal_exact apH)) (if_solvable (qr_exact no ap)) (if_solvable (newton_exact ap)) nothing ->
  forall cf, newton_absolute cf -> f_stop cf = WhenAbsResidual ->
  forall (u : isys (S:=R) (V:=V) (J:=J) (W:=W)) (f : V -> R -> V) (Df : V -> R -> J), smooth_user u f Df ->
  forall lip, derivative_of vo ap dot f Df -> dissipative_derivative ap dot Df -> 0 <= lip -> lipschitz_derivative vo ap dot Df lip -> square vo ap ->
  forall start y0 tr name,
  integrated_std U eps no xt cf jo jid u name start y0 tr ->
  exists l, reports tr = numbered l /\ linked_from Rplus (fun past t dt y => forall y_n hist, past = y_n :: hist ->
    begun cf (weight_of o name past) lip dt (length_of dot (scheme_residual o vo f name past t dt y_n)) ->
    length_of dot (scheme_residual o vo f name past t dt y) <= f_tol cf) start y0 l.
Proof. exact @newton_dissipative. Qed.
Print Assumptions C91_dissipative.

(** The errors against a sequence [z] that obeys the scheme at the same times with residuals of length [err], such as a solution
    of the equation: the tolerance of every step is added, and nothing is amplified. *)
Theorem C91_error_bdf1 :
  forall (eps : R) (V J H L W U : Type) (no : nlops R V V J H) (ap : J -> V -> V) (apH : H -> V -> V),
  let o := Rops eps in let vo := n_vo no in let dot := n_dot no in
  nl_laws eps no vo ap apH -> (forall x y, n_rdot no x y = dot x y) ->
  forall (jo : vops R J) (jid : J), vspace o jo -> matrices vo jo jid ap ->
  forall xt : exts V V J H L,
  linear_ok xt (if_solvable (normal_exact apH)) (if_solvable (qr_exact no ap)) (if_solvable (newton_exact ap)) nothing ->
  forall cf, newton_absolute cf -> f_stop cf = WhenAbsResidual ->
  forall (u : isys (S:=R) (V:=V) (J:=J) (W:=W)) (f : V -> R -> V) (Df : V -> R -> J), smooth_user u f Df ->
  forall lip, derivative_of vo ap dot f Df -> dissipative_derivative ap dot Df -> 0 <= lip -> lipschitz_derivative vo ap dot Df lip -> square vo ap ->
  forall start y0 tr ts err n z,
  times_are tr ts -> (forall k, (k < n)%nat -> ts k <= ts (Datatypes.S k)) ->
  integrated_std U eps no xt cf jo jid u BDF1 start y0 tr -> well_begun eps vo dot f cf lip BDF1 tr ->
  near_bdf1 eps vo dot f ts err n z ->
  forall k t y, (k <= n)%nat -> In (Z.of_nat k, t, y) (reports tr) ->
  length_of dot (vminus o vo y (z k)) <= length_of dot (vminus o vo y0 (z 0%nat)) + (INR k * f_tol cf + elapsed err k).
Proof. exact @newton_error_bdf1. Qed.
Print Assumptions C91_error_bdf1.

Theorem C91_error_bdf2 :
  forall (eps : R) (V J H L W U : Type) (no : nlops R V V J H) (ap : J -> V -> V) (apH : H -> V -> V),
  let o := Rops eps in let vo := n_vo no in let dot := n_dot no in
  nl_laws eps no vo ap apH -> (forall x y, n_rdot no x y = dot x y) ->
  forall (jo : vops R J) (jid : J), vspace o jo -> matrices vo jo jid ap ->
  forall xt : exts V V J H L,
  linear_ok xt (if_solvable (normal_exact apH)) (if_solvable (qr_exact no ap)) (if_solvable (newton_exact ap)) nothing ->
  forall cf, newton_absolute cf -> f_stop cf = WhenAbsResidual ->
  forall (u : isys (S:=R) (V:=V) (J:=J) (W:=W)) (f : V -> R -> V) (Df : V -> R -> J), smooth_user u f Df ->
  forall lip, derivative_of vo ap dot f Df -> dissipative_derivative ap dot Df -> 0 <= lip -> lipschitz_derivative vo ap dot Df lip -> square vo ap ->
  forall start y0 tr ts err n z,
  times_are tr ts -> (forall k, (k < n)%nat -> ts k <= ts (Datatypes.S k)) ->
  integrated_std U eps no xt cf jo jid u BDF2 start y0 tr -> well_begun eps vo dot f cf lip BDF2 tr ->
  near_bdf2 eps vo dot f ts err n z ->
  forall k t y, (k <= n)%nat -> In (Z.of_nat k, t, y) (reports tr) ->
  length_of dot (vminus o vo y (z k)) <= sqrt 2 * length_of dot (vminus o vo y0 (z 0%nat)) + 6 * (INR k * f_tol cf + elapsed err k).
Proof. exact @newton_error_bdf2. Qed.
Print Assumptions C91_error_bdf2.

Theorem C91_error_crank_nicolson :
  forall (eps : R) (V J H L W U : Type) (no : nlops R V V J H) (ap : J -> V -> V) (apH : H -> V -> V),
  let o := Rops eps in let vo := n_vo no in let dot := n_dot no in
  nl_laws eps no vo ap apH -> (forall x y, n_rdot no x y = dot x y) ->
  forall (jo : vops R J) (jid : J), vspace o jo -> matrices vo jo jid ap ->
  forall xt : exts V V J H L,
  linear_ok xt (if_solvable (normal_exact apH)) (if_solvable (qr_exact no ap)) (if_solvable (newton_exact ap)) nothing ->
  forall cf, newton_absolute cf -> f_stop cf = WhenAbsResidual ->
  forall (u : isys (S:=R) (V:=V) (J:=J) (W:=W)) (f : V -> R -> V) (Df : V -> R -> J), smooth_user u f Df ->
  forall lip, derivative_of vo ap dot f Df -> dissipative_derivative ap dot Df -> 0 <= lip -> lipschitz_derivative vo ap dot Df lip -> square vo ap ->
  forall start y0 tr ts err n z,
  times_are tr ts -> (forall k, (k < n)%nat -> ts k <= ts (Datatypes.S k)) ->
  integrated_std U eps no xt cf jo jid u CrankNicolson start y0 tr -> well_begun eps vo dot f cf lip CrankNicolson tr ->
  near_cn eps vo dot f ts err n z ->
  (forall k, (Datatypes.S k < n)%nat -> ts (Datatypes.S (Datatypes.S k)) - ts (Datatypes.S k) <= ts (Datatypes.S k) - ts k) ->
  forall k t y, (k <= n)%nat -> (0 < k)%nat -> In (Z.of_nat k, t, y) (reports tr) ->
  length_of dot (vminus o vo y (z k)) <=
  length_of dot (vminus o vo (vminus o vo y0 (z 0%nat))
    (vscale vo (1 / 2 * (ts 1%nat - ts 0%nat)) (vminus o vo (f y0 (ts 0%nat)) (f (z 0%nat) (ts 0%nat)))))
  + (INR k * f_tol cf + elapsed err k).
Proof. exact @newton_error_cn. Qed.
Print Assumptions C91_error_crank_nicolson.

(** Right hand sides bounded by [B], steps of at most [h]: one condition on [h] is enough for every step of backward Euler and Crank-Nicolson. *)
Theorem C91_bounded :
  forall (eps : R) (V : Type) (vo : vops R V) (dot : V -> V -> R), NonlinLaws.inner eps vo dot ->
  forall (f : V -> R -> V) (B : R), (forall y t, length_of dot (f y t) <= B) ->
  forall (cf : config R) (lip : R) (name : scheme) (h : R) (tr : list (call R V)), name = BDF1 \/ name = CrankNicolson -> 0 <= lip ->
  (forall k t y t' y', In (k, t, y) (reports tr) -> In ((k + 1)%Z, t', y') (reports tr) -> 0 <= t' - t <= h) ->
  begun cf (weight_of (Rops eps) name ([] : list V)) lip h (h * B) -> well_begun eps vo dot f cf lip name tr.
Proof. exact @bounded_begun. Qed.
Print Assumptions C91_bounded.

(** C85: the library's own linear solvers as the linear solver of the nonlinear solvers. *)
From Coq Require Import Reals ZArith List.
From Verif Require Import Base RInst Laws AdvanceModel AdvanceSpec AdvanceProofs TargetProofs Track ExplicitModel ImplicitModel ImplicitSpec
  NonlinDiag NonlinModel NonlinSpec NonlinLaws NonlinMoreSpec RomLsSpec StabilitySpec LinRunSpec Tuples QrExts TupleMats
  LinsolveModel LinsolveSpec LinGlue LinGlueRuns.
Import ListNotations.
Local Open Scope R_scope.

(** The objects, in a release build, with a LAPACK that does what its documentation says: getrs for every nonsingular matrix, potrs for
    symmetric positive definite ones, geqrf for every nonsingular matrix (new, or used before with a workspace large enough for n), and
    Eigen's direct solvers. *)
Theorem C85_getrs :
  forall (eps : R) (lp : lapack R), lapack_ok (Rops eps) lp ->
  forall n, (0 < n)%nat -> serves eps n any_matrix (fun _ => True) (getrs_object eps lp).
Proof. exact getrs_serves. Qed.
Print Assumptions C85_getrs.

Theorem C85_potrs :
  forall (eps : R) (lp : lapack R), lapack_ok (Rops eps) lp ->
  forall n, (0 < n)%nat -> forall up, serves eps n (spd eps n) (fun _ => True) (potrs_object eps lp up).
Proof. exact potrs_serves. Qed.
Print Assumptions C85_potrs.

Theorem C85_geqrf :
  forall (eps : R) (lp : lapack R), lapack_ok (Rops eps) lp ->
  forall n, (0 < n)%nat -> serves eps n any_matrix (geqrf_fit n) (geqrf_object eps lp).
Proof. exact geqrf_serves. Qed.
Print Assumptions C85_geqrf.

Theorem C85_eigen_direct :
  forall (eps : R) F (d_compute : mtx R -> F) (d_solve : F -> vct R -> vct R), factorises eps d_compute d_solve ->
  forall n, (0 < n)%nat -> serves eps n any_matrix (fun _ => True) (eigen_object d_compute d_solve).
Proof. exact eigen_serves. Qed.
Print Assumptions C85_eigen_direct.

(** With such an object the nonlinear solvers meet the requirement of C31, C53 and C81 to C83. *)
Theorem C85_root_finders :
  forall (eps : R) (n : nat) (X : Type) (asked : (nat -> nat -> R) -> Prop) (fit : X -> Prop) (slv : solver X) (HS : serves eps n asked fit slv),
  (forall M, asked M) -> forall L (xt : exts (tup R n) (tup R n) (mat (S:=R) n n) (mat (S:=R) n n) L) glin gqr gnewt,
    linear_ok xt glin gqr gnewt nothing ->
    linear_ok (root_exts HS xt) glin gqr (if_solvable (newton_exact (tapply (Rops eps)))) nothing.
Proof. exact root_exts_linear. Qed.
Print Assumptions C85_root_finders.

Theorem C85_least_squares :
  forall (eps : R) (n : nat) (X : Type) (asked : (nat -> nat -> R) -> Prop) (fit : X -> Prop) (slv : solver X) (HS : serves eps n asked fit slv),
  (forall M, asked M) -> forall m L (xt : exts (tup R n) (tup R m) (mat (S:=R) m n) (mat (S:=R) n n) L) glin gqr gnewt,
    linear_ok xt glin gqr gnewt nothing ->
    linear_ok (ls_exts HS xt) (if_solvable (normal_exact (tapply (Rops eps)))) gqr gnewt nothing.
Proof. exact ls_exts_linear. Qed.
Print Assumptions C85_least_squares.

(** Newton's method solves A y + b = 0 in one correction, for every n and every nonsingular A. *)
Theorem C85_newton :
  forall (eps : R) (n : nat) (X : Type) (asked : (nat -> nat -> R) -> Prop) (fit : X -> Prop) (slv : solver X) (HS : serves eps n asked fit slv),
  let o := Rops eps in (forall M, asked M) ->
    forall wr wj W (rj : tup R n -> tup R n -> option (mat (S:=R) n n) -> W -> outcome unit * (tup R n * option (mat (S:=R) n n) * W))
      (A : mat (S:=R) n n) (b : tup R n),
    let F := affine (tvec o n) (tapply o) A b in
    computes rj F (fun _ => A) -> nonsingular o n (ent (as_mtx A)) ->
    forall cf (s : reg R (tup R n) (tup R n) (mat (S:=R) n n) (mat (S:=R) n n) ({x | fit x} * object eps n n)) (w : W) r s' w',
    root_object o s -> root_supported cf -> f_update cf = UStandard -> 0 < f_tol cf -> (2 <= f_max cf < int32_max)%Z ->
    exec rj (root_solve o (tuple_ops o sqrt n n) (root_exts HS (mgs_exts eps n n wr wj false)) cf) (s, w) = (r, (s', w')) ->
    exists ls, g_log s' = g_log s ++ ls /\ r = Ok tt /\
      ((length ls = 1%nat /\ g_x s' = g_x s) \/ (length ls = 2%nat /\ F (g_x s') = vzero (tvec o n))) /\
      exists a l, ls = a ++ [l] /\ l_state l = g_x s' /\ line_met o cf l.
Proof. exact newton_served. Qed.
Print Assumptions C85_newton.

(** Gauss-Newton minimises |A y + b| in one correction, for every m x n matrix of full rank; an object for symmetric positive definite
    matrices is enough. *)
Theorem C85_gauss_newton :
  forall (eps : R) (n : nat) (X : Type) (asked : (nat -> nat -> R) -> Prop) (fit : X -> Prop) (slv : solver X) (HS : serves eps n asked fit slv),
  let o := Rops eps in (forall M, spd eps n M -> asked M) ->
    forall m wr wj W (rj : tup R n -> tup R m -> option (mat (S:=R) m n) -> W -> outcome unit * (tup R m * option (mat (S:=R) m n) * W))
      (A : mat (S:=R) m n) (b : tup R m),
    let F := affine (tvec o m) (tapply o) A b in let no := tuple_ops o sqrt m n in
    computes rj F (fun _ => A) -> full_rank no (tvec o m) (tapply o) A ->
    forall cf (s : reg R (tup R n) (tup R m) (mat (S:=R) m n) (mat (S:=R) n n) ({x | fit x} * object eps m n)) (w : W) r s' w',
    ls_object o s -> f_update cf = UStandard ->
    f_stop cf = WhenAbsCorrection \/ f_stop cf = WhenRelCorrection \/ f_stop cf = WhenAbsGradient \/ f_stop cf = WhenRelGradient ->
    0 < f_tol cf -> (2 <= f_max cf < int32_max)%Z ->
    exec rj (ls_solve o no (ls_exts HS (mgs_exts eps m n wr wj false)) GaussNewton cf) (s, w) = (r, (s', w')) ->
    exists ls, g_log s' = g_log s ++ ls /\ r = Ok tt /\
      ((length ls = 1%nat /\ g_x s' = g_x s) \/ (length ls = 2%nat /\ forall y, n_rnorm no (F (g_x s')) <= n_rnorm no (F y))) /\
      exists a l, ls = a ++ [l] /\ l_state l = g_x s' /\ line_met o cf l.
Proof. exact gauss_newton_served. Qed.
Print Assumptions C85_gauss_newton.

(** [num] steps of y' = A(t) y + b(t), n unknowns, with a new BDF1, BDF2 or Crank-Nicolson stepper whose Newton's method uses the
    object: they meet the equations of the scheme wherever the matrix of the step is nonsingular. *)
Theorem C85_n_steps :
  forall (eps : R) (n : nat) (X : Type) (asked : (nat -> nat -> R) -> Prop) (fit : X -> Prop) (slv : solver X) (HS : serves eps n asked fit slv),
  (forall M, asked M) ->
  forall (W U : Type) wr wj,
  let o := Rops eps in let vo := tvec o n in let ap := tapply o (m:=n) (n:=n) in let jo := mat_ops eps n n in let jid := tid n in
  let no := tuple_ops o sqrt n n in let xt := root_exts HS (mgs_exts eps n n wr wj false) in
  forall cf, newton_settings cf ->
  forall (u : isys (S:=R) (V:=tup R n) (J:=mat (S:=R) n n) (W:=W)) (A : R -> mat (S:=R) n n) (b : R -> tup R n),
  linear_user vo ap u A b -> forall name,
  forall (obs : Z -> R -> tup R n -> U -> outcome unit * U) cs cr w0 x0 ws g0,
  root_object o ws -> implicit_create o name cs cr (mk_ppol (-1) w0) x0 ws = Ok g0 ->
  let f := linear_rhs vo ap A b in
  let step := implicit_step o (policy_std o vo jo jid u) (as_solver (root_solve o no xt cf)) name in
  let regular := fun past t dt => nonsingular o n (ent (as_mtx (step_matrix o jo (fun _ => jid) A name past t dt))) in
  let scheme := scheme_step o vo f name in
  forall pol num start y0 w, (Z.of_nat num < int32_max)%Z ->
  (forall k t y u, fst (obs k t y u) = Ok tt) -> (forall k t d u, exists dt, fst (pol k t d u) = Ok dt) ->
  exists y' g' w' tr l,
    advance_n_steps o (mk_user (split_obs obs) (pol3 (split_pol pol)) noop_guess (split_step (implicit_fn step)))
      (Z.of_nat num) start (y0, (g0, w), []) = (Ok tt, (y', (g', w'), tr)) /\
    length l = Datatypes.S num /\ reports tr = numbered l /\ hd y0 (map snd l) = y' /\
    linked_from Rplus (fun past t dt y => regular past t dt -> scheme past t dt y) start y0 l /\
    (forall m, linked_from Rplus (fun past t dt y => regular past t dt /\ scheme past t dt y) start y0 m ->
       map fst (numbered m) = map fst (reports tr) -> reports tr = numbered m).
Proof. exact served_n_steps. Qed.
Print Assumptions C85_n_steps.

(** ... to a target time. *)
Theorem C85_to_target :
  forall (eps : R) (n : nat) (X : Type) (asked : (nat -> nat -> R) -> Prop) (fit : X -> Prop) (slv : solver X) (HS : serves eps n asked fit slv),
  (forall M, asked M) ->
  forall (W U : Type) wr wj,
  let o := Rops eps in let vo := tvec o n in let ap := tapply o (m:=n) (n:=n) in let jo := mat_ops eps n n in let jid := tid n in
  let no := tuple_ops o sqrt n n in let xt := root_exts HS (mgs_exts eps n n wr wj false) in
  forall cf, newton_settings cf ->
  forall (u : isys (S:=R) (V:=tup R n) (J:=mat (S:=R) n n) (W:=W)) (A : R -> mat (S:=R) n n) (b : R -> tup R n),
  linear_user vo ap u A b -> forall name,
  forall (obs : Z -> R -> tup R n -> U -> outcome unit * U) cs cr w0 x0 ws g0,
  root_object o ws -> implicit_create o name cs cr (mk_ppol (-1) w0) x0 ws = Ok g0 ->
  let f := linear_rhs vo ap A b in
  let step := implicit_step o (policy_std o vo jo jid u) (as_solver (root_solve o no xt cf)) name in
  let regular := fun past t dt => nonsingular o n (ent (as_mtx (step_matrix o jo (fun _ => jid) A name past t dt))) in
  let scheme := scheme_step o vo f name in
  forall pol recovery h k0 fuel start final y0 w,
  0 <= eps -> (forall k t y u, fst (obs k t y u) = Ok tt) ->
  (forall k t x u, exists dt m c, fst (pol k t x u) = Ok (dt, m, c) /\ h <= dt /\ m <= dt /\ (recovery = true -> 1 < c)) ->
  start < final -> final - start <= INR k0 * h -> (k0 < fuel)%nat -> (Z.of_nat k0 < int32_max)%Z ->
  exists y' g' w' tr l,
    to_target o (mk_user (split_obs obs) (split_pol pol) noop_guess (split_step (implicit_fn step))) recovery fuel
      start final (y0, (g0, w), []) = (Ok tt, (y', (g', w'), tr)) /\
    reports tr = numbered l /\ hd y0 (map snd l) = y' /\
    linked_from Rplus (fun past t dt y => regular past t dt -> scheme past t dt y) start y0 l /\
    (forall m, linked_from Rplus (fun past t dt y => regular past t dt /\ scheme past t dt y) start y0 m ->
       map fst (numbered m) = map fst (reports tr) -> reports tr = numbered m).
Proof. exact served_target. Qed.
Print Assumptions C85_to_target.

(** With mass matrix, M(t) y' = A(t) y + b(t). *)
Theorem C85_n_steps_mass_matrix :
  forall (eps : R) (n : nat) (X : Type) (asked : (nat -> nat -> R) -> Prop) (fit : X -> Prop) (slv : solver X) (HS : serves eps n asked fit slv),
  (forall M, asked M) ->
  forall (W U : Type) wr wj,
  let o := Rops eps in let vo := tvec o n in let ap := tapply o (m:=n) (n:=n) in let jo := mat_ops eps n n in let jid := tid n in
  let no := tuple_ops o sqrt n n in let xt := root_exts HS (mgs_exts eps n n wr wj false) in
  forall cf, newton_settings cf ->
  forall (u : isys (S:=R) (V:=tup R n) (J:=mat (S:=R) n n) (W:=W)) (A : R -> mat (S:=R) n n) (b : R -> tup R n),
  forall M : R -> mat (S:=R) n n, linear_ode_mm vo ap u M A b ->
  forall name, name = BDF1 \/ name = BDF2 ->
  forall (obs : Z -> R -> tup R n -> U -> outcome unit * U) cs cr p0 x0 ws g0,
  root_object o ws -> implicit_create o name cs cr p0 x0 ws = Ok g0 ->
  let f := linear_rhs vo ap A b in
  let step := implicit_step o (policy_mm o vo jo ap u) (as_solver (root_solve o no xt cf)) name in
  let regular := fun past t dt => nonsingular o n (ent (as_mtx (step_matrix o jo M A name past t dt))) in
  let scheme := scheme_step_mm o vo ap M f name in
  forall pol num start y0 w, (Z.of_nat num < int32_max)%Z ->
  (forall k t y u, fst (obs k t y u) = Ok tt) -> (forall k t d u, exists dt, fst (pol k t d u) = Ok dt) ->
  exists y' g' w' tr l,
    advance_n_steps o (mk_user (split_obs obs) (pol3 (split_pol pol)) noop_guess (split_step (implicit_fn step)))
      (Z.of_nat num) start (y0, (g0, w), []) = (Ok tt, (y', (g', w'), tr)) /\
    length l = Datatypes.S num /\ reports tr = numbered l /\ hd y0 (map snd l) = y' /\
    linked_from Rplus (fun past t dt y => regular past t dt -> scheme past t dt y) start y0 l /\
    (forall m, linked_from Rplus (fun past t dt y => regular past t dt /\ scheme past t dt y) start y0 m ->
       map fst (numbered m) = map fst (reports tr) -> reports tr = numbered m).
Proof. exact served_n_steps_mm. Qed.
Print Assumptions C85_n_steps_mass_matrix.

(** ... to a target time. *)
Theorem C85_to_target_mass_matrix :
  forall (eps : R) (n : nat) (X : Type) (asked : (nat -> nat -> R) -> Prop) (fit : X -> Prop) (slv : solver X) (HS : serves eps n asked fit slv),
  (forall M, asked M) ->
  forall (W U : Type) wr wj,
  let o := Rops eps in let vo := tvec o n in let ap := tapply o (m:=n) (n:=n) in let jo := mat_ops eps n n in let jid := tid n in
  let no := tuple_ops o sqrt n n in let xt := root_exts HS (mgs_exts eps n n wr wj false) in
  forall cf, newton_settings cf ->
  forall (u : isys (S:=R) (V:=tup R n) (J:=mat (S:=R) n n) (W:=W)) (A : R -> mat (S:=R) n n) (b : R -> tup R n),
  forall M : R -> mat (S:=R) n n, linear_ode_mm vo ap u M A b ->
  forall name, name = BDF1 \/ name = BDF2 ->
  forall (obs : Z -> R -> tup R n -> U -> outcome unit * U) cs cr p0 x0 ws g0,
  root_object o ws -> implicit_create o name cs cr p0 x0 ws = Ok g0 ->
  let f := linear_rhs vo ap A b in
  let step := implicit_step o (policy_mm o vo jo ap u) (as_solver (root_solve o no xt cf)) name in
  let regular := fun past t dt => nonsingular o n (ent (as_mtx (step_matrix o jo M A name past t dt))) in
  let scheme := scheme_step_mm o vo ap M f name in
  forall pol recovery h k0 fuel start final y0 w,
  0 <= eps -> (forall k t y u, fst (obs k t y u) = Ok tt) ->
  (forall k t x u, exists dt m c, fst (pol k t x u) = Ok (dt, m, c) /\ h <= dt /\ m <= dt /\ (recovery = true -> 1 < c)) ->
  start < final -> final - start <= INR k0 * h -> (k0 < fuel)%nat -> (Z.of_nat k0 < int32_max)%Z ->
  exists y' g' w' tr l,
    to_target o (mk_user (split_obs obs) (split_pol pol) noop_guess (split_step (implicit_fn step))) recovery fuel
      start final (y0, (g0, w), []) = (Ok tt, (y', (g', w'), tr)) /\
    reports tr = numbered l /\ hd y0 (map snd l) = y' /\
    linked_from Rplus (fun past t dt y => regular past t dt -> scheme past t dt y) start y0 l /\
    (forall m, linked_from Rplus (fun past t dt y => regular past t dt /\ scheme past t dt y) start y0 m ->
       map fst (numbered m) = map fst (reports tr) -> reports tr = numbered m).
Proof. exact served_target_mm. Qed.
Print Assumptions C85_to_target_mass_matrix.

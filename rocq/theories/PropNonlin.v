(** C21 - C32, C49 - C53, C55, C56: nonlinear solvers. *)
From Coq Require Import ZArith List Bool Reals QArith Qcanon.
From Verif Require Import Base QcInst RInst FloatInst Laws LawInst ExplicitModel ExplicitExtra ImplicitModel ImplicitSpec
  NonlinDiag NonlinModel NonlinWp NonlinDiagProofs NonlinSpec NonlinClaims NonlinRuns NonlinSeq NonlinFollow NonlinLaws NonlinExact
  NonlinReal NonlinTheory NonlinRest NonlinWitness NonlinMoreSpec NonlinMore NonlinStep NonlinWitness2 NonlinCont NonlinFinal.
Import ListNotations.
Local Open Scope Z_scope.

(** C21. *)
Theorem C21_least_squares_run :
  forall (S V R J H L W : Type) (o : sops S) (no : nlops S V R J H) (xt : exts V R J H L)
    (rj : V -> R -> option J -> W -> outcome unit * (R * option J * W))
    (wr : R -> R) (wj : J -> J) (tag : lstag) (cf : config S)
    (s : reg S V R J H L) (w : W) (r : outcome unit) (s' : reg S V R J H L) (w' : W),
  ls_object o s -> ls_supported tag cf -> halving_ends o -> plain_system rj -> weights_ok xt wr wj no_linesearch ->
  exec rj (ls_solve o no xt tag cf) (s, w) = (r, (s', w')) ->
  ls_object o s' /\
  exists ls, g_log s' = g_log s ++ ls /\ well_run o cf (ls_gave_up o no rj tag wr cf) (g_x s) r (g_x s') ls.
Proof. exact @ls_well_run. Qed.
Print Assumptions C21_least_squares_run.

Theorem C21_newton_run :
  forall (S V R J H L W : Type) (o : sops S) (no : nlops S V R J H) (xt : exts V R J H L)
    (rj : V -> R -> option J -> W -> outcome unit * (R * option J * W))
    (cf : config S) (s : reg S V R J H L) (w : W) (r : outcome unit) (s' : reg S V R J H L) (w' : W),
  root_object o s -> root_supported cf -> halving_ends o -> plain_system rj ->
  exec rj (root_solve o no xt cf) (s, w) = (r, (s', w')) ->
  root_object o s' /\
  exists ls, g_log s' = g_log s ++ ls /\ well_run o cf (root_gave_up o no rj cf) (g_x s) r (g_x s') ls.
Proof. exact @root_well_run. Qed.
Print Assumptions C21_newton_run.

Theorem C21_least_squares_iterates :
  forall (S V R J H L W : Type) (o : sops S) (no : nlops S V R J H) (xt : exts V R J H L)
    (rj : V -> R -> option J -> W -> outcome unit * (R * option J * W))
    (F : V -> R) (DF : V -> J), computes rj F DF ->
  forall (wr : R -> R) (wj : J -> J), weights_ok xt wr wj nothing ->
  forall (D : H -> V -> V) (Dq Dn : J -> R -> V), linear_computes D Dq Dn xt -> halving_ends o ->
  forall (tag : lstag) (cf : config S) (s : reg S V R J H L) (w : W) (r : outcome unit) (s' : reg S V R J H L) (w' : W),
  ls_object o s -> f_update cf = UStandard -> f_max cf < int32_max ->
  exec rj (ls_solve o no xt tag cf) (s, w) = (r, (s', w')) ->
  exists ls, g_log s' = g_log s ++ ls /\
    follows o cf (ls_next o no F DF wr wj D Dq tag) (g_x s) r (g_x s') ls.
Proof. exact @ls_follows. Qed.
Print Assumptions C21_least_squares_iterates.

Theorem C21_newton_iterates :
  forall (S V R J H L W : Type) (o : sops S) (no : nlops S V R J H) (xt : exts V R J H L)
    (rj : V -> R -> option J -> W -> outcome unit * (R * option J * W))
    (F : V -> R) (DF : V -> J), computes rj F DF ->
  forall (D : H -> V -> V) (Dq Dn : J -> R -> V), linear_computes D Dq Dn xt -> halving_ends o ->
  forall (cf : config S) (s : reg S V R J H L) (w : W) (r : outcome unit) (s' : reg S V R J H L) (w' : W),
  root_object o s -> root_supported cf -> f_update cf = UStandard -> f_max cf < int32_max ->
  exec rj (root_solve o no xt cf) (s, w) = (r, (s', w')) ->
  exists ls, g_log s' = g_log s ++ ls /\ follows o cf (newton_next o no F DF Dn) (g_x s) r (g_x s') ls.
Proof. exact @root_follows. Qed.
Print Assumptions C21_newton_iterates.

(** What is printed is measured at the state it is printed for. *)
Theorem C21_least_squares_values :
  forall (S V R J H L W : Type) (o : sops S) (no : nlops S V R J H) (xt : exts V R J H L)
    (rj : V -> R -> option J -> W -> outcome unit * (R * option J * W))
    (F : V -> R) (DF : V -> J), computes rj F DF ->
  forall (wr : R -> R) (wj : J -> J), weights_ok xt wr wj nothing -> halving_ends o ->
  forall (tag : lstag) (cf : config S) (s : reg S V R J H L) (w : W) (r : outcome unit) (s' : reg S V R J H L) (w' : W),
  ls_object o s -> ls_supported tag cf ->
  exec rj (ls_solve o no xt tag cf) (s, w) = (r, (s', w')) ->
  exists ls, g_log s' = g_log s ++ ls /\ values_right (ls_values o no F DF wr wj tag) ls.
Proof. exact @ls_values_right. Qed.
Print Assumptions C21_least_squares_values.

Theorem C21_newton_values :
  forall (S V R J H L W : Type) (o : sops S) (no : nlops S V R J H) (xt : exts V R J H L)
    (rj : V -> R -> option J -> W -> outcome unit * (R * option J * W))
    (F : V -> R) (DF : V -> J), computes rj F DF -> halving_ends o ->
  forall (cf : config S) (s : reg S V R J H L) (w : W) (r : outcome unit) (s' : reg S V R J H L) (w' : W),
  root_object o s -> root_supported cf ->
  exec rj (root_solve o no xt cf) (s, w) = (r, (s', w')) ->
  exists ls, g_log s' = g_log s ++ ls /\ values_right (root_values no F) ls.
Proof. exact @root_values_right. Qed.
Print Assumptions C21_newton_values.

(** The user's system is called at most this often. *)
Theorem C21_least_squares_evaluations :
  forall (S V R J H L W : Type) (o : sops S) (no : nlops S V R J H) (xt : exts V R J H L)
    (rj : V -> R -> option J -> W -> outcome unit * (R * option J * W)), ten_halvings o ->
  forall tag cf (s : reg S V R J H L) w r s' w' k,
  exec (counting rj) (ls_solve o no xt tag cf) (s, (w, 0%nat)) = (r, (s', (w', k))) ->
  (k <= evaluations (f_update cf) * Z.to_nat (f_max cf))%nat.
Proof. exact @ls_calls. Qed.
Print Assumptions C21_least_squares_evaluations.

Theorem C21_newton_evaluations :
  forall (S V R J H L W : Type) (o : sops S) (no : nlops S V R J H) (xt : exts V R J H L)
    (rj : V -> R -> option J -> W -> outcome unit * (R * option J * W)), ten_halvings o ->
  forall cf (s : reg S V R J H L) w r s' w' k,
  exec (counting rj) (root_solve o no xt cf) (s, (w, 0%nat)) = (r, (s', (w', k))) ->
  (k <= evaluations (f_update cf) * Z.to_nat (f_max cf))%nat.
Proof. exact @root_calls. Qed.
Print Assumptions C21_newton_evaluations.

(** C22. With a system and linear solver that do not fail: every criterion works with
    the least-squares solvers, four of nine with the root finder. *)
Theorem C22_least_squares :
  forall (S V R J H L W : Type) (o : sops S) (no : nlops S V R J H) (xt : exts V R J H L)
    (rj : V -> R -> option J -> W -> outcome unit * (R * option J * W))
    (gr : V -> R -> Prop) (gj : V -> J -> Prop) (glin : H -> V -> V -> Prop) (gqr gnewt : J -> R -> V -> Prop)
    (wr : R -> R) (wj : J -> J) (tag : lstag) (cf : config S) (s : reg S V R J H L) (w : W),
  ls_object o s -> ls_supported tag cf -> halving_ends o -> f_max cf < int32_max ->
  sys_ok (graph rj) gr gj nothing -> weights_ok xt wr wj nothing -> linear_ok xt glin gqr gnewt nothing ->
  exists s' w', exec rj (ls_solve o no xt tag cf) (s, w) = (Ok tt, (s', w')).
Proof. exact @ls_every_stop. Qed.
Print Assumptions C22_least_squares.

Theorem C22_newton_partial :
  forall (S V R J H L W : Type) (o : sops S) (no : nlops S V R J H) (xt : exts V R J H L)
    (rj : V -> R -> option J -> W -> outcome unit * (R * option J * W))
    (gr : V -> R -> Prop) (gj : V -> J -> Prop) (glin : H -> V -> V -> Prop) (gqr gnewt : J -> R -> V -> Prop)
    (cf : config S) (s : reg S V R J H L) (w : W),
  root_object o s -> root_supported cf -> halving_ends o -> f_max cf < int32_max ->
  sys_ok (graph rj) gr gj nothing -> linear_ok xt glin gqr gnewt nothing ->
  exists s' w', exec rj (root_solve o no xt cf) (s, w) = (Ok tt, (s', w')).
Proof. exact @root_stop_ends. Qed.
Print Assumptions C22_newton_partial.

Theorem C22_newton_refuted :
  forall (S V R J H L W : Type) (o : sops S) (no : nlops S V R J H) (xt : exts V R J H L)
    (rj : V -> R -> option J -> W -> outcome unit * (R * option J * W))
    (gr : V -> R -> Prop) (gj : V -> J -> Prop) (glin : H -> V -> V -> Prop) (gqr gnewt : J -> R -> V -> Prop)
    (cf : config S) (s : reg S V R J H L) (w : W),
  root_object o s -> root_untracked (f_stop cf) ->
  f_update cf = UStandard \/ f_update cf = UBacktrack /\ f_params cf <> Some [] -> 1 <= f_max cf ->
  sys_ok (graph rj) gr gj nothing -> linear_ok xt glin gqr gnewt nothing ->
  exists s' w', exec rj (root_solve o no xt cf) (s, w) = (Throw EOutOfRange, (s', w')) /\ g_x s' = g_x s.
Proof. exact @root_bad_stop. Qed.
Print Assumptions C22_newton_refuted.

(** C23. *)
Theorem C23_least_squares :
  forall (S V R J H L W : Type) (o : sops S) (no : nlops S V R J H) (xt : exts V R J H L)
    (rj : V -> R -> option J -> W -> outcome unit * (R * option J * W))
    (wr : R -> R) (wj : J -> J) (tag : lstag) (cf : config S)
    (s : reg S V R J H L) (w : W) (r : outcome unit) (s' : reg S V R J H L) (w' : W),
  ls_object o s -> ls_supported tag cf -> halving_ends o -> plain_system rj -> weights_ok xt wr wj no_linesearch ->
  exec rj (ls_solve o no xt tag cf) (s, w) = (r, (s', w')) ->
  exists ls, g_log s' = g_log s ++ ls /\ relative_to_first o ls_diags ls.
Proof. exact @ls_relative. Qed.
Print Assumptions C23_least_squares.

Theorem C23_newton :
  forall (S V R J H L W : Type) (o : sops S) (no : nlops S V R J H) (xt : exts V R J H L)
    (rj : V -> R -> option J -> W -> outcome unit * (R * option J * W))
    (cf : config S) (s : reg S V R J H L) (w : W) (r : outcome unit) (s' : reg S V R J H L) (w' : W),
  root_object o s -> root_supported cf -> halving_ends o -> plain_system rj ->
  exec rj (root_solve o no xt cf) (s, w) = (r, (s', w')) ->
  exists ls, g_log s' = g_log s ++ ls /\ relative_to_first o root_diags ls.
Proof. exact @root_relative. Qed.
Print Assumptions C23_newton.

(** C24. *)
Theorem C24_backtracking :
  forall (S V R J H L W : Type) (o : sops S) (no : nlops S V R J H) (xt : exts V R J H L)
    (rj : V -> R -> option J -> W -> outcome unit * (R * option J * W))
    (F : V -> R) (DF : V -> J), computes rj F DF ->
  forall (wr : R -> R) (wj : J -> J), weights_ok xt wr wj nothing -> ten_halvings o ->
  forall (tag : lstag) (cf : config S) (f0 : S) (s : reg S V R J H L) (w : W) (r : outcome unit) (s' : reg S V R J H L) (w' : W),
  f_params cf <> Some [] ->
  exec rj (backtrack_updater o no (f_params cf) (objective o no xt tag) f0) (s, w) = (r, (s', w')) ->
  backtracked o no F (ls_objective o no wr tag) (reduction_factor o cf) f0 (g_x s) (g_c s) r (g_x s').
Proof. exact @bt_result. Qed.
Print Assumptions C24_backtracking.

Theorem C24_backtracking_newton :
  forall (S V R J H L W : Type) (o : sops S) (no : nlops S V R J H)
    (rj : V -> R -> option J -> W -> outcome unit * (R * option J * W))
    (F : V -> R) (DF : V -> J), computes rj F DF -> ten_halvings o ->
  forall (cf : config S) (f0 : S) (s : reg S V R J H L) (w : W) (r : outcome unit) (s' : reg S V R J H L) (w' : W),
  f_params cf <> Some [] ->
  exec rj (backtrack_updater o no (f_params cf) (root_objective no) f0) (s, w) = (r, (s', w')) ->
  backtracked o no F (n_rnorm no) (reduction_factor o cf) f0 (g_x s) (g_c s) r (g_x s').
Proof. exact @bt_root_result. Qed.
Print Assumptions C24_backtracking_newton.

Theorem C24_evaluations :
  forall (S V R J H L W : Type) (o : sops S) (no : nlops S V R J H) (xt : exts V R J H L)
    (rj : V -> R -> option J -> W -> outcome unit * (R * option J * W)), ten_halvings o ->
  forall tag ps f0 (s : reg S V R J H L) w r s' w' k,
  exec (counting rj) (backtrack_updater o no ps (objective o no xt tag) f0) (s, (w, 0%nat)) = (r, (s', (w', k))) ->
  (k <= 10)%nat.
Proof. exact @bt_calls. Qed.
Print Assumptions C24_evaluations.

Theorem C24_evaluations_newton :
  forall (S V R J H L W : Type) (o : sops S) (no : nlops S V R J H)
    (rj : V -> R -> option J -> W -> outcome unit * (R * option J * W)), ten_halvings o ->
  forall ps f0 (s : reg S V R J H L) w r s' w' k,
  exec (counting rj) (backtrack_updater o no ps (root_objective no) f0) (s, (w, 0%nat)) = (r, (s', (w', k))) ->
  (k <= 10)%nat.
Proof. exact @bt_root_calls. Qed.
Print Assumptions C24_evaluations_newton.

Theorem C24_solve :
  forall (S V R J H L W : Type) (o : sops S) (no : nlops S V R J H) (xt : exts V R J H L)
    (rj : V -> R -> option J -> W -> outcome unit * (R * option J * W))
    (F : V -> R) (DF : V -> J), computes rj F DF ->
  forall (wr : R -> R) (wj : J -> J), weights_ok xt wr wj nothing -> halving_ends o ->
  forall (tag : lstag) (cf : config S) (s : reg S V R J H L) (w : W) (r : outcome unit) (s' : reg S V R J H L) (w' : W),
  ls_object o s -> f_update cf = UBacktrack \/ f_update cf = UArmijo -> f_params cf <> Some [] ->
  exec rj (ls_solve o no xt tag cf) (s, w) = (r, (s', w')) ->
  exists ls xs, g_log s' = g_log s ++ ls /\ visited xs ls (g_x s) (g_x s') /\
    descends o F (ls_objective o no wr tag) (reduction_factor o cf) xs.
Proof. exact @ls_descends. Qed.
Print Assumptions C24_solve.

Theorem C24_solve_newton :
  forall (S V R J H L W : Type) (o : sops S) (no : nlops S V R J H) (xt : exts V R J H L)
    (rj : V -> R -> option J -> W -> outcome unit * (R * option J * W))
    (F : V -> R) (DF : V -> J), computes rj F DF -> halving_ends o ->
  forall (cf : config S) (s : reg S V R J H L) (w : W) (r : outcome unit) (s' : reg S V R J H L) (w' : W),
  root_object o s -> root_supported cf -> f_update cf = UBacktrack ->
  exec rj (root_solve o no xt cf) (s, w) = (r, (s', w')) ->
  exists ls xs, g_log s' = g_log s ++ ls /\ visited xs ls (g_x s) (g_x s') /\
    descends o F (n_rnorm no) (reduction_factor o cf) xs.
Proof. exact @root_descends. Qed.
Print Assumptions C24_solve_newton.

Theorem C24_never_increases :
  forall (eps : R) (V Rs J H L W : Type) (no : nlops R V Rs J H) (xt : exts V Rs J H L)
    (rj : V -> Rs -> option J -> W -> outcome unit * (Rs * option J * W)) (F : V -> Rs) (DF : V -> J),
  computes rj F DF ->
  forall (wr : Rs -> Rs) (wj : J -> J), weights_ok xt wr wj nothing ->
  forall tag cf (s : reg R V Rs J H L) w r s' w',
  ls_object (Rops eps) s -> f_update cf = UBacktrack -> f_params cf = None ->
  exec rj (ls_solve (Rops eps) no xt tag cf) (s, w) = (r, (s', w')) ->
  exists ls xs, g_log s' = g_log s ++ ls /\ visited xs ls (g_x s) (g_x s') /\
    consecutive (fun y z => ls_objective (Rops eps) no wr tag (F z) <= ls_objective (Rops eps) no wr tag (F y))%R xs.
Proof. exact @ls_monotone. Qed.
Print Assumptions C24_never_increases.

Theorem C24_never_increases_newton :
  forall (eps : R) (V Rs J H L W : Type) (no : nlops R V Rs J H) (xt : exts V Rs J H L)
    (rj : V -> Rs -> option J -> W -> outcome unit * (Rs * option J * W)) (F : V -> Rs) (DF : V -> J),
  computes rj F DF ->
  forall cf (s : reg R V Rs J H L) w r s' w',
  root_object (Rops eps) s -> root_supported cf -> f_update cf = UBacktrack -> f_params cf = None ->
  exec rj (root_solve (Rops eps) no xt cf) (s, w) = (r, (s', w')) ->
  exists ls xs, g_log s' = g_log s ++ ls /\ visited xs ls (g_x s) (g_x s') /\
    consecutive (fun y z => n_rnorm no (F z) <= n_rnorm no (F y))%R xs.
Proof. exact @root_monotone. Qed.
Print Assumptions C24_never_increases_newton.

(** C25. False with the default reduction factor 1; true with a factor below 1, where the
    objective is positive. *)
Theorem C25_refuted :
  exists s' w',
  exec (sys1 Fq DFq) (ls_solve QcS (n1 QcS) (x1 QcS) GaussNewton (cfq UBacktrack 2)) (reg1 QcS ls_diags (q 0), tt)
    = (Ok tt, (s', w')) /\
  map l_state (g_log s') = [q 0; q (-1)] /\ g_x s' = q 0 /\ objq (q (-1)) = objq (q 0).
Proof. exact c25_witness. Qed.
Print Assumptions C25_refuted.

Theorem C25_partial :
  forall (eps : R) (V Rs J H L W : Type) (no : nlops R V Rs J H) (xt : exts V Rs J H L)
    (rj : V -> Rs -> option J -> W -> outcome unit * (Rs * option J * W)) (F : V -> Rs) (DF : V -> J),
  computes rj F DF ->
  forall (wr : Rs -> Rs) (wj : J -> J), weights_ok xt wr wj nothing ->
  forall tag cf (s : reg R V Rs J H L) w r s' w' zeta ps,
  ls_object (Rops eps) s -> f_update cf = UBacktrack -> f_params cf = Some (zeta :: ps) -> (zeta < 1)%R ->
  exec rj (ls_solve (Rops eps) no xt tag cf) (s, w) = (r, (s', w')) ->
  exists ls xs, g_log s' = g_log s ++ ls /\ visited xs ls (g_x s) (g_x s') /\
    consecutive (fun y z => let f x := ls_objective (Rops eps) no wr tag (F x) in 0 < f y -> f z < f y)%R xs.
Proof. exact @ls_strict. Qed.
Print Assumptions C25_partial.

Theorem C25_newton_partial :
  forall (eps : R) (V Rs J H L W : Type) (no : nlops R V Rs J H) (xt : exts V Rs J H L)
    (rj : V -> Rs -> option J -> W -> outcome unit * (Rs * option J * W)) (F : V -> Rs) (DF : V -> J),
  computes rj F DF ->
  forall cf (s : reg R V Rs J H L) w r s' w' zeta ps,
  root_object (Rops eps) s -> root_supported cf -> f_update cf = UBacktrack ->
  f_params cf = Some (zeta :: ps) -> (zeta < 1)%R ->
  exec rj (root_solve (Rops eps) no xt cf) (s, w) = (r, (s', w')) ->
  exists ls xs, g_log s' = g_log s ++ ls /\ visited xs ls (g_x s) (g_x s') /\
    consecutive (fun y z => let f x := n_rnorm no (F x) in 0 < f y -> f z < f y)%R xs.
Proof. exact @root_strict. Qed.
Print Assumptions C25_newton_partial.

(** C26. The Armijo setting runs the backtracking update (least squares) or is rejected
    (Newton); the Armijo updater, which nothing selects, does what it should. *)
Theorem C26_refuted :
  exists s' w',
  exec (sys1 Fq DFq) (ls_solve QcS (n1 QcS) (x1 QcS) GaussNewton (cfq UArmijo 2)) (reg1 QcS ls_diags (q 0), tt)
    = (Ok tt, (s', w')) /\
  map l_state (g_log s') = [q 0; q (-1)] /\ g_x s' = q 0 /\
  sleb QcS (ssub QcS (objq (q (-1))) (objq (q 0)))
           (smul QcS (sdiv QcS (s1 QcS) (sZ QcS 10000)) (smul QcS (DFq (q 0) * Fq (q 0))%Qc (q (-1) - q 0)%Qc)) = false.
Proof. exact c26_witness. Qed.
Print Assumptions C26_refuted.

Theorem C26_newton_refuted :
  forall (S V R J H L W : Type) (o : sops S) (no : nlops S V R J H) (xt : exts V R J H L)
    (rj : V -> R -> option J -> W -> outcome unit * (R * option J * W))
    cf s w,
  f_update cf = UArmijo -> exec rj (root_solve o no xt cf) (s, w) = (Throw ERuntime, (s, w)).
Proof. exact armijo_root_throws. Qed.
Print Assumptions C26_newton_refuted.

Theorem C26_armijo_updater_partial :
  forall (S V R J H L W : Type) (o : sops S) (no : nlops S V R J H) (xt : exts V R J H L)
    (rj : V -> R -> option J -> W -> outcome unit * (R * option J * W))
    (F : V -> R) (DF : V -> J), computes rj F DF ->
  forall (wr : R -> R) (wj : J -> J), weights_ok xt wr wj nothing -> ten_halvings o ->
  forall (tag : lstag) (f0 : S) (s : reg S V R J H L) (w : W) (r : outcome unit) (s' : reg S V R J H L) (w' : W),
  exec rj (armijo_updater o no (objective o no xt tag) f0) (s, w) = (r, (s', w')) ->
  armijo_searched o no F (ls_objective o no wr tag) f0 (n_dot no (g_g s) (g_c s)) (g_x s) (g_c s) r (g_x s').
Proof. exact @armijo_result. Qed.
Print Assumptions C26_armijo_updater_partial.

(** C27. *)
Theorem C27_one_iteration :
  forall (eps : R) (V Rs J H L W : Type) (no : nlops R V Rs J H) (ro : vops R Rs)
    (apJ : J -> V -> Rs) (apH : H -> V -> V), nl_laws eps no ro apJ apH ->
  forall (xt : exts V Rs J H L) (rj : V -> Rs -> option J -> W -> outcome unit * (Rs * option J * W))
    (F : V -> Rs) (DF : V -> J), computes rj F DF ->
  forall (wr : Rs -> Rs) (wj : J -> J), weights_ok xt wr wj nothing ->
  linear_ok xt (normal_exact apH) (qr_exact no apJ) (newton_exact apJ) anything ->
  forall up (s : reg R V Rs J H L) (w : W) (s' : reg R V Rs J H L) (w' : W),
  up = lm1_updater (Rops eps) no \/ up = lm2_updater (Rops eps) no ->
  positive_definite no apH (n_adddiag no (n_jtj no (DF (g_x s)) (DF (g_x s))) (g_damp s)) ->
  exec rj (lm_iteration (Rops eps) no xt up) (s, w) = (Ok tt, (s', w')) ->
  exists d,
    apH (n_adddiag no (n_jtj no (DF (g_x s)) (DF (g_x s))) (g_damp s)) d = n_jtr no (DF (g_x s)) (F (g_x s)) /\
    step_if_better no F (g_x s) (vscale (n_vo no) (- (1))%R d) (g_x s').
Proof. exact @lm_iteration_outcome. Qed.
Print Assumptions C27_one_iteration.

Theorem C27_solve :
  forall (eps : R) (V Rs J H L W : Type) (no : nlops R V Rs J H) (ro : vops R Rs)
    (apJ : J -> V -> Rs) (apH : H -> V -> V), nl_laws eps no ro apJ apH ->
  forall (xt : exts V Rs J H L) (rj : V -> Rs -> option J -> W -> outcome unit * (Rs * option J * W))
    (F : V -> Rs) (DF : V -> J), computes rj F DF ->
  forall (wr : Rs -> Rs) (wj : J -> J), weights_ok xt wr wj nothing ->
  linear_ok xt (normal_exact apH) (qr_exact no apJ) (newton_exact apJ) anything ->
  forall cf (s : reg R V Rs J H L) (w : W) r (s' : reg R V Rs J H L) (w' : W),
  (forall x mu, (0 < mu)%R -> positive_definite no apH (n_adddiag no (n_jtj no (DF x) (DF x)) mu)) ->
  ls_object (Rops eps) s -> f_update cf = ULMSchedule1 \/ f_update cf = ULMSchedule2 ->
  exec rj (ls_solve (Rops eps) no xt LevMar cf) (s, w) = (r, (s', w')) ->
  exists ls xs, g_log s' = g_log s ++ ls /\ visited xs ls (g_x s) (g_x s') /\
    consecutive (fun y z => z = y \/ (half_square no (F z) < half_square no (F y))%R) xs.
Proof. exact @lm_solve_descends. Qed.
Print Assumptions C27_solve.

(** C28. *)
Theorem C28_schedule1 :
  forall (eps : R) (V Rs J H L W : Type) (no : nlops R V Rs J H) (xt : exts V Rs J H L)
    (rj : V -> Rs -> option J -> W -> outcome unit * (Rs * option J * W)) (wr : Rs -> Rs) (wj : J -> J),
  plain_system rj -> weights_ok xt wr wj no_linesearch ->
  forall cf (s : reg R V Rs J H L) (w : W) r (s' : reg R V Rs J H L) (w' : W),
  ls_object (Rops eps) s -> f_update cf = ULMSchedule1 ->
  exec rj (ls_solve (Rops eps) no xt LevMar cf) (s, w) = (r, (s', w')) ->
  (0 < g_damp s')%R /\ (0 < g_nu s')%R.
Proof. exact @damping1. Qed.
Print Assumptions C28_schedule1.

Theorem C28_schedule2 :
  forall (eps : R) (V Rs J H L W : Type) (no : nlops R V Rs J H) (xt : exts V Rs J H L)
    (rj : V -> Rs -> option J -> W -> outcome unit * (Rs * option J * W)) (wr : Rs -> Rs) (wj : J -> J),
  plain_system rj -> weights_ok xt wr wj no_linesearch ->
  forall cf (s : reg R V Rs J H L) (w : W) r (s' : reg R V Rs J H L) (w' : W),
  ls_object (Rops eps) s -> f_update cf = ULMSchedule2 ->
  exec rj (ls_solve (Rops eps) no xt LevMar cf) (s, w) = (r, (s', w')) ->
  (1 / 10000000 <= g_damp s')%R /\ (g_damp s' <= 10000000)%R.
Proof. exact @damping2. Qed.
Print Assumptions C28_schedule2.

(** The damping and growth factor a previous solve left behind play no role. *)
Theorem C28_restarts :
  forall (S V Rs J H L W : Type) (o : sops S) (no : nlops S V Rs J H) (xt : exts V Rs J H L)
    (rj : V -> Rs -> option J -> W -> outcome unit * (Rs * option J * W))
    cf s w v, ls_supported LevMar cf ->
  exec rj (ls_solve o no xt LevMar cf) (set_damp v s, w) = exec rj (ls_solve o no xt LevMar cf) (s, w).
Proof. exact @restart_damp. Qed.
Print Assumptions C28_restarts.

Theorem C28_restarts_growth :
  forall (S V Rs J H L W : Type) (o : sops S) (no : nlops S V Rs J H) (xt : exts V Rs J H L)
    (rj : V -> Rs -> option J -> W -> outcome unit * (Rs * option J * W))
    cf s w v, f_update cf = ULMSchedule1 ->
  exec rj (ls_solve o no xt LevMar cf) (set_nu v s, w) = exec rj (ls_solve o no xt LevMar cf) (s, w).
Proof. exact @restart_nu. Qed.
Print Assumptions C28_restarts_growth.

(** C29. The predicted change is not in the denominator: the code adds mu c.Dc where the
    model of the objective has none, so at x = 1 for F(x) = x the ratio is 3, not 1. *)
Theorem C29_refuted :
  exists s' w',
  exec (sys1 (fun x => x) (fun _ => q 1)) (lm_gain_iteration QcS (n1 QcS) (x1 QcS)) (lm_start, tt) = (Ok (q 3), (s', w')) /\
  g_c s' = (- (q 1 / q 2))%Qc /\
  ((half_sq (q 1 + g_c s') - half_sq (q 1)) / (half_sq (q 1 * g_c s' + q 1) - half_sq (q 1)))%Qc = q 1.
Proof. exact c29_witness. Qed.
Print Assumptions C29_refuted.

Theorem C29_gain_partial :
  forall (eps : R) (V Rs J H L W : Type) (no : nlops R V Rs J H) (ro : vops R Rs)
    (apJ : J -> V -> Rs) (apH : H -> V -> V), nl_laws eps no ro apJ apH ->
  forall (xt : exts V Rs J H L) (rj : V -> Rs -> option J -> W -> outcome unit * (Rs * option J * W))
    (F : V -> Rs) (DF : V -> J), computes rj F DF ->
  forall (wr : Rs -> Rs) (wj : J -> J), weights_ok xt wr wj nothing ->
  linear_ok xt (normal_exact apH) (qr_exact no apJ) (newton_exact apJ) anything ->
  forall (s : reg R V Rs J H L) (w : W) v (s' : reg R V Rs J H L) (w' : W),
  exec rj (lm_gain_iteration (Rops eps) no xt) (s, w) = (Ok v, (s', w')) ->
  let x := g_x s in let c := g_c s' in
  g_x s' = x /\
  v = ((half_square no (F (vadd (n_vo no) (vscale (n_vo no) 1 x) (vscale (n_vo no) 1 c))) - half_square no (F x)) /
       (predicted no ro apJ (DF x) (F x) c + g_damp s * n_dot no c (n_diagmul no (n_jtj no (DF x) (DF x)) c)))%R.
Proof. exact @gain_value. Qed.
Print Assumptions C29_gain_partial.

(** C30. *)
Theorem C30_gauss_newton :
  forall (eps : R) (V Rs J H L W : Type) (no : nlops R V Rs J H) (ro : vops R Rs)
    (apJ : J -> V -> Rs) (apH : H -> V -> V), nl_laws eps no ro apJ apH ->
  forall (xt : exts V Rs J H L) (rj : V -> Rs -> option J -> W -> outcome unit * (Rs * option J * W))
    (F : V -> Rs) (DF : V -> J), computes rj F DF ->
  forall (wr : Rs -> Rs) (wj : J -> J), weights_ok xt wr wj nothing ->
  linear_ok xt (normal_exact apH) (qr_exact no apJ) (newton_exact apJ) anything ->
  forall tag (s : reg R V Rs J H L) (w : W) (s' : reg R V Rs J H L) (w' : W),
  exec rj (compute_correction (Rops eps) no xt tag) (s, w) = (Ok tt, (s', w')) ->
  tag = GaussNewton \/ tag = GaussNewtonQr ->
  let m c := model_residual ro apJ (DF (g_x s)) (F (g_x s)) c in
  (forall e, n_rnorm no (m (g_c s')) <= n_rnorm no (m e))%R /\
  (n_jtr no (DF (g_x s)) (F (g_x s)) <> vzero (n_vo no) ->
   (n_dot no (n_jtr no (DF (g_x s)) (F (g_x s))) (g_c s') < 0)%R).
Proof. exact @gn_minimises. Qed.
Print Assumptions C30_gauss_newton.

Theorem C30_qr_is_normal_equations :
  forall (eps : R) (V Rs J H L W : Type) (no : nlops R V Rs J H) (ro : vops R Rs)
    (apJ : J -> V -> Rs) (apH : H -> V -> V), nl_laws eps no ro apJ apH ->
  forall (xt : exts V Rs J H L) (rj : V -> Rs -> option J -> W -> outcome unit * (Rs * option J * W))
    (F : V -> Rs) (DF : V -> J), computes rj F DF ->
  forall (wr : Rs -> Rs) (wj : J -> J), weights_ok xt wr wj nothing ->
  linear_ok xt (normal_exact apH) (qr_exact no apJ) (newton_exact apJ) anything ->
  forall (s : reg R V Rs J H L) (w : W) s1' w1 (t : reg R V Rs J H L) u t1 u1,
  full_rank no ro apJ (DF (g_x s)) -> g_x t = g_x s ->
  exec rj (compute_correction (Rops eps) no xt GaussNewton) (s, w) = (Ok tt, (s1', w1)) ->
  exec rj (compute_correction (Rops eps) no xt GaussNewtonQr) (t, u) = (Ok tt, (t1, u1)) -> g_c t1 = g_c s1'.
Proof. exact @qr_same. Qed.
Print Assumptions C30_qr_is_normal_equations.

Theorem C30_weighted :
  forall (eps : R) (V Rs J H L W : Type) (no : nlops R V Rs J H) (ro : vops R Rs)
    (apJ : J -> V -> Rs) (apH : H -> V -> V), nl_laws eps no ro apJ apH ->
  forall (xt : exts V Rs J H L) (rj : V -> Rs -> option J -> W -> outcome unit * (Rs * option J * W))
    (F : V -> Rs) (DF : V -> J), computes rj F DF ->
  forall (wr : Rs -> Rs) (wj : J -> J), weights_ok xt wr wj nothing ->
  linear_ok xt (normal_exact apH) (qr_exact no apJ) (newton_exact apJ) anything ->
  forall (s : reg R V Rs J H L) (w : W) (s' : reg R V Rs J H L) (w' : W),
  weighting ro apJ wr wj -> symmetric_psd no wr ->
  exec rj (compute_correction (Rops eps) no xt WeightedGN) (s, w) = (Ok tt, (s', w')) ->
  let m c := model_residual ro apJ (DF (g_x s)) (F (g_x s)) c in
  let g := n_jtr no (DF (g_x s)) (wr (F (g_x s))) in
  (forall e, n_rdot no (m (g_c s')) (wr (m (g_c s'))) <= n_rdot no (m e) (wr (m e)))%R /\
  (g <> vzero (n_vo no) -> (n_dot no g (g_c s') < 0)%R).
Proof. exact @weighted_minimises. Qed.
Print Assumptions C30_weighted.

Theorem C30_compact_weighted :
  forall (eps : R) (V Rs J H L W : Type) (no : nlops R V Rs J H) (ro : vops R Rs)
    (apJ : J -> V -> Rs) (apH : H -> V -> V), nl_laws eps no ro apJ apH ->
  forall (xt : exts V Rs J H L) (rj : V -> Rs -> option J -> W -> outcome unit * (Rs * option J * W))
    (F : V -> Rs) (DF : V -> J), computes rj F DF ->
  forall (wr : Rs -> Rs) (wj : J -> J), weights_ok xt wr wj nothing ->
  linear_ok xt (normal_exact apH) (qr_exact no apJ) (newton_exact apJ) anything ->
  forall (s : reg R V Rs J H L) (w : W) (s' : reg R V Rs J H L) (w' : W),
  weighting ro apJ wr wj ->
  exec rj (compute_correction (Rops eps) no xt CompactWeightedGN) (s, w) = (Ok tt, (s', w')) ->
  let m c := model_residual ro apJ (DF (g_x s)) (F (g_x s)) c in
  let g := n_jtr no (wj (DF (g_x s))) (wr (F (g_x s))) in
  (forall e, n_rnorm no (wr (m (g_c s'))) <= n_rnorm no (wr (m e)))%R /\
  (g <> vzero (n_vo no) -> (n_dot no g (g_c s') < 0)%R).
Proof. exact @compact_minimises. Qed.
Print Assumptions C30_compact_weighted.

Theorem C30_levenberg_marquardt :
  forall (eps : R) (V Rs J H L W : Type) (no : nlops R V Rs J H) (ro : vops R Rs)
    (apJ : J -> V -> Rs) (apH : H -> V -> V), nl_laws eps no ro apJ apH ->
  forall (xt : exts V Rs J H L) (rj : V -> Rs -> option J -> W -> outcome unit * (Rs * option J * W))
    (F : V -> Rs) (DF : V -> J), computes rj F DF ->
  forall (wr : Rs -> Rs) (wj : J -> J), weights_ok xt wr wj nothing ->
  linear_ok xt (normal_exact apH) (qr_exact no apJ) (newton_exact apJ) anything ->
  forall (s : reg R V Rs J H L) (w : W) (s' : reg R V Rs J H L) (w' : W),
  (0 <= g_damp s)%R ->
  exec rj (compute_correction (Rops eps) no xt LevMar) (s, w) = (Ok tt, (s', w')) ->
  let q c := (half_square no (model_residual ro apJ (DF (g_x s)) (F (g_x s)) c) +
              g_damp s / 2 * n_dot no c (n_diagmul no (n_jtj no (DF (g_x s)) (DF (g_x s))) c))%R in
  forall e, (q (g_c s') <= q e)%R.
Proof. exact @lm_minimises. Qed.
Print Assumptions C30_levenberg_marquardt.

Theorem C30_identity_weight :
  forall (eps : R) (V Rs J H L L2 W : Type) (no : nlops R V Rs J H) (ro : vops R Rs)
    (apJ : J -> V -> Rs) (apH : H -> V -> V), nl_laws eps no ro apJ apH ->
  forall (xt : exts V Rs J H L) (xt2 : exts V Rs J H L2)
    (rj : V -> Rs -> option J -> W -> outcome unit * (Rs * option J * W)) (F : V -> Rs) (DF : V -> J),
  computes rj F DF ->
  linear_ok xt (normal_exact apH) (qr_exact no apJ) (newton_exact apJ) anything ->
  linear_ok xt2 (normal_exact apH) (qr_exact no apJ) (newton_exact apJ) anything ->
  forall (wr : Rs -> Rs) (wj : J -> J) (s : reg R V Rs J H L) (w : W) s1' w1 (t : reg R V Rs J H L2) u t1 u1,
  weights_ok xt wr wj nothing -> weights_ok xt2 (fun r => r) (fun j => j) nothing ->
  full_rank no ro apJ (DF (g_x s)) -> g_x t = g_x s ->
  exec rj (compute_correction (Rops eps) no xt GaussNewton) (s, w) = (Ok tt, (s1', w1)) ->
  exec rj (compute_correction (Rops eps) no xt2 WeightedGN) (t, u) = (Ok tt, (t1, u1)) -> g_c t1 = g_c s1'.
Proof. exact @identity_same. Qed.
Print Assumptions C30_identity_weight.

Theorem C30_compact_is_weighted :
  forall (eps : R) (V Rs J H L L2 W : Type) (no : nlops R V Rs J H) (ro : vops R Rs)
    (apJ : J -> V -> Rs) (apH : H -> V -> V), nl_laws eps no ro apJ apH ->
  forall (xt : exts V Rs J H L) (xt2 : exts V Rs J H L2)
    (rj : V -> Rs -> option J -> W -> outcome unit * (Rs * option J * W)) (F : V -> Rs) (DF : V -> J),
  computes rj F DF ->
  linear_ok xt (normal_exact apH) (qr_exact no apJ) (newton_exact apJ) anything ->
  linear_ok xt2 (normal_exact apH) (qr_exact no apJ) (newton_exact apJ) anything ->
  forall (wr : Rs -> Rs) (wj : J -> J) (wt w2r : Rs -> Rs) (w2j : J -> J)
    (s : reg R V Rs J H L) (w : W) s1' w1 (t : reg R V Rs J H L2) u t1 u1,
  weights_ok xt wr wj nothing -> weights_ok xt2 w2r w2j nothing ->
  weighting ro apJ wr wj -> weighting ro apJ w2r w2j ->
  (forall r q, n_rdot no (wt r) q = n_rdot no r (wr q)) -> (forall r, w2r r = wt (wr r)) ->
  full_rank no ro apJ (wj (DF (g_x s))) -> g_x t = g_x s ->
  exec rj (compute_correction (Rops eps) no xt CompactWeightedGN) (s, w) = (Ok tt, (s1', w1)) ->
  exec rj (compute_correction (Rops eps) no xt2 WeightedGN) (t, u) = (Ok tt, (t1, u1)) -> g_c t1 = g_c s1'.
Proof. exact @compact_same. Qed.
Print Assumptions C30_compact_is_weighted.

(** C31. One line: the criterion was met at the initial state, which is returned. *)
Theorem C31_newton :
  forall (eps : R) (V Rs J H L W : Type) (no : nlops R V Rs J H) (ro : vops R Rs)
    (apJ : J -> V -> Rs) (apH : H -> V -> V), nl_laws eps no ro apJ apH ->
  forall (xt : exts V Rs J H L) (rj : V -> Rs -> option J -> W -> outcome unit * (Rs * option J * W))
    (A : J) (b : Rs), computes rj (affine ro apJ A b) (fun _ => A) ->
  linear_ok xt (if_solvable (normal_exact apH)) (if_solvable (qr_exact no apJ)) (if_solvable (newton_exact apJ)) nothing ->
  full_rank no ro apJ A ->
  forall cf (s : reg R V Rs J H L) (w : W) r (s' : reg R V Rs J H L) (w' : W),
  (forall r0, exists d, apJ A d = r0) ->
  root_object (Rops eps) s -> root_supported cf -> f_update cf = UStandard -> (0 < f_tol cf)%R ->
  2 <= f_max cf < int32_max ->
  exec rj (root_solve (Rops eps) no xt cf) (s, w) = (r, (s', w')) ->
  exists ls, g_log s' = g_log s ++ ls /\ r = Ok tt /\
    (length ls = 1%nat /\ g_x s' = g_x s \/ length ls = 2%nat /\ affine ro apJ A b (g_x s') = vzero ro) /\
    exists a l, ls = a ++ [l] /\ l_state l = g_x s' /\ line_met (Rops eps) cf l.
Proof. exact @newton_affine. Qed.
Print Assumptions C31_newton.

Theorem C31_gauss_newton :
  forall (eps : R) (V Rs J H L W : Type) (no : nlops R V Rs J H) (ro : vops R Rs)
    (apJ : J -> V -> Rs) (apH : H -> V -> V), nl_laws eps no ro apJ apH ->
  forall (xt : exts V Rs J H L) (rj : V -> Rs -> option J -> W -> outcome unit * (Rs * option J * W))
    (A : J) (b : Rs), computes rj (affine ro apJ A b) (fun _ => A) ->
  linear_ok xt (if_solvable (normal_exact apH)) (if_solvable (qr_exact no apJ)) (if_solvable (newton_exact apJ)) nothing ->
  full_rank no ro apJ A ->
  forall (wr : Rs -> Rs) (wj : J -> J), weights_ok xt wr wj nothing ->
  forall tag cf (s : reg R V Rs J H L) (w : W) r (s' : reg R V Rs J H L) (w' : W),
  (forall r0, exists d, match tag with
                        | GaussNewtonQr => qr_exact no apJ A r0 d
                        | _ => normal_exact apH (n_jtj no A A) (n_jtr no A r0) d
                        end) ->
  ls_object (Rops eps) s -> tag = GaussNewton \/ tag = GaussNewtonQr -> f_update cf = UStandard ->
  f_stop cf = WhenAbsCorrection \/ f_stop cf = WhenRelCorrection \/ f_stop cf = WhenAbsGradient \/ f_stop cf = WhenRelGradient ->
  (0 < f_tol cf)%R -> 2 <= f_max cf < int32_max ->
  exec rj (ls_solve (Rops eps) no xt tag cf) (s, w) = (r, (s', w')) ->
  exists ls, g_log s' = g_log s ++ ls /\ r = Ok tt /\
    (length ls = 1%nat /\ g_x s' = g_x s \/
     length ls = 2%nat /\ (forall y, n_rnorm no (affine ro apJ A b (g_x s')) <= n_rnorm no (affine ro apJ A b y))%R) /\
    exists a l, ls = a ++ [l] /\ l_state l = g_x s' /\ line_met (Rops eps) cf l.
Proof. exact @gn_affine. Qed.
Print Assumptions C31_gauss_newton.

(** C32. *)
Theorem C32_lookup :
  forall (S : Type) (o : sops S) (l : list diag) (rs : list (idiag * S * bool)),
  (forall r, In r rs -> exists d, In d l /\ fst (about d) = fst (fst r)) ->
  exists c, record_all o (make_container o l) rs = Ok c /\
    (forall d, In d l \/ d = CorrectionAbs ->
       exists x, dc_at c d = Ok x /\ forall v, stands_for o d rs v -> d_value d x = v) /\
    (forall d, ~ (In d l \/ d = CorrectionAbs) -> dc_at c d = Throw EOutOfRange).
Proof. exact @lookup_right. Qed.
Print Assumptions C32_lookup.

Theorem C32_printed :
  forall (S : Type) (o : sops S) (l : list diag) (rs : list (idiag * S * bool)) c,
  NoDup l -> In CorrectionAbs l ->
  (forall r, In r rs -> exists d, In d l /\ fst (about d) = fst (fst r)) ->
  record_all o (make_container o l) rs = Ok c ->
  exists vs, log_line c = Ok vs /\ map fst vs = l /\
    forall d x v, In (d, x) vs -> stands_for o d rs v -> x = v.
Proof. exact @line_right. Qed.
Print Assumptions C32_printed.

Theorem C32_stop_criterion :
  forall st, st <> AfterMaxIters -> named st = Some (stop_diag st).
Proof. exact stop_named. Qed.
Print Assumptions C32_stop_criterion.

(** C49. The root finder tells; the least-squares solvers do not. *)
Theorem C49_newton :
  forall (S V R J H L W : Type) (o : sops S) (no : nlops S V R J H) (xt : exts V R J H L)
    (rj : V -> R -> option J -> W -> outcome unit * (R * option J * W))
    (cf : config S) (s : reg S V R J H L) (w : W) (s' : reg S V R J H L) (w' : W),
  root_object o s -> root_supported cf -> halving_ends o -> plain_system rj ->
  exec rj (root_solve o no xt cf) (s, w) = (Ok tt, (s', w')) ->
  exists ls, g_log s' = g_log s ++ ls /\ file_tells o cf ls (g_file s) (g_file s').
Proof. exact @root_file. Qed.
Print Assumptions C49_newton.

Theorem C49_least_squares_writes_nothing :
  forall (S V R J H L W : Type) (o : sops S) (no : nlops S V R J H) (xt : exts V R J H L)
    (rj : V -> R -> option J -> W -> outcome unit * (R * option J * W))
    (wr : R -> R) (wj : J -> J) (tag : lstag) (cf : config S)
    (s : reg S V R J H L) (w : W) (r : outcome unit) (s' : reg S V R J H L) (w' : W),
  ls_object o s -> ls_supported tag cf -> halving_ends o -> plain_system rj -> weights_ok xt wr wj no_linesearch ->
  exec rj (ls_solve o no xt tag cf) (s, w) = (r, (s', w')) ->
  g_file s' = g_file s.
Proof. exact @ls_no_file. Qed.
Print Assumptions C49_least_squares_writes_nothing.

Theorem C49_least_squares_refuted :
  exists s' w',
  exec (sys1 Fq DFq) (ls_solve QcS (n1 QcS) (x1 QcS) GaussNewton (cfq UStandard 1)) (reg1 QcS ls_diags (q 0), tt) = (Ok tt, (s', w')) /\
  g_x s' = q (-1) /\ g_file s' = None /\ forall l, In l (g_log s') -> ~ line_met QcS (cfq UStandard 1) l.
Proof. exact c49_witness. Qed.
Print Assumptions C49_least_squares_refuted.

(** C50. *)
Theorem C50_absolute_residual_partial :
  forall (S V R J H L W : Type) (o : sops S) (no : nlops S V R J H) (xt : exts V R J H L)
    (rj : V -> R -> option J -> W -> outcome unit * (R * option J * W))
    (F : V -> R) (DF : V -> J) (glin : H -> V -> V -> Prop) (gqr gnewt : J -> R -> V -> Prop)
    (cf : config S) (s : reg S V R J H L) (w : W) (r : outcome unit) (s' : reg S V R J H L) (w' : W),
  root_object o s -> root_supported cf -> halving_ends o -> computes rj F DF -> linear_ok xt glin gqr gnewt nothing ->
  f_stop cf = WhenAbsResidual -> 1 <= f_max cf -> sltb o (n_rnorm no (F (g_x s))) (f_tol cf) = true ->
  exec rj (root_solve o no xt cf) (s, w) = (r, (s', w')) ->
  r = Ok tt /\ g_x s' = g_x s /\ g_file s' = g_file s /\ exists l, g_log s' = g_log s ++ [l].
Proof. exact @root_at_start. Qed.
Print Assumptions C50_absolute_residual_partial.

Theorem C50_relative_refuted :
  forall st, st = WhenRelResidual \/ st = WhenRelCorrection ->
  exists s' w',
  exec (sys1 (fun x => x) (fun _ => s1 F64)) (root_solve F64 (n1 F64) (x1 F64) (cff st)) (reg1 F64 root_diags f0, tt)
    = (Ok tt, (s', w')) /\
  length (g_log s') = 100%nat /\ Forall (fun l => is_zero (l_state l) = true) (g_log s') /\
  g_file s' = Some RMaxIters.
Proof. exact c50_witness. Qed.
Print Assumptions C50_relative_refuted.

(** C51. y' = -y^2 with one Newton iteration: the residual at the accepted state is 1/9. *)
Theorem C51_refuted :
  exists g',
  implicit_step QcS (policy_std QcS (self_v QcS) (self_v QcS) (q 1) uq)
    (newton_q 1 (q 1 / q 1000000) WhenAbsResidual) BDF1 (q 0) 1 (q 1) (stepper_q (q 1)) = (Ok tt, g') /\
  t_y g' = (q 2 / q 3)%Qc /\
  bdf1_R QcS (self_v QcS) (q 1) (q 1) (- (t_y g' * t_y g'))%Qc (t_y g') = (q 1 / q 9)%Qc.
Proof. exact c51_witness. Qed.
Print Assumptions C51_refuted.

(** C52. *)
Theorem C52_newton_partial :
  forall (S V R J H L W : Type) (o : sops S) (no : nlops S V R J H) (xt : exts V R J H L)
    (rj : V -> R -> option J -> W -> outcome unit * (R * option J * W))
    (glin : H -> V -> V -> Prop) (gqr gnewt : J -> R -> V -> Prop)
    (cf : config S) (s : reg S V R J H L) (w : W) (r : outcome unit) (s' : reg S V R J H L) (w' : W),
  root_object o s -> root_supported cf -> f_update cf = UStandard -> f_max cf < int32_max -> halving_ends o ->
  fails_with_residual rj -> linear_ok xt glin gqr gnewt nothing ->
  exec rj (root_solve o no xt cf) (s, w) = (r, (s', w')) ->
  r = Ok tt \/ r = Throw ENonlinearSolve /\ exists e, residual_exn e /\ g_file s' = Some (RError e).
Proof. exact @root_failures. Qed.
Print Assumptions C52_newton_partial.

Theorem C52_least_squares_partial :
  forall (S V R J H L W : Type) (o : sops S) (no : nlops S V R J H) (xt : exts V R J H L)
    (rj : V -> R -> option J -> W -> outcome unit * (R * option J * W))
    (wr : R -> R) (wj : J -> J) (glin : H -> V -> V -> Prop) (gqr gnewt : J -> R -> V -> Prop)
    (tag : lstag) (cf : config S) (s : reg S V R J H L) (w : W) (r : outcome unit) (s' : reg S V R J H L) (w' : W),
  ls_object o s -> f_update cf = UStandard -> f_max cf < int32_max -> halving_ends o ->
  fails_with_residual rj -> weights_ok xt wr wj residual_failures -> linear_ok xt glin gqr gnewt nothing ->
  exec rj (ls_solve o no xt tag cf) (s, w) = (r, (s', w')) -> r = Ok tt \/ r = Throw ENonlinearSolve.
Proof. exact @ls_failures. Qed.
Print Assumptions C52_least_squares_partial.

Theorem C52_trial_state_refuted :
  fst (exec sys_trial (root_solve QcS (n1 QcS) (x1 QcS) (cfq UBacktrack 5)) (reg1 QcS root_diags (q 0), tt))
    = Throw EResidualEvaluation /\
  fst (exec sys_trial (ls_solve QcS (n1 QcS) (x1 QcS) GaussNewton (cfq UBacktrack 5)) (reg1 QcS ls_diags (q 0), tt))
    = Throw EResidualEvaluation.
Proof. exact run_trial_value. Qed.
Print Assumptions C52_trial_state_refuted.

(** C53. *)
Theorem C53_bdf1 :
  forall (eps : R) (V J H L W : Type) (no : nlops R V V J H) (ap : J -> V -> V) (apH : H -> V -> V),
  nl_laws eps no (n_vo no) ap apH ->
  forall xt : exts V V J H L,
  linear_ok xt (if_solvable (normal_exact apH)) (if_solvable (qr_exact no ap)) (if_solvable (newton_exact ap)) nothing ->
  forall (jo : vops R J) (jid : J), vspace (Rops eps) jo -> matrices (n_vo no) jo jid ap ->
  forall (u : isys (S:=R) (V:=V) (J:=J) (W:=W)) (A : R -> J) (b : R -> V) (cf : config R),
  f_update cf = UStandard -> f_stop cf = WhenRelCorrection \/ f_stop cf = WhenRelResidual ->
  (0 < f_tol cf <= 1)%R -> 2 <= f_max cf < int32_max ->
  linear_ode (n_vo no) ap u A b ->
  forall (t : R) (k : Z) (dt : R) g (a : V) (st : list V),
  t_st g = a :: st -> root_object (Rops eps) (t_ws g) ->
  invertible (n_vo no) ap (scheme_J (Rops eps) jo jid 1%R dt (A (t + dt)%R)) ->
  exists g',
    implicit_step (Rops eps) (policy_std (Rops eps) (n_vo no) jo jid u)
      (as_solver (root_solve (Rops eps) no xt cf)) BDF1 t k dt g = (Ok tt, g') /\
    root_object (Rops eps) (t_ws g') /\ t_st g' = t_y g :: st /\
    bdf1_eq (n_vo no) (fun y => linear_rhs (n_vo no) ap A b y (t + dt)%R) (t_y g) dt (t_y g').
Proof. exact @step_bdf1. Qed.
Print Assumptions C53_bdf1.

Theorem C53_bdf2 :
  forall (eps : R) (V J H L W : Type) (no : nlops R V V J H) (ap : J -> V -> V) (apH : H -> V -> V),
  nl_laws eps no (n_vo no) ap apH ->
  forall xt : exts V V J H L,
  linear_ok xt (if_solvable (normal_exact apH)) (if_solvable (qr_exact no ap)) (if_solvable (newton_exact ap)) nothing ->
  forall (jo : vops R J) (jid : J), vspace (Rops eps) jo -> matrices (n_vo no) jo jid ap ->
  forall (u : isys (S:=R) (V:=V) (J:=J) (W:=W)) (A : R -> J) (b : R -> V) (cf : config R),
  f_update cf = UStandard -> f_stop cf = WhenRelCorrection \/ f_stop cf = WhenRelResidual ->
  (0 < f_tol cf <= 1)%R -> 2 <= f_max cf < int32_max ->
  linear_ode (n_vo no) ap u A b ->
  forall (t : R) (k : Z) (dt : R) g (y_nm1 old : V) (st : list V),
  t_st g = y_nm1 :: old :: st -> root_object (Rops eps) (t_ws g) ->
  invertible (n_vo no) ap
    (if k =? 1 then scheme_J (Rops eps) jo jid 1%R dt (A (t + dt)%R)
     else scheme_J (Rops eps) jo jid (frac (Rops eps) 2 3) dt (A (t + dt)%R)) ->
  exists g',
    implicit_step (Rops eps) (policy_std (Rops eps) (n_vo no) jo jid u)
      (as_solver (root_solve (Rops eps) no xt cf)) BDF2 t k dt g = (Ok tt, g') /\
    root_object (Rops eps) (t_ws g') /\ t_st g' = t_y g :: (if k =? 1 then old else y_nm1) :: st /\
    if k =? 1
    then bdf1_eq (n_vo no) (fun y => linear_rhs (n_vo no) ap A b y (t + dt)%R) (t_y g) dt (t_y g')
    else bdf2_eq (Rops eps) (n_vo no) (fun y => linear_rhs (n_vo no) ap A b y (t + dt)%R) (t_y g) y_nm1 dt (t_y g').
Proof. exact @step_bdf2. Qed.
Print Assumptions C53_bdf2.

Theorem C53_bdf1_mass_matrix :
  forall (eps : R) (V J H L W : Type) (no : nlops R V V J H) (ap : J -> V -> V) (apH : H -> V -> V),
  nl_laws eps no (n_vo no) ap apH ->
  forall xt : exts V V J H L,
  linear_ok xt (if_solvable (normal_exact apH)) (if_solvable (qr_exact no ap)) (if_solvable (newton_exact ap)) nothing ->
  forall (jo : vops R J) (jid : J), vspace (Rops eps) jo -> matrices (n_vo no) jo jid ap ->
  forall (u : isys (S:=R) (V:=V) (J:=J) (W:=W)) (A : R -> J) (b : R -> V) (cf : config R),
  f_update cf = UStandard -> f_stop cf = WhenRelCorrection \/ f_stop cf = WhenRelResidual ->
  (0 < f_tol cf <= 1)%R -> 2 <= f_max cf < int32_max ->
  forall M : R -> J, linear_ode_mm (n_vo no) ap u M A b ->
  forall (t : R) (k : Z) (dt : R) g (a : V) (st : list V),
  t_st g = a :: st -> root_object (Rops eps) (t_ws g) ->
  invertible (n_vo no) ap (scheme_J (Rops eps) jo (M (t + dt)%R) 1%R dt (A (t + dt)%R)) ->
  exists g',
    implicit_step (Rops eps) (policy_mm (Rops eps) (n_vo no) jo ap u)
      (as_solver (root_solve (Rops eps) no xt cf)) BDF1 t k dt g = (Ok tt, g') /\
    root_object (Rops eps) (t_ws g') /\ t_st g' = t_y g :: st /\
    ap (M (t + dt)%R) (vminus (Rops eps) (n_vo no) (t_y g') (t_y g)) =
    vscale (n_vo no) dt (linear_rhs (n_vo no) ap A b (t_y g') (t + dt)%R).
Proof. exact @step_bdf1_mm. Qed.
Print Assumptions C53_bdf1_mass_matrix.

Theorem C53_bdf2_mass_matrix :
  forall (eps : R) (V J H L W : Type) (no : nlops R V V J H) (ap : J -> V -> V) (apH : H -> V -> V),
  nl_laws eps no (n_vo no) ap apH ->
  forall xt : exts V V J H L,
  linear_ok xt (if_solvable (normal_exact apH)) (if_solvable (qr_exact no ap)) (if_solvable (newton_exact ap)) nothing ->
  forall (jo : vops R J) (jid : J), vspace (Rops eps) jo -> matrices (n_vo no) jo jid ap ->
  forall (u : isys (S:=R) (V:=V) (J:=J) (W:=W)) (A : R -> J) (b : R -> V) (cf : config R),
  f_update cf = UStandard -> f_stop cf = WhenRelCorrection \/ f_stop cf = WhenRelResidual ->
  (0 < f_tol cf <= 1)%R -> 2 <= f_max cf < int32_max ->
  forall M : R -> J, linear_ode_mm (n_vo no) ap u M A b ->
  forall (t : R) (k : Z) (dt : R) g (y_nm1 old : V) (st : list V),
  t_st g = y_nm1 :: old :: st -> root_object (Rops eps) (t_ws g) ->
  invertible (n_vo no) ap
    (if k =? 1 then scheme_J (Rops eps) jo (M (t + dt)%R) 1%R dt (A (t + dt)%R)
     else scheme_J (Rops eps) jo (M (t + dt)%R) (frac (Rops eps) 2 3) dt (A (t + dt)%R)) ->
  exists g',
    implicit_step (Rops eps) (policy_mm (Rops eps) (n_vo no) jo ap u)
      (as_solver (root_solve (Rops eps) no xt cf)) BDF2 t k dt g = (Ok tt, g') /\
    root_object (Rops eps) (t_ws g') /\ t_st g' = t_y g :: (if k =? 1 then old else y_nm1) :: st /\
    if k =? 1
    then ap (M (t + dt)%R) (vminus (Rops eps) (n_vo no) (t_y g') (t_y g)) =
         vscale (n_vo no) dt (linear_rhs (n_vo no) ap A b (t_y g') (t + dt)%R)
    else ap (M (t + dt)%R)
           (vadd (n_vo no) (vminus (Rops eps) (n_vo no) (t_y g') (vscale (n_vo no) (frac (Rops eps) 4 3) (t_y g)))
                 (vscale (n_vo no) (frac (Rops eps) 1 3) y_nm1)) =
         vscale (n_vo no) (frac (Rops eps) 2 3 * dt)%R (linear_rhs (n_vo no) ap A b (t_y g') (t + dt)%R).
Proof. exact @step_bdf2_mm. Qed.
Print Assumptions C53_bdf2_mass_matrix.

(** C55. *)
Theorem C55_refuted :
  forall (cf : config Qc) (F DF : Qc -> Qc) (x : Qc),
  f_update cf = UStandard -> f_stop cf = WhenAbsCorrection -> f_tol cf = q 0 -> f_max cf = int32_max ->
  exists s' w', exec (sys1 F DF) (root_solve QcS (n1 QcS) (x1 QcS) cf) (reg1 QcS root_diags x, tt)
    = (Undef UIntOverflow, (s', w')).
Proof. exact int_max_overflows_cf. Qed.
Print Assumptions C55_refuted.

(** C56. y' = 1, default settings, step size 1e-7: the state stays 0. *)
Theorem C56_refuted :
  exists g',
  implicit_step QcS (policy_std QcS (self_v QcS) (self_v QcS) (q 1) uone) newton_default BDF1 (q 0) 1 small_dt (stepper_q (q 0))
    = (Ok tt, g') /\ t_y g' = q 0.
Proof. exact c56_witness. Qed.
Print Assumptions C56_refuted.

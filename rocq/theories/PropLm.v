(** Property C92: statements only. Spec: [LmSpec.v], and [NonlinSpec.v], [NonlinLaws.v] and [NewtonSpec.v]. *)
From Coq Require Import Reals ZArith List.
From Verif Require Import Base RInst Laws NonlinDiag NonlinModel NonlinWp NonlinSpec NonlinLaws NewtonSpec LmSpec Tuples LmProofs LmClaims LmMats.
Import ListNotations.
Local Open Scope R_scope.

Theorem C92_converges :
  forall (eps : R) (V Rs J H L W : Type) (no : nlops R V Rs J H) (ro : vops R Rs)
    (apJ : J -> V -> Rs) (apH : H -> V -> V), nl_laws eps no ro apJ apH ->
  forall (xt : exts V Rs J H L) (rj : V -> Rs -> option J -> W -> outcome unit * (Rs * option J * W))
    (A : J) (b : Rs), computes rj (affine ro apJ A b) (fun _ => A) ->
  forall (wr : Rs -> Rs) (wj : J -> J), weights_ok xt wr wj nothing ->
  linear_ok xt (if_solvable (normal_exact apH)) (if_solvable (qr_exact no apJ)) (if_solvable (newton_exact apJ)) nothing ->
  forall (xs : V) (lam : R), lm_problem no ro apJ apH A b xs lam ->
  forall (cf : config R) (s : reg R V Rs J H L) (w : W) (r : outcome unit) (s' : reg R V Rs J H L) (w' : W),
  ls_object (Rops eps) s -> f_update cf = ULMSchedule1 \/ f_update cf = ULMSchedule2 -> (0 <= f_max cf < int32_max)%Z ->
  exec rj (ls_solve (Rops eps) no xt LevMar cf) (s, w) = (r, (s', w')) ->
  exists ls, g_log s' = g_log s ++ ls /\ r = Ok tt /\ dies_out no ro apJ eps cf A b xs lam (g_x s) ls (g_x s').
Proof. exact @lm_converges. Qed.
Print Assumptions C92_converges.

(** The criterion is met after at most [n] corrections, and the state returned is as close to the solution as the tolerance asks. *)
Theorem C92_finds :
  forall (eps : R) (V Rs J H L W : Type) (no : nlops R V Rs J H) (ro : vops R Rs)
    (apJ : J -> V -> Rs) (apH : H -> V -> V), nl_laws eps no ro apJ apH ->
  forall (xt : exts V Rs J H L) (rj : V -> Rs -> option J -> W -> outcome unit * (Rs * option J * W))
    (A : J) (b : Rs), computes rj (affine ro apJ A b) (fun _ => A) ->
  forall (wr : Rs -> Rs) (wj : J -> J), weights_ok xt wr wj nothing ->
  linear_ok xt (if_solvable (normal_exact apH)) (if_solvable (qr_exact no apJ)) (if_solvable (newton_exact apJ)) nothing ->
  forall (xs : V) (lam : R), lm_problem no ro apJ apH A b xs lam ->
  forall (cf : config R) (s : reg R V Rs J H L) (w : W) (r : outcome unit) (s' : reg R V Rs J H L) (w' : W),
  ls_object (Rops eps) s -> f_update cf = ULMSchedule1 \/ f_update cf = ULMSchedule2 -> (0 <= f_max cf < int32_max)%Z ->
  exec rj (ls_solve (Rops eps) no xt LevMar cf) (s, w) = (r, (s', w')) ->
  forall lo hi M near far : R, lm_sized no apJ A lo hi M -> lm_judged (f_stop cf) lam lo hi M near far ->
  forall n : nat, near * (left_after (f_update cf) lam n * scaled no A (from no xs (g_x s))) < f_tol cf -> (Z.of_nat n < f_max cf)%Z ->
  exists a l, g_log s' = g_log s ++ a ++ [l] /\ l_state l = g_x s' /\ line_met (Rops eps) cf l /\ (length a <= n)%nat /\
    scaled no A (from no xs (g_x s')) <= far * f_tol cf.
Proof. exact @lm_finds. Qed.
Print Assumptions C92_finds.

(** Such an [n] exists for every tolerance: what is left is at most (1/(1+lam))^n. *)
Theorem C92_every_tolerance :
  forall (u : update) (lam e near tol : R), 0 < lam -> 0 < tol ->
  (forall n, left_after u lam n <= (1 / (1 + lam)) ^ n) /\ exists n, near * (left_after u lam n * e) < tol.
Proof. exact lm_every_tolerance. Qed.
Print Assumptions C92_every_tolerance.

(** For real matrices of any size independent columns are all that is needed: the state returned is near the solution of the least-squares problem. The solution [xs]
    and the factor [C] are the same for every solver, starting state and tolerance; the number of iterations [N] is the same for all solver objects. *)
Theorem C92_matrices :
  forall (eps : R) (m n : nat) (A : mat (S:=R) m n) (b : tup R m),
  let o := Rops eps in let no := tuple_ops o sqrt m n in let F := affine (tvec o m) (tapply o) A b in
  (forall v, tapply o A v = vzero (tvec o m) -> v = vzero (tvec o n)) ->
  exists (xs : tup R n) (C : R), (forall v, n_rnorm no (F xs) <= n_rnorm no (F v)) /\
  forall (L W : Type) (xt : exts (tup R n) (tup R m) (mat (S:=R) m n) (mat (S:=R) n n) L)
    (rj : tup R n -> tup R m -> option (mat (S:=R) m n) -> W -> outcome unit * (tup R m * option (mat (S:=R) m n) * W)),
  computes rj F (fun _ => A) ->
  forall wr wj, weights_ok xt wr wj nothing ->
  linear_ok xt (if_solvable (normal_exact (tapply o))) (if_solvable (qr_exact no (tapply o))) (if_solvable (newton_exact (tapply o))) nothing ->
  forall st u tol x0, st = WhenAbsCorrection \/ st = WhenAbsGradient -> u = ULMSchedule1 \/ u = ULMSchedule2 -> 0 < tol -> exists N : nat,
  forall (cf : config R) (s : reg R (tup R n) (tup R m) (mat (S:=R) m n) (mat (S:=R) n n) L) (w : W) (r : outcome unit) s' (w' : W),
  f_stop cf = st -> f_update cf = u -> f_tol cf = tol -> ls_object o s -> g_x s = x0 -> (Z.of_nat N < f_max cf < int32_max)%Z ->
  exec rj (ls_solve o no xt LevMar cf) (s, w) = (r, (s', w')) ->
  r = Ok tt /\ apart no (g_x s') xs <= C * tol /\
  exists a l, g_log s' = g_log s ++ a ++ [l] /\ l_state l = g_x s' /\ line_met o cf l /\ (length a <= N)%nat.
Proof. exact lm_matrices. Qed.
Print Assumptions C92_matrices.

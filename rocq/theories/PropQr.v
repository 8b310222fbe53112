(** C40, C57, C58: the modified Gram-Schmidt QR solver. *)
From Coq Require Import Reals ZArith List Bool.
From Verif Require Import Base RInst Laws NonlinDiag NonlinModel NonlinSpec NonlinLaws Tuples QrModel QrSpec QrProofs QrSolve QrExts QrEnd QrReuse.
Import ListNotations.
Local Open Scope R_scope.

(** C40. *)
Theorem C40_factorisation :
  forall (eps : R) (V : Type) (vo : vops R V) (dot : V -> V -> R), inner eps vo dot ->
  forall norm : V -> R, (forall v, norm v = sqrt (dot v v)) ->
  forall s : mgs R V, usable (Rops eps) s -> independent vo (mg_A s) ->
  exists B Q U, compute_thin (Rops eps) vo dot norm s = (Ok tt, mk_mgs B (Some Q) U) /\ is_qr vo dot (mg_A s) Q U /\
    usable (Rops eps) (mk_mgs B (Some Q) U) /\ length B = length (mg_A s).
Proof. exact @mgs_qr. Qed.
Print Assumptions C40_factorisation.

(** Q^T r and back substitution solve the least-squares problem. *)
Theorem C40_least_squares_solution :
  forall (eps : R) (m n : nat) wr wj (j : mat (S:=R) m n) (r : tup R m) v c l l1 q l2 d l3,
  let xt := mgs_exts eps m n wr wj false in
  full_rank (tuple_ops (Rops eps) sqrt m n) (tvec (Rops eps) m) (tapply (Rops eps)) j ->
  x_thin xt j l = (Ok tt, l1) -> x_qtr xt r v l1 = (Ok tt, (q, l2)) -> x_rsolve xt q c l2 = (Ok tt, (d, l3)) ->
  qr_exact (tuple_ops (Rops eps) sqrt m n) (tapply (Rops eps)) j r d.
Proof. exact qr_solves. Qed.
Print Assumptions C40_least_squares_solution.

Theorem C40_never_fails :
  forall (eps : R) (m n : nat) wr wj,
  let no := tuple_ops (Rops eps) sqrt m n in
  let ap := tapply (Rops eps) in
  linear_ok (mgs_exts eps m n wr wj false) (if_solvable (normal_exact ap)) (if_solvable (qr_exact no (tapply (Rops eps))))
    (if_solvable (newton_exact (tapply (Rops eps)))) nothing.
Proof. exact mgs_linear. Qed.
Print Assumptions C40_never_fails.

Theorem C40_gauss_newton :
  forall (eps : R) (m n : nat) wr wj (W : Type)
    (rj : tup R n -> tup R m -> option (mat (S:=R) m n) -> W -> outcome unit * (tup R m * option (mat (S:=R) m n) * W))
    (A : mat (S:=R) m n) (b : tup R m),
  let o := Rops eps in
  let no := tuple_ops o sqrt m n in
  let F := affine (tvec o m) (tapply o) A b in
  computes rj F (fun _ => A) -> full_rank no (tvec o m) (tapply o) A ->
  forall tag cf (s : reg R (tup R n) (tup R m) (mat (S:=R) m n) (mat (S:=R) n n) (object eps m n)) (w : W) r s' w',
  ls_object o s -> tag = GaussNewton \/ tag = GaussNewtonQr -> f_update cf = UStandard ->
  f_stop cf = WhenAbsCorrection \/ f_stop cf = WhenRelCorrection \/ f_stop cf = WhenAbsGradient \/ f_stop cf = WhenRelGradient ->
  0 < f_tol cf -> (2 <= f_max cf < int32_max)%Z ->
  exec rj (ls_solve o no (mgs_exts eps m n wr wj false) tag cf) (s, w) = (r, (s', w')) ->
  exists ls, g_log s' = g_log s ++ ls /\ r = Ok tt /\
    ((length ls = 1%nat /\ g_x s' = g_x s) \/
     (length ls = 2%nat /\ forall y, n_rnorm no (F (g_x s')) <= n_rnorm no (F y))) /\
    exists a l, ls = a ++ [l] /\ l_state l = g_x s' /\ line_met o cf l.
Proof. exact gn_mgs. Qed.
Print Assumptions C40_gauss_newton.

Theorem C40_newton :
  forall (eps : R) (n : nat) wr wj (W : Type)
    (rj : tup R n -> tup R n -> option (mat (S:=R) n n) -> W -> outcome unit * (tup R n * option (mat (S:=R) n n) * W))
    (A : mat (S:=R) n n) (b : tup R n),
  let o := Rops eps in
  let no := tuple_ops o sqrt n n in
  let F := affine (tvec o n) (tapply o) A b in
  computes rj F (fun _ => A) -> full_rank no (tvec o n) (tapply o) A ->
  forall cf (s : reg R (tup R n) (tup R n) (mat (S:=R) n n) (mat (S:=R) n n) (object eps n n)) (w : W) r s' w',
  root_object o s -> root_supported cf -> f_update cf = UStandard -> 0 < f_tol cf -> (2 <= f_max cf < int32_max)%Z ->
  exec rj (root_solve o no (mgs_exts eps n n wr wj false) cf) (s, w) = (r, (s', w')) ->
  exists ls, g_log s' = g_log s ++ ls /\ r = Ok tt /\
    ((length ls = 1%nat /\ g_x s' = g_x s) \/ (length ls = 2%nat /\ F (g_x s') = vzero (tvec o n))) /\
    exists a l, ls = a ++ [l] /\ l_state l = g_x s' /\ line_met o cf l.
Proof. exact newton_mgs. Qed.
Print Assumptions C40_newton.

(** C57. The caller's matrix is overwritten by orthogonal columns, and so is changed
    unless its columns were orthogonal. *)
Theorem C57_overwritten :
  forall (eps : R) (V : Type) (vo : vops R V) (dot : V -> V -> R), inner eps vo dot ->
  forall norm : V -> R, (forall v, norm v = sqrt (dot v v)) ->
  forall s : mgs R V, usable (Rops eps) s -> independent vo (mg_A s) ->
  exists B Q U, compute_thin (Rops eps) vo dot norm s = (Ok tt, mk_mgs B (Some Q) U) /\ length B = length (mg_A s) /\
    (forall i b p, nth_error B i = Some b -> nth_error Q i = Some p -> b = vscale vo (entry U i i) p) /\
    (forall i j b c, i <> j -> nth_error B i = Some b -> nth_error B j = Some c -> dot b c = 0).
Proof. exact @thin_overwrites. Qed.
Print Assumptions C57_overwritten.

Theorem C57_refuted :
  forall (eps : R) (V : Type) (vo : vops R V) (dot : V -> V -> R), inner eps vo dot ->
  forall norm : V -> R, (forall v, norm v = sqrt (dot v v)) ->
  forall (s s' : mgs R V), usable (Rops eps) s -> independent vo (mg_A s) -> compute_thin (Rops eps) vo dot norm s = (Ok tt, s') ->
  forall i j a b, i <> j -> nth_error (mg_A s) i = Some a -> nth_error (mg_A s) j = Some b -> dot a b <> 0 -> mg_A s' <> mg_A s.
Proof. exact @input_changed. Qed.
Print Assumptions C57_refuted.

(** C58. *)
Theorem C58_more_columns_refuted :
  forall (S V : Type) (o : sops S) (vo : vops S V) (dot : V -> V -> S) (norm : V -> S) (s : mgs S V) r s1 (A : list V),
  usable o s -> compute_thin o vo dot norm s = (r, s1) -> (length (mg_A s) < length A)%nat ->
  exists s', compute_thin o vo dot norm (mk_mgs A (mg_Q s1) (mg_R s1)) = (Undef UOutOfBounds, s').
Proof. exact @reuse_more. Qed.
Print Assumptions C58_more_columns_refuted.

Theorem C58_fewer_columns_refuted :
  forall (S V : Type) (o : sops S) (vo : vops S V) (dot : V -> V -> S) (norm : V -> S) (s : mgs S V) r s1 (A : list V),
  usable o s -> compute_thin o vo dot norm s = (r, s1) -> (length A < length (mg_A s))%nat ->
  exists B Q U, compute_thin o vo dot norm (mk_mgs A (mg_Q s1) (mg_R s1)) = (Ok tt, mk_mgs B (Some Q) U) /\ length Q <> length A.
Proof. exact @reuse_fewer. Qed.
Print Assumptions C58_fewer_columns_refuted.

Theorem C58_same_columns_partial :
  forall (eps : R) (V : Type) (vo : vops R V) (dot : V -> V -> R), inner eps vo dot ->
  forall norm : V -> R, (forall v, norm v = sqrt (dot v v)) ->
  forall (s : mgs R V) r s1 A, usable (Rops eps) s -> compute_thin (Rops eps) vo dot norm s = (r, s1) ->
  length A = length (mg_A s) -> independent vo A ->
  exists B Q U, compute_thin (Rops eps) vo dot norm (mk_mgs A (mg_Q s1) (mg_R s1)) = (Ok tt, mk_mgs B (Some Q) U) /\ is_qr vo dot A Q U.
Proof. exact @reuse_same. Qed.
Print Assumptions C58_same_columns_partial.

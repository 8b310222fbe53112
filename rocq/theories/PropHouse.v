(** C87, C88: the QR objects for Eigen matrices. *)
From Coq Require Import Reals ZArith List Bool.
From Verif Require Import Base RInst Laws NonlinDiag NonlinModel NonlinSpec NonlinLaws Tuples QrModel QrSpec QrSolve
  HouseModel HouseSpec HouseProofs HouseEnd HouseExts HouseInst.
Import ListNotations.
Local Open Scope R_scope.

(** C87. A factorisation never fails; what the object answers afterwards depends on the
    last matrix only. *)
Theorem C87_last_matrix :
  forall (S : Type) (o : sops S) (hh : dmat S -> dmat S * dmat S) (a : dmat S) (st : list (dmat S)) (h : house S), valid (st, h) ->
  exists g, compute_house o hh a (st, h) = (Ok tt, g) /\ valid g /\ same_answers o g (snd (compute_house o hh a ([], new_house))).
Proof. exact @last_matrix. Qed.
Print Assumptions C87_last_matrix.

Theorem C87_asking_changes_nothing :
  forall (S : Type) (o : sops S) (g : hst (S:=S)) (vin vout : list S),
  snd (q_factor g) = g /\ snd (apply_qt_house o vin vout g) = g /\ snd (solve_house o vin vout g) = g /\ snd (apply_rt_house o vin vout g) = g.
Proof. exact @asking. Qed.
Print Assumptions C87_asking_changes_nothing.

Theorem C87_before_first_factorisation :
  forall (S : Type) (o : sops S) (st : list (dmat S)) (vin vout : list S),
  fst (q_factor (st, new_house)) = Undef UNullDeref /\ fst (apply_qt_house o vin vout (st, new_house)) = Undef UNullDeref /\
  fst (solve_house o vin vout (st, new_house)) = Undef UNullDeref /\ fst (apply_rt_house o vin vout (st, new_house)) = Undef UNullDeref.
Proof. exact @unused. Qed.
Print Assumptions C87_before_first_factorisation.

Theorem C87_factors :
  forall (eps : R) (hh : dmat R -> dmat R * dmat R), householder eps hh ->
  forall (m n : nat) (j : mat (S:=R) m n),
  let o := Rops eps in
  full_rank (tuple_ops o sqrt m n) (tvec o m) (tapply o) j ->
  forall st h (r : tup R m) vout y, valid (st, h) -> length vout = n -> length y = n ->
  exists g (Q : mat (S:=R) m n) q, compute_house o hh (dense j) (st, h) = (Ok tt, g) /\
    q_factor g = (Ok (dense Q), g) /\ orthonormal (ddot eps m) (tlist Q) /\
    apply_qt_house o (tlist r) vout g = (Ok q, g) /\ q = map (fun c => ddot eps m c r) (tlist Q) /\
    apply_rt_house o q y g = (Ok (map (fun c => ddot eps m c r) (tlist j)), g).
Proof. exact house_transpose. Qed.
Print Assumptions C87_factors.

Theorem C87_least_squares :
  forall (eps : R) (hh : dmat R -> dmat R * dmat R), householder eps hh ->
  forall (m n : nat) (j : mat (S:=R) m n),
  let o := Rops eps in
  let norm := n_rnorm (tuple_ops o sqrt m n) in
  full_rank (tuple_ops o sqrt m n) (tvec o m) (tapply o) j ->
  forall st h (r : tup R m) vout y, valid (st, h) -> length vout = n -> length y = n ->
  exists g q d, compute_house o hh (dense j) (st, h) = (Ok tt, g) /\ apply_qt_house o (tlist r) vout g = (Ok q, g) /\
    solve_house o q y g = (Ok (tlist d), g) /\
    forall z, norm (vadd (tvec o m) (tapply o j d) (vscale (tvec o m) (-1) r)) <= norm (vadd (tvec o m) (tapply o j z) (vscale (tvec o m) (-1) r)).
Proof. exact house_least_squares. Qed.
Print Assumptions C87_least_squares.

Theorem C87_gauss_newton :
  forall (eps : R) (hh : dmat R -> dmat R * dmat R), householder eps hh ->
  forall (m n : nat) wr wj (W : Type)
    (rj : tup R n -> tup R m -> option (mat (S:=R) m n) -> W -> outcome unit * (tup R m * option (mat (S:=R) m n) * W))
    (A : mat (S:=R) m n) (b : tup R m),
  let o := Rops eps in
  let no := tuple_ops o sqrt m n in
  let F := affine (tvec o m) (tapply o) A b in
  computes rj F (fun _ => A) -> full_rank no (tvec o m) (tapply o) A ->
  forall cf (s : reg R (tup R n) (tup R m) (mat (S:=R) m n) (mat (S:=R) n n) hobject) (w : W) r s' w',
  ls_object o s -> f_update cf = UStandard ->
  f_stop cf = WhenAbsCorrection \/ f_stop cf = WhenRelCorrection \/ f_stop cf = WhenAbsGradient \/ f_stop cf = WhenRelGradient ->
  0 < f_tol cf -> (2 <= f_max cf < int32_max)%Z ->
  exec rj (ls_solve o no (house_exts eps hh m n wr wj) GaussNewtonQr cf) (s, w) = (r, (s', w')) ->
  exists ls, g_log s' = g_log s ++ ls /\ r = Ok tt /\
    ((length ls = 1%nat /\ g_x s' = g_x s) \/ (length ls = 2%nat /\ forall y, n_rnorm no (F (g_x s')) <= n_rnorm no (F y))) /\
    exists a l, ls = a ++ [l] /\ l_state l = g_x s' /\ line_met o cf l.
Proof. exact gn_house. Qed.
Print Assumptions C87_gauss_newton.

Theorem C87_tpetra :
  forall (S : Type) (o : sops S) (hh : dmat S -> dmat S * dmat S) (a : dmat S) (st : list (dmat S)) (t : thouse (S:=S)), valid (st, t_impl t) ->
  exists g, compute_thouse o hh a (st, t) = (Ok tt, g) /\ valid (fst g, t_impl (snd g)) /\
    same_answers_t o g (snd (compute_house o hh a ([], new_house))).
Proof. exact @tpetra_answers. Qed.
Print Assumptions C87_tpetra.

(** ... and is not changed by being asked. *)
Theorem C87_tpetra_asking :
  forall (S : Type) (o : sops S) (g : tst (S:=S)) vin vout,
  snd (q_factor_t g) = g /\ snd (apply_qt_thouse o vin vout g) = g /\ snd (solve_thouse o vin vout g) = g.
Proof. exact @asking_t. Qed.
Print Assumptions C87_tpetra_asking.

(** C88. A copy of the object factorises another matrix: do the answers of the original
    stay the same? False for every factorisation. *)
Theorem C88_copy_refuted :
  forall (eps : R) (hh : dmat R -> dmat R * dmat R), householder eps hh ->
  let o := Rops eps in
  ~ (forall (a b : dmat R) st h st1 h1 st2 h2, well_shaped a -> well_shaped b -> valid (st, h) ->
     compute_house o hh a (st, h) = (Ok tt, (st1, h1)) -> compute_house o hh b (st1, h1) = (Ok tt, (st2, h2)) ->
     same_answers o (st2, h1) (st1, h1)).
Proof. exact copy_refuted. Qed.
Print Assumptions C88_copy_refuted.

(** Does the original still solve its least-squares problem? *)
Theorem C88_solution_refuted :
  forall (eps : R) (hh : dmat R -> dmat R * dmat R), householder eps hh ->
  let o := Rops eps in
  ~ (forall m n (j b : mat (S:=R) m n) (r : tup R m) st h st1 h1 st2 h2 q d,
     let nn := tuple_ops o sqrt m n in
     full_rank nn (tvec o m) (tapply o) j -> full_rank nn (tvec o m) (tapply o) b -> valid (st, h) ->
     compute_house o hh (dense j) (st, h) = (Ok tt, (st1, h1)) -> compute_house o hh (dense b) (st1, h1) = (Ok tt, (st2, h2)) ->
     fst (apply_qt_house o (tlist r) (repeat 0 n) (st2, h1)) = Ok q ->
     fst (solve_house o q (repeat 0 n) (st2, h1)) = Ok (tlist d) ->
     forall z, n_rnorm nn (vadd (tvec o m) (tapply o j d) (vscale (tvec o m) (-1) r)) <=
               n_rnorm nn (vadd (tvec o m) (tapply o j z) (vscale (tvec o m) (-1) r))).
Proof. exact copy_solution_refuted. Qed.
Print Assumptions C88_solution_refuted.

(** Exactly when: one of the two sizes agrees. *)
Theorem C88_same_size :
  forall (S : Type) (o : sops S) (hh : dmat S -> dmat S * dmat S) (a b : dmat S) st h st1 h1, valid (st, h) ->
  compute_house o hh a (st, h) = (Ok tt, (st1, h1)) -> (dm_rows b = dm_rows a \/ dm_ncols b = dm_ncols a) ->
  exists st2 h2, compute_house o hh b (st1, h1) = (Ok tt, (st2, h2)) /\
    fst (q_factor (st2, h1)) = fst (q_factor (snd (compute_house o hh b ([], new_house)))).
Proof. exact @copy_same. Qed.
Print Assumptions C88_same_size.

Theorem C88_other_size_partial :
  forall (S : Type) (o : sops S) (hh : dmat S -> dmat S * dmat S) (a b : dmat S) st h st1 h1, valid (st, h) ->
  compute_house o hh a (st, h) = (Ok tt, (st1, h1)) -> dm_rows b <> dm_rows a -> dm_ncols b <> dm_ncols a ->
  exists st2 h2, compute_house o hh b (st1, h1) = (Ok tt, (st2, h2)) /\ same_answers o (st2, h1) (st1, h1).
Proof. exact @copy_other_size. Qed.
Print Assumptions C88_other_size_partial.

(** The triangular factor of the original is never touched. *)
Theorem C88_triangular_factor_kept :
  forall (S : Type) (o : sops S) (hh : dmat S -> dmat S * dmat S) (b : dmat S) st1 h1 e st2 h2 (vin y : list S),
  compute_house o hh b (st1, h1) = (e, (st2, h2)) ->
  fst (solve_house o vin y (st2, h1)) = fst (solve_house o vin y (st1, h1)) /\
  fst (apply_rt_house o vin y (st2, h1)) = fst (apply_rt_house o vin y (st1, h1)).
Proof. exact @copy_keeps_r. Qed.
Print Assumptions C88_triangular_factor_kept.

(** Objects made separately do not disturb each other. *)
Theorem C88_unrelated_objects :
  forall (S : Type) (o : sops S) (hh : dmat S -> dmat S * dmat S) (b : dmat S) (st : list (dmat S)) h h',
  valid (st, h) -> valid (st, h') -> h_Q h <> h_Q h' ->
  exists st2 h2, compute_house o hh b (st, h) = (Ok tt, (st2, h2)) /\ valid (st2, h') /\ same_answers o (st2, h') (st, h').
Proof. exact @unrelated. Qed.
Print Assumptions C88_unrelated_objects.

(** Copies of the object for Tpetra multivectors do not disturb each other. *)
Theorem C88_tpetra :
  forall (S : Type) (o : sops S) (hh : dmat S -> dmat S * dmat S) (b : dmat S) (st : list (dmat S)) (t : thouse (S:=S)), valid (st, t_impl t) ->
  exists st2 t2, compute_thouse o hh b (st, t) = (Ok tt, (st2, t2)) /\
    fst (q_factor_t (st2, t)) = fst (q_factor_t (st, t)) /\
    (forall vin y, fst (apply_qt_thouse o vin y (st2, t)) = fst (apply_qt_thouse o vin y (st, t))) /\
    (forall rhs y, fst (solve_thouse o rhs y (st2, t)) = fst (solve_thouse o rhs y (st, t))).
Proof. exact @tpetra_copy. Qed.
Print Assumptions C88_tpetra.

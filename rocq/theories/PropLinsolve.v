(** C70, C71, C72: linear solver objects. *)
From Coq Require Import ZArith List Bool.
From Verif Require Import Base Laws LinsolveModel LinsolveSpec LinsolveProofs LinsolveMore.
Import ListNotations.

(** C70: a direct solver object solves every system it is given, whatever it was
    used for before ([aux]: the object's memory after any history). *)
Theorem C70_getrs : forall S (o : sops S) lp asserts aux n A b y,
  lapack_ok o lp -> sized n A b y -> nonsingular o n (ent A) ->
  solved o (getrs_solve o lp asserts aux A b y) n A b.
Proof. intros S o lp asserts aux n A b y HL. exact (getrs_reuse o lp HL asserts aux n A b y). Qed.
Print Assumptions C70_getrs.

Theorem C70_potrs : forall S (o : sops S) lp asserts up aux n A b y,
  lapack_ok o lp -> sized n A b y -> symmetric n (ent A) -> positive_definite o n (ent A) ->
  solved o (potrs_solve o lp asserts up aux A b y) n A b.
Proof. intros S o lp asserts up aux n A b y HL. exact (potrs_reuse o lp HL asserts up aux n A b y). Qed.
Print Assumptions C70_potrs.

(** geqrf: true as long as no system is larger than the workspace of the first
    one. Missing: larger systems, see the next theorem. *)
Theorem C70_geqrf_partial : forall S (o : sops S) lp asserts A0 b0 y0 history n A b y,
  lapack_ok o lp ->
  Forall (fun c => let '(A', b', y') := c in
            sized (rows A') A' b' y' /\ nonsingular o (rows A') (ent A') /\
            rows A' <= lp_optimal lp (rows A0)) ((A0, b0, y0) :: history) ->
  n <= lp_optimal lp (rows A0) -> sized n A b y -> nonsingular o n (ent A) ->
  exists s, geqrf_run o lp asserts (gobj_new o) ((A0, b0, y0) :: history) = Done s /\
    solved o (geqrf_solve o lp asserts s A b y) n A b.
Proof.
  intros S o lp asserts A0 b0 y0 history n A b y HL.
  exact (geqrf_reuse o lp HL asserts A0 b0 y0 history n A b y).
Qed.
Print Assumptions C70_geqrf_partial.

(** geqrf, all sizes: false with every LAPACK. *)
Theorem C70_geqrf_refuted : forall S (o : sops S) lp asserts,
  sfield o -> lapack_ok o lp ->
  exists A0 b0 y0 n A b y s,
    geqrf_run o lp asserts (gobj_new o) [(A0, b0, y0)] = Done s /\
    solved o (geqrf_solve o lp asserts (gobj_new o) A0 b0 y0) 1 A0 b0 /\
    sized n A b y /\ nonsingular o n (ent A) /\
    ~ solved o (geqrf_solve o lp asserts s A b y) n A b /\
    (asserts = true \/ lp_stops lp = true -> geqrf_solve o lp asserts s A b y = Stopped) /\
    (asserts = false -> lp_stops lp = false ->
       exists s' y', geqrf_solve o lp asserts s A b y = Done (s', y') /\
         ~ solves o n (ent A) (at_ y') (at_ b)).
Proof.
  intros S o lp asserts HF HL. destruct (geqrf_larger o lp HL asserts HF) as (n & s & H).
  exists (wA0 o), (wb o 1), (wb o 1), n, (wA o n), (wb o n), (wb o n), s. exact H.
Qed.
Print Assumptions C70_geqrf_refuted.

(** C71: a system without solution is not solved silently. With assertions
    compiled in, the LU and Cholesky based objects end the program. *)
Theorem C71_debug_partial : forall S (o : sops S) lp aux n A b y,
  lapack_ok o lp -> sized n A b y ->
  ((forall z, ~ solves o n (ent A) z (at_ b)) -> getrs_solve o lp true aux A b y = Stopped) /\
  (forall up, (forall z, ~ solves o n (symm up (ent A)) z (at_ b)) ->
     potrs_solve o lp true up aux A b y = Stopped).
Proof.
  intros S o lp aux n A b y HL Hs. split.
  - exact (debug_stops o lp HL aux n A b y Hs).
  - intros up. exact (potrs_debug o lp HL true up aux n A b y eq_refl Hs).
Qed.
Print Assumptions C71_debug_partial.

(** The full statement is false: without assertions every Kokkos based object
    returns normally for a system that has no solution, the QR based one does so
    even with assertions. *)
Theorem C71_refuted : forall S (o : sops S) lp, sfield o -> lapack_ok o lp ->
  exists n A b y, sized n A b y /\ (forall z, ~ solves o n (ent A) z (at_ b)) /\
    (forall asserts, exists s' y', geqrf_solve o lp asserts (gobj_new o) A b y = Done (s', y')) /\
    (forall aux, exists s' y', getrs_solve o lp false aux A b y = Done (s', y')) /\
    (forall up aux, exists s' y', potrs_solve o lp false up aux A b y = Done (s', y')).
Proof. intros S o lp HF HL. exact (silent o HF lp HL). Qed.
Print Assumptions C71_refuted.

(** C72: solve(b,y) answers for the matrix last passed to resetLinearSystem.
    Direct solvers: for every script of resets, solves and changes of the
    caller's matrices. *)
Theorem C72_direct : forall S M F (d_compute : M -> F) d_solve (script : list (use S M)) m s a A b y,
  d_run d_compute d_solve m d_new script = Done s -> last_reset m script None = Some (a, A) ->
  exists A', A = Some A' /\ d_solve2 d_solve s b y = Done (d_solve (d_compute A') b).
Proof. intros. eapply d_answers; eassumption. Qed.
Print Assumptions C72_direct.

(** Iterative solvers: if the matrix still has the content it had at the reset,
    the native solver is run on it with the limit last set (100 by default,
    also when set after the reset) and the number of iterations reported is
    within that limit. Missing: a matrix changed in between. *)
Theorem C72_iterative_partial : forall S M P (i_prec : M -> P) i_solve (script : list (use S M)) m s a A b y,
  (forall n B p c, snd (fst (i_solve n B p c)) <= n) ->
  i_run i_prec i_solve m i_new script = Done s ->
  last_reset m script None = Some (a, Some A) -> after m script a = Some A ->
  exists s2 x k, i_solve2 i_solve (after m script) s b y = Done (s2, x) /\
    i_max s2 = limit script 100 /\ i_iterations s2 = Done k /\ k <= limit script 100 /\
    i_error s2 = Done (snd (i_solve (limit script 100) A (i_prec A) b)) /\
    x = fst (fst (i_solve (limit script 100) A (i_prec A) b)).
Proof. intros. eapply i_limit; eassumption. Qed.
Print Assumptions C72_iterative_partial.

(** solve(A, b, y) after any history: the answer is that of the native solver
    for A as it is now, also the answers of later calls solve(c, z). *)
Theorem C72_direct_with_matrix : forall S M F (d_compute : M -> F) d_solve (script : list (use S M)) m s a A b y,
  d_run d_compute d_solve m d_new script = Done s -> after m script a = Some A ->
  exists s2, d_solve3 d_compute d_solve s A b y = (Done (d_solve (d_compute A) b), s2) /\
    (forall c z, d_solve2 d_solve s2 c z = Done (d_solve (d_compute A) c)).
Proof. exact @d_answers3. Qed.
Print Assumptions C72_direct_with_matrix.
Theorem C72_iterative_with_matrix : forall S M P (i_prec : M -> P) i_solve (script : list (use S M)) m s a A b y,
  (forall n B p c, snd (fst (i_solve n B p c)) <= n) ->
  i_run i_prec i_solve m i_new script = Done s -> after m script a = Some A ->
  exists s2 x k, i_solve3 i_prec i_solve (after m script) s a b y = Done (s2, x) /\
    i_max s2 = limit script 100 /\ i_iterations s2 = Done k /\ k <= limit script 100 /\
    i_error s2 = Done (snd (i_solve (limit script 100) A (i_prec A) b)) /\
    x = fst (fst (i_solve (limit script 100) A (i_prec A) b)).
Proof. exact @i_limit3. Qed.
Print Assumptions C72_iterative_with_matrix.

(** Iterative solvers, in general: false even if the native solver is exact. *)
Theorem C72_iterative_refuted : forall S P (o : sops S) (i_prec : mtx S -> P) i_solve,
  sfield o ->
  (forall k n A p b, sized n A b b -> nonsingular o n (ent A) -> 1 <= k ->
     solves o n (ent A) (at_ (fst (fst (i_solve k A p b)))) (at_ b)) ->
  exists (m : memory (M:=mtx S)) script A n b y s,
    last_reset m script None = Some (0, Some A) /\ sized n A b b /\ nonsingular o n (ent A) /\
    i_run i_prec i_solve m i_new script = Done s /\
    exists s2 x, i_solve2 i_solve (after m script) s b y = Done (s2, x) /\
      ~ solves o n (ent A) (at_ x) (at_ b).
Proof. intros S P o i_prec i_solve HF. exact (changed_matrix o HF i_prec i_solve). Qed.
Print Assumptions C72_iterative_refuted.

(** The linear solver objects of the library as the linear solver of the nonlinear
    solvers. The nonlinear solvers hold a reference to the object and call its
    solve(A, b, y); here the vectors are tuples and the matrices tuples of columns. *)
From Coq Require Import Reals ZArith List Arith.
From Verif Require Import Base RInst NonlinDiag NonlinModel Tuples QrSolve LinsolveModel LinsolveSpec.
Import ListNotations.
Local Open Scope R_scope.

(** Below, geqrf, getrs, potrs_lower, potrs_upper and eigen_direct are
    solvers_linear/impl/solvers_linear_kokkos_direct_*_impl.hpp and
    solvers_linear/impl/solvers_linear_eigen_direct_impl.hpp. *)
(** The same vectors and matrices as the linear solvers see them *)
(* model only: a vector as it is passed to solve(A, b, y) *)
Definition as_vct {n} (v : tup R n) : vct R := mk_vct n (fun i => nth i (tlist v) 0).
(* model only: a matrix as it is passed *)
Definition as_mtx {m n} (a : mat (S:=R) m n) : mtx R :=
  mk_mtx m n (fun i j => nth i (tlist (nth j (tlist a) (tconst 0 m))) 0).
(* model only: y after solve(A, b, y) *)
Definition of_vct n (y : vct R) : tup R n := of_list 0 n (map (at_ y) (seq 0 n)).

Section Glue.
  Variable eps : R.
  Variable n : nat.
  (** solve(A, b, y) of the object, whose state is an [X]: it ends normally for every n x n
      system, n > 0 (in particular no [assert] stops it), stays usable ([fit]), and solves the
      system if its matrix is nonsingular and [asked] for *)
  Variable X : Type.
  (* solver.get() at solvers_nonlinear/impl/functions.hpp 352, 366 *)
  Definition solver := X -> mtx R -> vct R -> vct R -> ran (X * vct R).
  (* specification of solve(A, b, y), not code *)
  Definition serves (asked : (nat -> nat -> R) -> Prop) (fit : X -> Prop) (slv : solver) : Prop :=
    (0 < n)%nat /\ forall x A b y, fit x -> sized n A b y ->
    exists x' y', slv x A b y = Done (x', y') /\ fit x' /\ size y' = n /\
      (nonsingular (Rops eps) n (ent A) -> asked (ent A) -> solves (Rops eps) n (ent A) (at_ y') (at_ b)).

  Variable asked : (nat -> nat -> R) -> Prop.
  Variable fit : X -> Prop.
  Variable slv : solver.
  Hypothesis H : serves asked fit slv.
  Lemma stays_fit : forall x A b y x' y', fit x -> sized n A b y -> slv x A b y = Done (x', y') -> fit x'.
  Proof. intros x A b y x' y' Hx Hs E. destruct (proj2 H x A b y Hx Hs) as (x1 & y1 & E1 & F & _). congruence. Qed.
  Lemma all_sized : forall (a : mat (S:=R) n n) (b c : tup R n), sized n (as_mtx a) (as_vct b) (as_vct c).
  Proof. intros a b c. split; [exact (proj1 H)|]. repeat split. Qed.

  (** solvers_nonlinear/impl/functions.hpp 352 (solve(J, r, c)) and 366 (solve(H, g, c)). A
      program that is stopped does not go on ([NoFuel]); the objects below never do this. *)
  (* model only: how solve(A, b, y) ended *)
  Definition finish (c : tup R n) (x : {x | fit x}) (r : ran (X * vct R)) : (forall x' y', r = Done (x', y') -> fit x') ->
    outcome unit * (tup R n * {x | fit x}) :=
    match r with
    | Done (x', y) => fun Hr => (Ok tt, (of_vct n y, exist _ x' (Hr _ _ eq_refl)))
    | Stopped => fun _ => (NoFuel, (c, x))
    | Threw e => fun _ => (Throw e, (c, x))
    | Undefd u => fun _ => (Undef u, (c, x))
    end.
  (* solvers_nonlinear/impl/functions.hpp 352, 366 *)
  Definition asks_solver (a : mat (S:=R) n n) (b c : tup R n) (x : {x | fit x}) : outcome unit * (tup R n * {x | fit x}) :=
    finish c x (slv (proj1_sig x) (as_mtx a) (as_vct b) (as_vct c))
      (fun x' y' => stays_fit _ _ _ _ x' y' (proj2_sig x) (all_sized a b c)).

  (** A nonlinear solver keeps one linear solver. [xt] are the other objects it was created
      with (QR solver, weighting operator), whose state is an [L]. *)
  Section Use.
    Context {V Rs J H' L : Type}.
    Notation X' := {x | fit x}.
    (* model only: the linear solver is not touched *)
    Definition keep {A} (x : X') (r : outcome unit * (A * L)) : outcome unit * (A * (X' * L)) :=
      let '(e, (a, l)) := r in (e, (a, (x, l))).
    (* the registry's InnerSolverTag: solvers_nonlinear/impl/functions.hpp 350, 365 *)
    Definition used_for (newton : J -> Rs -> V -> X' * L -> outcome unit * (V * (X' * L)))
        (normal : H' -> V -> V -> X' * L -> outcome unit * (V * (X' * L))) (xt : exts V Rs J H' L) : exts V Rs J H' (X' * L) :=
      mk_exts newton normal
        (fun j l => let '(e, l') := x_thin xt j (snd l) in (e, (fst l, l')))
        (fun r v l => keep (fst l) (x_qtr xt r v (snd l)))
        (fun q c l => keep (fst l) (x_rsolve xt q c (snd l)))
        (fun r w l => keep (fst l) (x_wr xt r w (snd l)))
        (fun j w l => keep (fst l) (x_wj xt j w (snd l))).
  End Use.
  (* model only: the other objects are not touched *)
  Definition swap {A L} (l : L) (r : outcome unit * (A * {x | fit x})) : outcome unit * (A * ({x | fit x} * L)) :=
    let '(e, (a, x)) := r in (e, (a, (x, l))).
  (** least squares solvers, m residuals *)
  (* solvers_nonlinear/impl/functions.hpp 359-367 *)
  Definition ls_exts {m L} (xt : exts (tup R n) (tup R m) (mat (S:=R) m n) (mat (S:=R) n n) L) :=
    used_for (fun j r c l => keep (fst l) (x_newton xt j r c (snd l)))
      (fun h g c l => swap (snd l) (asks_solver h g c (fst l))) xt.
  (** root finders *)
  (* solvers_nonlinear/impl/functions.hpp 339-353 *)
  Definition root_exts {L} (xt : exts (tup R n) (tup R n) (mat (S:=R) n n) (mat (S:=R) n n) L) :=
    used_for (fun j r c l => swap (snd l) (asks_solver j r c (fst l)))
      (fun h g c l => keep (fst l) (x_normal xt h g c (snd l))) xt.
End Glue.
Arguments serves eps n {X}. Arguments asks_solver {eps n X asked fit slv}.
Arguments ls_exts {eps n X asked fit slv} H {m L}. Arguments root_exts {eps n X asked fit slv} H {L}.
Arguments solver X : clear implicits.

(** Symmetric positive definite matrices, which is what POTRF is for *)
(* specification, not code *)
Definition spd (eps : R) (n : nat) (A : nat -> nat -> R) : Prop :=
  symmetric n A /\ LinsolveSpec.positive_definite (Rops eps) n A.
(* specification, not code *)
Definition any_matrix (A : nat -> nat -> R) : Prop := True.
(** The objects: getrs and potrs, whose state is auxMat_; geqrf, new or with a workspace
    that is large enough for n; Eigen's direct solvers. Release builds (no asserts). *)
(* getrs 114-125 *)
Definition getrs_object eps lp : solver (mtx R) := getrs_solve (Rops eps) lp false.
(* potrs_upper 103-114, potrs_lower 104-115 *)
Definition potrs_object eps lp up : solver (mtx R) := potrs_solve (Rops eps) lp false up.
(* geqrf 115-125 *)
Definition geqrf_object eps lp : solver (gobj R) := geqrf_solve (Rops eps) lp false.
(* specification: lwork_, geqrf 214, is still the -1 it starts with or is enough for n *)
Definition geqrf_fit (n : nat) (s : gobj R) : Prop := go_lwork s = (-1)%Z \/ (Z.of_nat (Nat.max 1 n) <= go_lwork s)%Z.
(* eigen_direct 83-87 *)
Definition eigen_object {F} (d_compute : mtx R -> F) (d_solve : F -> vct R -> vct R) : solver (dobj (F:=F)) :=
  fun s A b y => let '(r, s') := d_solve3 d_compute d_solve s A b y in andthen r (fun y' => Done (s', y')).
(** Eigen's factorisations (LU, QR) solve systems with a nonsingular matrix. *)
(* specification of eigen_direct 75 and 80 (external), not code *)
Definition factorises (eps : R) {F} (d_compute : mtx R -> F) (d_solve : F -> vct R -> vct R) : Prop :=
  forall n A b, rows A = n -> cols A = n -> size b = n ->
  size (d_solve (d_compute A) b) = n /\
  (nonsingular (Rops eps) n (ent A) -> solves (Rops eps) n (ent A) (at_ (d_solve (d_compute A) b)) (at_ b)).

(** Model of the linear solver objects of pressio::linearsolvers:
    solvers_linear/impl/solvers_linear_kokkos_direct_{geqrf,getrs,potrs_lower,
    potrs_upper}_impl.hpp (host versions; below: geqrf, getrs, potrs_lower, potrs_upper),
    solvers_linear_eigen_direct_impl.hpp (eigen_direct),
    solvers_linear_eigen_iterative_impl.hpp (eigen_iterative),
    solvers_linear_iterative_base.hpp (iterative_base).
    LAPACK, BLAS and the native Eigen solvers are oracles (records of
    functions); what their documentation promises is in [LinsolveSpec.v].
    The CUDA versions are not modelled. *)
From Coq Require Import ZArith List Bool Arith.
From Verif Require Import Base.
Import ListNotations.

(** How a call ends. [Stopped]: the program was ended by a failed [assert] or by
    LAPACK's error handler xerbla. *)
Inductive ran (A : Type) :=
| Done (a : A)
| Stopped
| Threw (e : exn)
| Undefd (u : ub).
Arguments Done {A} a. Arguments Stopped {A}. Arguments Threw {A} e. Arguments Undefd {A} u.

(* model only: going on after a call that ended normally *)
Definition andthen {A B} (c : ran A) (k : A -> ran B) : ran B :=
  match c with
  | Done a => k a
  | Stopped => Stopped
  | Threw e => Threw e
  | Undefd u => Undefd u
  end.

(** Dense matrices and vectors: extents and entries. *)
(* Kokkos::View or Eigen matrix (external) *)
Record mtx (S : Type) := mk_mtx { rows : nat; cols : nat; ent : nat -> nat -> S }.
(* the same for vectors *)
Record vct (S : Type) := mk_vct { size : nat; at_ : nat -> S }.
Arguments mk_mtx {S}. Arguments rows {S} _. Arguments cols {S} _. Arguments ent {S} _ _ _.
Arguments mk_vct {S}. Arguments size {S} _. Arguments at_ {S} _ _.

(** LAPACK and BLAS routines (external) on the leading n x n block of a column
    major array. The [bool] of potrf/potrs is true for 'U', false for 'L'. The
    second result of [lp_getrf] are the pivots, the last result of [lp_getrf] and
    [lp_potrf] is info. [lp_optimal n]: the workspace size that a query of GEQRF
    reports. [lp_stops]: the error handler xerbla ends the program (the
    reference implementation does, other implementations print and return). *)
(* called at geqrf 164, 169, 183-191, 196-201, getrs 160, 168, potrs_lower and potrs_upper 146, 153 *)
Record lapack (S : Type) := mk_lapack {
  lp_optimal : nat -> nat;
  lp_stops : bool;
  lp_geqrf : nat -> (nat -> nat -> S) -> (nat -> nat -> S) * list S;
  lp_ormqr : nat -> (nat -> nat -> S) -> list S -> (nat -> S) -> nat -> S;
  lp_trsm : nat -> (nat -> nat -> S) -> (nat -> S) -> nat -> S;
  lp_getrf : nat -> (nat -> nat -> S) -> (nat -> nat -> S) * list nat * Z;
  lp_getrs : nat -> (nat -> nat -> S) -> list nat -> (nat -> S) -> nat -> S;
  lp_potrf : bool -> nat -> (nat -> nat -> S) -> (nat -> nat -> S) * Z;
  lp_potrs : bool -> nat -> (nat -> nat -> S) -> (nat -> S) -> nat -> S
}.
Arguments mk_lapack {S}.
Arguments lp_optimal {S} _ _. Arguments lp_stops {S} _.
Arguments lp_geqrf {S} _ _ _. Arguments lp_ormqr {S} _ _ _ _ _ _.
Arguments lp_trsm {S} _ _ _ _ _. Arguments lp_getrf {S} _ _ _.
Arguments lp_getrs {S} _ _ _ _ _ _. Arguments lp_potrf {S} _ _ _ _.
Arguments lp_potrs {S} _ _ _ _ _ _.

Section Kokkos.
  Context {S : Type} (o : sops S) (lp : lapack S).
  Variable asserts : bool.   (* NDEBUG is not defined *)

  (** assert(c) *)
  (* geqrf 170, getrs 161, 169, potrs_lower and potrs_upper 147, 154, and those of [size_checks] *)
  Definition check (c : bool) : ran unit :=
    if negb c && asserts then Stopped else Done tt.

  (** Kokkos::resize of a matrix (external): new entries are zero. *)
  (* called at geqrf 119-121, getrs 118-121, potrs_lower 108-111, potrs_upper 107-110 *)
  Definition mresize (m : mtx S) (r c : nat) : mtx S :=
    mk_mtx r c (fun i j => if (i <? rows m) && (j <? cols m) then ent m i j else s0 o).
  (** Kokkos::deep_copy (external): std::runtime_error if the extents differ. *)
  (* called at geqrf 123, getrs 123, potrs_lower 113, potrs_upper 112 *)
  Definition mdeep_copy (dst src : mtx S) : ran (mtx S) :=
    if (rows dst =? rows src) && (cols dst =? cols src)
    then Done (mk_mtx (rows dst) (cols dst) (ent src)) else Threw ERuntime.
  (* called at geqrf 178, getrs 165, potrs_lower and potrs_upper 151 *)
  Definition vdeep_copy (dst src : vct S) : ran (vct S) :=
    if size dst =? size src then Done (mk_vct (size dst) (at_ src)) else Threw ERuntime.

  (** std::vector::resize (external). *)
  (* called at geqrf 157-159 *)
  Definition lresize (l : list S) (n : nat) : list S :=
    firstn n l ++ repeat (s0 o) (n - length l).

  (** solve(A,b,y) of all four Kokkos classes (geqrf 115-125, getrs 114-125,
      potrs_lower 104-115, potrs_upper 103-114): copy A into the object's auxMat_,
      resized if its extents differ, and factorise the copy. *)
  Definition to_aux (aux A : mtx S) : ran (mtx S) :=
    let aux := if negb (rows A =? rows aux) || negb (cols A =? cols aux)
               then mresize aux (rows A) (cols A) else aux in
    mdeep_copy aux A.

  (** the three size assertions (geqrf 144-147, getrs 144-147,
      potrs_lower 134-137, potrs_upper 133-137) *)
  Definition size_checks (A : mtx S) (b y : vct S) : ran unit :=
    andthen (check (rows A =? cols A)) (fun _ =>
    andthen (check (rows A =? size b)) (fun _ =>
    check (cols A =? size y))).

  (** A LAPACK routine that refuses its arguments: the error handler ends the program
      ([lp_stops]), or the routine does nothing and returns info <> 0, which is only
      asserted. All routines refuse a leading dimension of 0, that is empty matrices:
      lda >= max(1,n). *)
  (* called at geqrf 164-170, getrs 160-161, 168-169, potrs_lower and potrs_upper 146-147, 153-154 *)
  Definition refused {A} (k : ran A) : ran A :=
    if lp_stops lp then Stopped else andthen (check false) (fun _ => k).

  (** ** geqrf: class members, geqrf 208-219 *)
  Record gobj := mk_gobj {
    go_lwork : Z; go_work : nat (* size of work_ *); go_tau : list S; go_aux : mtx S }.
  (** geqrf 84-89, 214-219 *)
  Definition gobj_new : gobj := mk_gobj (-1) 1 [] (mk_mtx 0 0 (fun _ _ => s0 o)).

  (** A call of GEQRF(n,n,A,n,tau,work,lwork,info), geqrf 164, 169 (external): lwork = -1 is a
      query that only writes work[0]; lwork < max(1,n) is an error (info = -7)
      reported to xerbla, nothing else is written. Result: A, tau, the value
      left in work[0] for a query, info. *)
  Definition geqrf_call (n : nat) (A : nat -> nat -> S) (tau : list S) (lwork : Z)
    : ran ((nat -> nat -> S) * list S * nat * Z) :=
    if (lwork =? -1)%Z then Done (A, tau, lp_optimal lp n, 0%Z)
    else if (lwork <? Z.of_nat (Nat.max 1 n))%Z
         then if lp_stops lp then Stopped else Done (A, tau, 0, (-7)%Z)
         else let (d, t) := lp_geqrf lp n A in Done (d, t, 0, 0%Z).

  (** solveAllowMatOverwrite, geqrf 141-202. Result: the object, A and y.
      Simplified: the workspace of ORMQR (minimum size 1) is always large enough;
      for an empty matrix, without assertions and with a LAPACK that returns, the workspace
      size that is taken over is not specified ([Undefd]);
      memory accesses outside y (possible only without assertions) are [Undefd]. *)
  Definition geqrf_overwrite (s : gobj) (A : mtx S) (b y : vct S) : ran (gobj * mtx S * vct S) :=
    andthen (size_checks A b y) (fun _ =>
    let n := rows A in
    if n =? 0 then refused (Undefd UUninitialized) else
    let tau := if negb (length (go_tau s) =? n) then lresize (go_tau s) n else go_tau s in
    andthen (if (go_lwork s =? -1)%Z
             then andthen (geqrf_call n (ent A) tau (go_lwork s)) (fun q =>
                    let w := snd (fst q) in Done (Z.of_nat w, w))
             else Done (go_lwork s, go_work s)) (fun lw =>
    andthen (geqrf_call n (ent A) tau (fst lw)) (fun f =>
    let '(d, t, _, info) := f in
    andthen (check (info =? 0)%Z) (fun _ =>
    andthen (vdeep_copy y b) (fun y =>
    if size y <? n then Undefd UOutOfBounds else
    let z := lp_ormqr lp n d t (at_ y) in
    Done (mk_gobj (fst lw) (snd lw) t (go_aux s), mk_mtx (rows A) (cols A) d,
          mk_vct (size y) (lp_trsm lp n d z))))))).

  (** solve, geqrf 115-125. Result: the object and y; the caller's A is only read. *)
  Definition geqrf_solve (s : gobj) (A : mtx S) (b y : vct S) : ran (gobj * vct S) :=
    andthen (to_aux (go_aux s) A) (fun aux =>
    andthen (geqrf_overwrite s aux b y) (fun r =>
    let '(s', aux', y') := r in
    Done (mk_gobj (go_lwork s') (go_work s') (go_tau s') aux', y'))).

  (** ** getrs: the only member is auxMat_ (getrs 247). solveAllowMatOverwrite, getrs 142-170. *)
  Definition getrs_overwrite (A : mtx S) (b y : vct S) : ran (mtx S * vct S) :=
    andthen (size_checks A b y) (fun _ =>
    let n := rows A in
    if n =? 0 then refused (andthen (vdeep_copy y b) (fun y => refused (Done (A, y)))) else
    let '(d, piv, info) := lp_getrf lp n (ent A) in
    andthen (check (info =? 0)%Z) (fun _ =>
    andthen (vdeep_copy y b) (fun y =>
    (* GETRS checks ldb = y.extent(0) >= n *)
    if size y <? n
    then refused (Done (mk_mtx (rows A) (cols A) d, y))
    else Done (mk_mtx (rows A) (cols A) d, mk_vct (size y) (lp_getrs lp n d piv (at_ y)))))).
  (** solve, getrs 114-125; the object is its auxMat_ *)
  Definition getrs_solve (aux A : mtx S) (b y : vct S) : ran (mtx S * vct S) :=
    andthen (to_aux aux A) (fun aux => getrs_overwrite aux b y).

  (** ** potrsU, potrsL: solveAllowMatOverwrite, potrs_upper 131-155, potrs_lower 132-155
      ('U' or 'L' is [up]: uplo_, 158 of both) *)
  Definition potrs_overwrite (up : bool) (A : mtx S) (b y : vct S) : ran (mtx S * vct S) :=
    andthen (size_checks A b y) (fun _ =>
    let n := rows A in
    if n =? 0 then refused (andthen (vdeep_copy y b) (fun y => refused (Done (A, y)))) else
    let '(d, info) := lp_potrf lp up n (ent A) in
    andthen (check (info =? 0)%Z) (fun _ =>
    andthen (vdeep_copy y b) (fun y =>
    if size y <? n
    then refused (Done (mk_mtx (rows A) (cols A) d, y))
    else Done (mk_mtx (rows A) (cols A) d, mk_vct (size y) (lp_potrs lp up n d (at_ y)))))).
  (** solve, potrs_upper 103-114, potrs_lower 104-115; auxMat_: 162 of both *)
  Definition potrs_solve (up : bool) (aux A : mtx S) (b y : vct S) : ran (mtx S * vct S) :=
    andthen (to_aux aux A) (fun aux => potrs_overwrite up aux b y).

  (** A history of calls of solve on one object: each with its own right hand
      side, and with its own y. *)
  (* model only *)
  Fixpoint geqrf_run (s : gobj) (l : list (mtx S * vct S * vct S)) : ran gobj :=
    match l with
    | [] => Done s
    | (A, b, y) :: l => andthen (geqrf_solve s A b y) (fun r => geqrf_run (fst r) l)
    end.
End Kokkos.
Arguments gobj S : clear implicits.
Arguments mk_gobj {S}. Arguments go_lwork {S} _. Arguments go_work {S} _.
Arguments go_tau {S} _. Arguments go_aux {S} _.

(** The native Eigen solvers (external). Direct: compute(A) and solve(b).
    Iterative: compute(A) keeps a REFERENCE to A and a preconditioner made from
    A's entries (Eigen's documentation of IterativeSolverBase::compute: "this
    class stores a reference to the matrix A as well as some precomputed values
    that depend on it"); solve(b) starts from zero and does at most
    maxIterations iterations; result: the solution, iterations(), error(). *)
Section Eigen.
  Context {S M F P : Type}.
  Variable d_compute : M -> F.
  Variable d_solve : F -> vct S -> vct S.
  Variable i_prec : M -> P.
  Variable i_solve : nat -> M -> P -> vct S -> vct S * nat * S.

  (** EigenDirect: member mysolver_, eigen_direct 96; [None] before compute. *)
  Definition dobj := option F.
  (* eigen_direct 96 *)
  Definition d_new : dobj := None.
  (** eigen_direct 74-76 *)
  Definition d_reset (s : dobj) (A : M) : dobj := Some (d_compute A).
  (** eigen_direct 78-81; using a native solver before compute is undefined (eigen_assert) *)
  Definition d_solve2 (s : dobj) (b y : vct S) : ran (vct S) :=
    match s with None => Undefd UUninitialized | Some f => Done (d_solve f b) end.
  (** eigen_direct 83-87, 89-93 *)
  Definition d_solve3 (s : dobj) (A : M) (b y : vct S) : ran (vct S) * dobj :=
    let s := d_reset s A in (d_solve2 s b y, s).

  (** EigenIterative: maxIters_ (iterative_base 79) and mysolver_ (eigen_iterative 116): where the
      referenced matrix lives, the preconditioner, the limit last passed to the
      native solver, and iterations() and error() of the last solve. The
      matrices live in a memory [nat -> option M] owned by the caller ([None]:
      the matrix has been destroyed). *)
  Record iobj := mk_iobj {
    io_max : nat; io_ref : option (nat * P); io_nmax : option nat; io_last : option (nat * S) }.
  (** iterative_base 79 *)
  Definition i_new : iobj := mk_iobj 100 None None None.
  (** iterative_base 65-67 and, below, 74-76 *)
  Definition i_max (s : iobj) : nat := io_max s.
  (* iterative_base 74-76 *)
  Definition i_set_max (s : iobj) (n : nat) : iobj :=
    mk_iobj n (io_ref s) (io_nmax s) (io_last s).
  (** eigen_iterative 87-91; [a] is where A lives *)
  Definition i_reset (mem : nat -> option M) (s : iobj) (a : nat) : ran iobj :=
    match mem a with
    | None => Undefd UDangling
    | Some A => Done (mk_iobj (io_max s) (Some (a, i_prec A)) (Some (io_max s)) (io_last s))
    end.
  (** eigen_iterative 93-98 *)
  Definition i_solve2 (mem : nat -> option M) (s : iobj) (b y : vct S) : ran (iobj * vct S) :=
    match io_ref s with
    | None => Undefd UUninitialized
    | Some (a, p) =>
        match mem a with
        | None => Undefd UDangling
        | Some A =>
            let '(x, n, e) := i_solve (io_max s) A p b in
            Done (mk_iobj (io_max s) (io_ref s) (Some (io_max s)) (Some (n, e)), x)
        end
    end.
  (** eigen_iterative 100-105, 107-112 *)
  Definition i_solve3 (mem : nat -> option M) (s : iobj) (a : nat) (b y : vct S)
    : ran (iobj * vct S) :=
    andthen (i_reset mem s a) (fun s => i_solve2 mem s b y).
  (** eigen_iterative 77-80 and, below, 82-85 *)
  Definition i_iterations (s : iobj) : ran nat :=
    match io_last s with None => Undefd UUninitialized | Some (n, _) => Done n end.
  (* eigen_iterative 82-85 *)
  Definition i_error (s : iobj) : ran S :=
    match io_last s with None => Undefd UUninitialized | Some (_, e) => Done e end.
End Eigen.
Arguments iobj S P : clear implicits.
Arguments mk_iobj {S P}. Arguments io_max {S P} _. Arguments io_ref {S P} _.
Arguments io_nmax {S P} _. Arguments io_last {S P} _.

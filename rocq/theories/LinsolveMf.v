(** Model of the matrix-free iterative linear solver object:
    solvers_linear/impl/solvers_linear_eigen_iterative_matrix_free_impl.hpp
    (classes OperatorWrapper, EigenIterativeMatrixFree) and its base class in
    solvers_linear_iterative_base.hpp (iterative_base below; other lines are those of the first file).
    The native solver (Eigen::GMRES with the
    identity preconditioner, solvers_linear_traits.hpp 84-88) is an oracle. *)
From Coq Require Import ZArith List Bool Arith.
From Verif Require Import Base LinsolveModel.
Import ListNotations.

Section MatrixFree.
  Context {S : Type} (o : sops S).

  (** A user's operator: rows() and applyAndAddTo(operand, out), the value of
      out afterwards. *)
  (* 97-98, 113-117: what is asked of the operator *)
  Record lop := mk_lop { lo_rows : nat; lo_apply : vct S -> vct S -> vct S }.
  (** the caller's operators live at addresses; [None]: destroyed *)
  (* 120: m_userOperator is a pointer *)
  Definition lmem := nat -> option lop.

  (** The native solver (external): maximal number of iterations, the product
      with the operator, right hand side; results: solution, iterations(), error(). *)
  Variable g_solve : nat -> (vct S -> vct S) -> vct S -> vct S * nat * S.

  (** Members mysolver_ 217 (whether compute was called, the limit given to it,
      results of the last solve), m_wrapper 218 (m_userOperator 120) and
      maxIters_ (iterative_base 79). The native solver refers to m_wrapper, which
      stays in the object. *)
  Record mfobj := mk_mfobj {
    mo_max : nat; mo_op : option nat; mo_computed : bool;
    mo_nmax : option nat; mo_last : option (nat * S) }.
  (** 186, 120, iterative_base 79 *)
  Definition mo_new : mfobj := mk_mfobj 100 None false None None.
  (** iterative_base 74-76 and, below, 65-67 *)
  Definition mo_set_max (s : mfobj) (n : nat) : mfobj :=
    mk_mfobj n (mo_op s) (mo_computed s) (mo_nmax s) (mo_last s).
  (* iterative_base 65-67 *)
  Definition mo_limit (s : mfobj) : nat := mo_max s.

  (** OperatorWrapper::replace 109-111 *)
  Definition mo_replace (s : mfobj) (a : nat) : mfobj :=
    mk_mfobj (mo_max s) (Some a) (mo_computed s) (mo_nmax s) (mo_last s).

  (** A product with the wrapper: Eigen (external) evaluates it by setting a
      vector of rows() zeros and adding one times the product to it;
      scaleAndAddTo 143-157 and applyAndAddTo 113-117 do that addition by the
      user's applyAndAddTo. *)
  Definition zeros (n : nat) : vct S := mk_vct n (fun _ => s0 o).
  (* 143-157, 113-117 *)
  Definition product (A : lop) (x : vct S) : vct S := lo_apply A x (zeros (lo_rows A)).

  (** resetLinearSystem 196-201; [a]: where A lives. compute asks the wrapper
      for its extents (97-98), so A must be alive. *)
  Definition mo_reset (mem : lmem) (s : mfobj) (a : nat) : ran mfobj :=
    let s := mk_mfobj (mo_max s) (mo_op s) (mo_computed s) (Some (mo_max s)) (mo_last s) in
    let s := mo_replace s a in
    match mem a with
    | None => Undefd UDangling
    | Some _ => Done (mk_mfobj (mo_max s) (mo_op s) true (mo_nmax s) (mo_last s))
    end.

  (** solve(b, y) 203-207; a native solver used before compute is undefined
      (eigen_assert), and a pointer to a destroyed operator dangles. *)
  Definition mo_solve2 (mem : lmem) (s : mfobj) (b y : vct S) : ran (mfobj * vct S) :=
    let s := mk_mfobj (mo_max s) (mo_op s) (mo_computed s) (Some (mo_max s)) (mo_last s) in
    if negb (mo_computed s) then Undefd UUninitialized else
    match mo_op s, mo_nmax s with
    | Some a, Some n =>
        match mem a with
        | None => Undefd UDangling
        | Some A =>
            let '(x, k, e) := g_solve n (product A) b in
            Done (mk_mfobj (mo_max s) (mo_op s) (mo_computed s) (mo_nmax s) (Some (k, e)), x)
        end
    | _, _ => Undefd UUninitialized
    end.

  (** solve(A, b, y) 209-213 *)
  Definition mo_solve3 (mem : lmem) (s : mfobj) (a : nat) (b y : vct S) : ran (mfobj * vct S) :=
    andthen (mo_reset mem s a) (fun s => mo_solve2 mem s b y).

  (** numIterationsExecuted 188-190, finalError 192-194 *)
  Definition mo_iterations (s : mfobj) : ran nat :=
    match mo_last s with None => Undefd UUninitialized | Some (n, _) => Done n end.
  (* 192-194 *)
  Definition mo_error (s : mfobj) : ran S :=
    match mo_last s with None => Undefd UUninitialized | Some (_, e) => Done e end.
End MatrixFree.
Arguments lop S : clear implicits.
Arguments mk_lop {S}. Arguments lo_rows {S} _. Arguments lo_apply {S} _ _ _.
Arguments mfobj S : clear implicits.
Arguments mk_mfobj {S}.

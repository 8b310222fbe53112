(** C72 for the matrix-free iterative solver. *)
From Coq Require Import ZArith List Bool Arith.
From Verif Require Import Base Laws LinsolveModel LinsolveMf LinsolveSpec LinsolveMfSpec LinsolveMfProofs.
Import ListNotations.

(** After any history of resets, solves, limits and changes of the caller's
    operators, solve(b, y) gives what the native solver gives for the operator
    last passed, as it is now, with the limit last set (100 by default); if that
    operator has been destroyed the call is undefined. *)
Theorem C72_matrix_free : forall S (o : sops S) g_solve history m s a b y,
  mo_run o g_solve m mo_new history = Done s -> last_given history None = Some a ->
  match ops_after m history a with
  | Some A => answered o g_solve (last_limit history 100) A b (mo_solve2 o g_solve (ops_after m history) s b y)
  | None => mo_solve2 o g_solve (ops_after m history) s b y = Undefd UDangling
  end.
Proof. exact @given_answers. Qed.
Print Assumptions C72_matrix_free.

(** Without an operator passed before, solve(b, y) is undefined. *)
Theorem C72_matrix_free_nothing_given : forall S (o : sops S) g_solve history m s b y,
  mo_run o g_solve m mo_new history = Done s -> last_given history None = None ->
  mo_solve2 o g_solve (ops_after m history) s b y = Undefd UUninitialized.
Proof. exact @nothing_given. Qed.
Print Assumptions C72_matrix_free_nothing_given.

(** solve(A, b, y) after any history answers for A. *)
Theorem C72_matrix_free_with_operator : forall S (o : sops S) g_solve history m s a A b y,
  mo_run o g_solve m mo_new history = Done s -> ops_after m history a = Some A ->
  answered o g_solve (last_limit history 100) A b (mo_solve3 o g_solve (ops_after m history) s a b y).
Proof. exact @with_operator. Qed.
Print Assumptions C72_matrix_free_with_operator.

(** Hence, for an operator whose applyAndAddTo adds the product with a nonsingular
    matrix, and a native solver that needs at most n iterations, the answer
    solves the linear system. *)
Theorem C72_matrix_free_solves : forall S (o : sops S) g_solve history m s a A n M b y,
  sfield o -> exact_krylov o g_solve -> stands_for o A n M -> nonsingular o n M ->
  mo_run o g_solve m mo_new history = Done s -> ops_after m history a = Some A ->
  size b = n -> n <= last_limit history 100 ->
  exists s2 x, mo_solve3 o g_solve (ops_after m history) s a b y = Done (s2, x) /\
    solves o n M (at_ x) (at_ b).
Proof. exact @mf_solves. Qed.
Print Assumptions C72_matrix_free_solves.

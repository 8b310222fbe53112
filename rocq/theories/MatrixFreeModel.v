(** Model of the matrix-free Newton solver. Paths are relative to
    include/pressio/solvers_nonlinear.

    The user's system gives residual(y, r) and applyJacobian(y, x, out); the linear solver
    (an iterative Eigen solver,
    solvers_linear/impl/solvers_linear_eigen_iterative_matrix_free_impl.hpp) sees the
    Jacobian only through an operator that adds the product to a vector. *)
From Coq Require Import ZArith List Bool.
From Verif Require Import Base NonlinDiag NonlinModel.
Import ListNotations.
Local Open Scope Z_scope.

(** A linear solver as the tree of its uses of the operator: "out += A x". An exception
    thrown by the operator passes through. *)
(* the calls of applyAndAddTo, impl/root_finder.cpp 149, that a solve makes *)
Inductive ktree (V L : Type) :=
| KDone (e : outcome unit) (c : V) (l : L)
| KApply (x out : V) (k : V -> ktree V L).
Arguments KDone {V L}. Arguments KApply {V L}.

(** What a solve changes: the registry of the solver object (impl/registries.hpp 60-91,
    with correction, residual and the diagnostics; it has no Jacobian), the wrapper's
    m_auxiliary, the memory [W] of the user's residual function and [U] of
    applyJacobian. *)
Record mfstate (S V R L W U : Type) := mk_mf {
  mf_reg : reg S V R unit unit L; mf_aux : V; mf_w : W; mf_u : U }.
Arguments mk_mf {S V R L W U}. Arguments mf_reg {S V R L W U}. Arguments mf_aux {S V R L W U}.
Arguments mf_w {S V R L W U}. Arguments mf_u {S V R L W U}.

Section MatrixFree.
  Context {S V R L W U : Type}.
  Variable o : sops S.
  Variable no : nlops S V R unit unit.
  (** residual(y, r) *)
  Variable res : V -> R -> W -> outcome unit * (R * W).
  (** applyJacobian(y, x, out) *)
  Variable appJ : V -> V -> V -> U -> outcome unit * (V * U).
  (** solve(operator, r, c); the solver object is local to a solve (impl/root_finder.cpp
      213-216): [new_l] is its initial memory *)
  Variable krylov : R -> V -> L -> ktree V L.
  Variable new_l : L.
  (** system.createState() *)
  Variable new_aux : V.
  Notation G := (mfstate S V R L W U).
  Notation vo := (n_vo no).

  (** Parts of the loop that work on the registry and may call residual *)
  (* model only: the Jacobian is never asked for *)
  Definition no_jac (y : V) (r : R) (j : option unit) (w : W) : outcome unit * (R * option unit * W) :=
    let '(e, (r', w')) := res y r w in (e, (r', j, w')).
  (* model only *)
  Definition on_reg {A} (p : prog V R unit (reg S V R unit unit L) A) : cmd G A :=
    fun g => let '(a, (s, w)) := exec no_jac p (mf_reg g, mf_w g) in (a, mk_mf s (mf_aux g) w (mf_u g)).

  (** impl/root_finder.cpp 148-159, Wrapper::applyAndAddTo, with m_currentNonLinearState
      pointing at the caller's state (set in 243) *)
  Definition apply_and_add (x out : V) : cmd G V := fun g =>
    let '(e, (a, u)) := appJ (g_x (mf_reg g)) x (vzero vo) (mf_u g) in
    let g' := mk_mf (mf_reg g) a (mf_w g) u in
    match e with
    | Ok _ => (Ok (upd1 vo out (s1 o) a (s1 o)), g')
    | Throw x => (Throw x, g') | Undef b => (Undef b, g') | NoFuel => (NoFuel, g')
    end.
  (** linearSolver.solve(wrapper, r, c), impl/root_finder.cpp 245. When the operator throws, the correction is
      unchanged as far as the model goes: it is not read again before the solve ends. *)
  Fixpoint run_krylov (t : ktree V L) : cmd G unit :=
    match t with
    | KDone e c l => fun g => (e, mk_mf (set_c c l (mf_reg g)) (mf_aux g) (mf_w g) (mf_u g))
    | KApply x out k => bind (apply_and_add x out) (fun v => run_krylov (k v))
    end.
  (* impl/root_finder.cpp 243-245 *)
  Definition mf_linear_solve : cmd G unit :=
    fun g => run_krylov (krylov (g_r (mf_reg g)) (g_c (mf_reg g)) (g_ext (mf_reg g))) g.

  (** impl/root_finder.cpp 227-283: one iteration *)
  Definition mf_body (cf : config S) (k : Z) : cmd G bool :=
    bind (on_reg (pcatch (fun s => compute_residual (g_x s) s) is_residual_failure
                    (fun e => pbind (write_report (RError e)) (fun _ => pthrow ENonlinearSolve)))) (fun _ =>
    bind mf_linear_solve (fun _ =>
    on_reg (
      pbind (negate_c o no) (fun _ =>
      pbind (norm_diagnostics o no false (k =? 1)) (fun _ =>
      pbind (log_iteration k) (fun _ =>
      pbind (root_must_stop o cf k) (fun b =>
      if b : bool then pret true else
      pcatch (pbind (plift (fun s => match dc_iat (g_diags s) IResidual with
                                     | Ok d => (Ok (d_abs d), s)
                                     | Throw e => (Throw e, s) | Undef u => (Undef u, s) | NoFuel => (NoFuel, s)
                                     end)) (fun f0 =>
              pbind (default_updater o no (root_objective no) f0) (fun _ => pret false)))
             is_linesearch_failure (fun e => pbind (write_report (RError e)) (fun _ => pret true))))))))).

  (** impl/root_finder.cpp 224-226 *)
  Fixpoint mf_loop (cf : config S) (fuel : nat) (k : Z) : cmd G unit :=
    match fuel with
    | O => nofuel
    | Datatypes.S n =>
        if k =? int32_max then undef UIntOverflow else
        if k + 1 <=? f_max cf then
          bind (mf_body cf (k + 1)) (fun b => if b : bool then ret tt else mf_loop cf n (k + 1))
        else ret tt
    end.
  (** impl/root_finder.cpp 376-387. The assertion that the update is the standard one is absent in release
      builds; the setting is not looked at. *)
  Definition mf_solve (cf : config S) : cmd G unit := fun g =>
    mf_loop cf (loop_fuel (f_max cf)) 0
      (mk_mf (set_ext new_l (mf_reg g)) new_aux (mf_w g) (mf_u g)).
End MatrixFree.

(** What it means that a matrix-free problem and a problem with a matrix are the same. *)
From Coq Require Import ZArith List.
From Verif Require Import Base NonlinDiag NonlinModel MatrixFreeModel.

(** Leaving out the parts of a registry the matrix-free solver does not have: the Jacobian
    and the matrices of the least-squares solvers. *)
Definition forget {S V R J H L} (s : reg S V R J H L) : reg S V R unit unit L :=
  mk_reg (g_x s) (g_trial s) (g_c s) (g_r s) tt (g_g s) tt tt (g_damp s) (g_wr s) tt (g_qtr s) (g_nu s)
         (g_diags s) (g_ext s) (g_log s) (g_file s).
Definition forget_ops {S V R J H} (no : nlops S V R J H) : nlops S V R unit unit :=
  mk_nlops (n_vo no) (n_norm no) (n_dot no) (n_rnorm no) (n_rdot no) (fun _ _ => vzero (n_vo no)) (fun _ _ => tt)
           (fun _ _ => tt) (fun _ v => v).

Section Same.
  Context {S V R J H L W U : Type}.
  Variables (o : sops S) (no : nlops S V R J H).
  (** residual and residualAndJacobian compute the same residuals and fail alike; the
      Jacobian is [DF] *)
  Definition same_residual (rj : V -> R -> option J -> W -> outcome unit * (R * option J * W))
      (res : V -> R -> W -> outcome unit * (R * W)) (DF : V -> J) : Prop :=
    forall y r j w, exists e r' j' w', res y r w = (e, (r', w')) /\ rj y r (Some j) w = (e, (r', j', w')) /\
      (e = Ok tt -> j' = Some (DF y)).
  (** applyJacobian multiplies with [DF] *)
  Definition jacobian_action (appJ : V -> V -> V -> U -> outcome unit * (V * U)) (DF : V -> J) (ap : J -> V -> V) : Prop :=
    forall y x u, exists u', appJ y x (vzero (n_vo no)) u = (Ok tt, (ap (DF y) x, u')).
  (** the linear solver's result when every use of the operator adds [A x] *)
  Fixpoint kpure (A : V -> V) (t : ktree V L) : outcome unit * (V * L) :=
    match t with
    | KDone e c l => (e, (c, l))
    | KApply x out k => kpure A (k (upd1 (n_vo no) out (s1 o) (A x) (s1 o)))
    end.
  Definition same_corrections (xt : exts V R J H L) (krylov : R -> V -> L -> ktree V L) (ap : J -> V -> V) : Prop :=
    forall j r c l, x_newton xt j r c l = kpure (ap j) (krylov r c l).
End Same.

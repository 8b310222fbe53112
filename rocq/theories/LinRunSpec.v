(** Specification of C82: linear equations y' = A(t) y + b(t), or M(t) y' = A(t) y + b(t), integrated with Newton's method. *)
From Coq Require Import Reals ZArith List.
From Verif Require Import Base RInst Laws AdvanceModel AdvanceSpec AdvanceProofs TargetProofs Track ExplicitModel ImplicitModel ImplicitSpec
  NonlinDiag NonlinModel NonlinSpec NonlinLaws NonlinMoreSpec RomLsSpec.
Import ListNotations.
Local Open Scope R_scope.

(** The user's system computes the right hand side and, if asked, its matrix, without failing. *)
Definition linear_user {S V J W} (vo : vops S V) (ap : J -> V -> V) (u : isys (S:=S) (V:=V) (J:=J) (W:=W)) (A : S -> J) (b : S -> V) : Prop :=
  forall y t R Jo w, exists w', is_eval u y t R Jo w = (Ok tt, (linear_rhs vo ap A b y t, option_map (fun _ => A t) Jo, w')).

(** The matrix I - c dt A(t + dt) of a step: c = 1 for BDF1 and the first BDF2 step, 2/3 for BDF2, 1/2 for Crank-Nicolson;
    with mass matrix, M(t + dt) in place of I. *)
Definition weight_of {S V} (o : sops S) (name : scheme) (past : list V) : S :=
  match name, past with
  | BDF2, _ :: _ :: _ => frac o 2 3
  | CrankNicolson, _ => frac o 1 2
  | _, _ => s1 o
  end.
Definition step_matrix {S V J} (o : sops S) (jo : vops S J) (mass A : S -> J) (name : scheme) (past : list V) (t dt : S) : J :=
  scheme_J o jo (mass (sadd o t dt)) (weight_of o name past) dt (A (sadd o t dt)).

(** One step of y' = f(y,t) from the states [past], newest first. *)
Definition scheme_step {S V} (o : sops S) (vo : vops S V) (f : V -> S -> V) (name : scheme) (past : list V) (t dt : S) (y : V) : Prop :=
  match name, past with
  | CrankNicolson, y_n :: _ => cn_eq o vo (f y_n t) (fun y => f y (sadd o t dt)) y_n dt y
  | _, _ => fom_step o vo f name past t dt y
  end.
(** One step of M(t) y' = f(y,t). *)
Definition scheme_step_mm {S V J} (o : sops S) (vo : vops S V) (ap : J -> V -> V) (M : S -> J) (f : V -> S -> V)
  (name : scheme) (past : list V) (t dt : S) (y : V) : Prop :=
  match name, past with
  | BDF2, y_n :: y_nm1 :: _ =>
      ap (M (sadd o t dt)) (vadd vo (vminus o vo y (vscale vo (frac o 4 3) y_n)) (vscale vo (frac o 1 3) y_nm1))
      = vscale vo (smul o (frac o 2 3) dt) (f y (sadd o t dt))
  | _, y_n :: _ => ap (M (sadd o t dt)) (vminus o vo y y_n) = vscale vo dt (f y (sadd o t dt))
  | _, [] => False
  end.

(** Newton's method with full steps, stopping by the relative size of the correction or of the residual,
    allowed at least two iterations. *)
Definition newton_settings (cf : config R) : Prop :=
  f_update cf = UStandard /\ (f_stop cf = WhenRelCorrection \/ f_stop cf = WhenRelResidual) /\
  0 < f_tol cf <= 1 /\ (2 <= f_max cf < int32_max)%Z.

(** Integrations that returned normally, made with a new stepper; [tr]: the calls they made. *)
Section Integrated.
  Context {S V R' J P Ws U : Type} (o : sops S).
  Variables (solver : Ws -> V -> sol V R' J Ws) (policy : policy S V R' J P) (new_policy : P -> Prop) (new_solver : Ws -> Prop) (name : scheme).
  Let stepper := implicit_step o policy solver name.
  Inductive integrated : S -> V -> list (call S V) -> Prop :=
  | IntegratedSteps (obs : Z -> S -> V -> U -> outcome unit * U) cs cr p yc ws g0 pol num start y0 w y' g' w' tr :
      new_policy p -> new_solver ws ->
      implicit_create o name cs cr p yc ws = Ok g0 -> (Z.of_nat num < int32_max)%Z ->
      advance_n_steps o (mk_user (split_obs obs) (pol3 (split_pol pol)) noop_guess (split_step (implicit_fn stepper)))
        (Z.of_nat num) start (y0, (g0, w), []) = (Ok tt, (y', (g', w'), tr)) ->
      integrated start y0 tr
  | IntegratedTarget (obs : Z -> S -> V -> U -> outcome unit * U) cs cr p yc ws g0 pol recovery fuel start final y0 w y' g' w' tr :
      new_policy p -> new_solver ws ->
      implicit_create o name cs cr p yc ws = Ok g0 -> seqb o final start = false ->
      to_target o (mk_user (split_obs obs) (split_pol pol) noop_guess (split_step (implicit_fn stepper))) recovery fuel
        start final (y0, (g0, w), []) = (Ok tt, (y', (g', w'), tr)) ->
      integrated start y0 tr.
End Integrated.
(** without and with mass matrix, solved with Newton's method *)
Definition integrated_std {V J H L W : Type} (U : Type) (eps : R) (no : nlops R V V J H) (xt : exts V V J H L) (cf : config R)
  (jo : vops R J) (jid : J) (u : isys (S:=R) (V:=V) (J:=J) (W:=W)) (name : scheme) :=
  integrated (U:=U) (Rops eps) (as_solver (root_solve (Rops eps) no xt cf)) (policy_std (Rops eps) (n_vo no) jo jid u)
    (fun p => exists w, p = mk_ppol (-1) w) (root_object (Rops eps)) name.

(** As many equations as unknowns: matrices that are one-to-one are onto. *)
Definition square {V J : Type} (vo : vops R V) (ap : J -> V -> V) : Prop :=
  forall K, (forall v, ap K v = vzero vo -> v = vzero vo) -> forall r, exists d, ap K d = r.
Definition definite {V : Type} (vo : vops R V) (ip : V -> V -> R) : Prop := forall x, ip x x = 0 -> x = vzero vo.

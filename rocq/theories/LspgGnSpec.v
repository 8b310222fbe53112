(** Specification of C97: LSPG problems whose FOM is nonlinear. *)
From Coq Require Import Reals ZArith List.
From Verif Require Import Base RInst ExplicitModel ImplicitModel NonlinDiag NonlinModel NonlinSpec NonlinLaws NewtonSpec GaussSpec LspgModel.
Import ListNotations.
Local Open Scope R_scope.

(** A FOM that does not fail: y' = f(y,t), and [df y phi t] is what it returns for the product of its Jacobian and the basis. *)
Definition smooth_fom {S Y J W} (fom : sfom (S:=S) (Y:=Y) (R:=Y) (J:=J) (B:=J) (W:=W)) (phi : J)
  (f : Y -> S -> Y) (df : Y -> J -> S -> J) : Prop :=
  (forall y t r w, exists w', fo_rhs fom y t r w = (Ok tt, (f y t, w'))) /\
  (forall y t j w, exists w', fo_jac fom y phi t j w = (Ok tt, (df y phi t, w'))).

(** Gauss-Newton by the normal equations or by QR, full steps *)
Definition gauss_newton (tag : lstag) (cf : config R) : Prop :=
  (tag = GaussNewton \/ tag = GaussNewtonQr) /\ f_update cf = UStandard /\ (1 <= f_max cf < int32_max)%Z.

Section Lands.
  Context {X Y J H : Type}.
  Variables (no : nlops R X Y J H) (yo : vops R Y) (ap : J -> X -> Y) (apH : H -> X -> X) (tag : lstag) (cf : config R).
  (** From [start], the state [x] found for the residual [F]: wherever there is a least-squares solution [xs] as in C96 with [start] within
      its radius, so is [x]; and if the iterations allowed are enough, [x] is as close to [xs] as the tolerance asks. *)
  Definition lands (F : X -> Y) (DF : X -> J) (start x : X) : Prop :=
    forall xs rad beta gamma rho, regular_minimum no yo ap F DF xs rad beta gamma rho -> apart no start xs <= rad ->
    (forall z, apart no z xs <= rad -> forall r, exists d,
       match tag with
       | GaussNewtonQr => qr_exact no ap (DF z) r d
       | _ => normal_exact apH (n_jtj no (DF z) (DF z)) (n_jtr no (DF z) r) d
       end) ->
    apart no x xs <= rad /\
    forall M near far n, judged_minimum (f_stop cf) (beta ^ 2 * gamma * rho + beta * (gamma / 2) * rad) beta M near far ->
    (f_stop cf = WhenAbsGradient -> forall z, apart no z xs <= rad -> forall v, n_rnorm no (ap (DF z) v) <= M * n_norm no v) ->
    near * shrunk (beta ^ 2 * gamma * rho) (beta * (gamma / 2)) (apart no start xs) n < f_tol cf -> (Z.of_nat n < f_max cf)%Z ->
    apart no x xs <= far * f_tol cf.
  (** Each step starts from the state before it. *)
  Definition lands_each (res : list X -> R -> R -> X -> Y) (jac : list X -> R -> R -> X -> J) (past : list X) (t dt : R) (x : X) : Prop :=
    match past with
    | x_n :: _ => lands (res past t dt) (jac past t dt) x_n x
    | [] => True
    end.
End Lands.

(** Specification of C81: LSPG problems whose FOM is linear. *)
From Coq Require Import Reals ZArith List.
From Verif Require Import Base RInst Laws ExplicitModel ImplicitModel ImplicitSpec NonlinDiag NonlinModel NonlinLaws LspgModel LspgSpec RomRunSpec.
Import ListNotations.
Local Open Scope R_scope.

(** Rectangular matrices: [ap j x] is the product. *)
Record tall {S X Y J} (xo : vops S X) (yo : vops S Y) (jo : vops S J) (ap : J -> X -> Y) : Prop := {
  tall_add : forall a b x, ap (vadd jo a b) x = vadd yo (ap a x) (ap b x);
  tall_scale : forall c a x, ap (vscale jo c a) x = vscale yo c (ap a x)
}.
(** A FOM that does not fail and computes y' = A(t) y + b(t); [Aphi t]: the product of A(t) and the basis. *)
Definition linear_fom {S X Y J W} (yo : vops S Y) (ap : J -> X -> Y)
  (fom : sfom (S:=S) (Y:=Y) (R:=Y) (J:=J) (B:=J) (W:=W)) (phi : J) (A : S -> Y -> Y) (b : S -> Y) (Aphi : S -> J) : Prop :=
  (forall t, linear yo yo (A t)) /\
  (forall t x, ap (Aphi t) x = A t (ap phi x)) /\
  (forall y t r w, exists w', fo_rhs fom y t r w = (Ok tt, (vadd yo (A t y) (b t), w'))) /\
  (forall y t j w, exists w', fo_jac fom y phi t j w = (Ok tt, (Aphi t, w'))).
(** The normal equations, or the triangular system of the QR factorisation, have a solution, and only one. *)
Definition regular {V Rs J H} (no : nlops R V Rs J H) (ro : vops R Rs) (apJ : J -> V -> Rs) (apH : H -> V -> V)
  (tag : lstag) (j : J) : Prop :=
  full_rank no ro apJ j /\
  forall r, exists d, match tag with
                      | GaussNewtonQr => qr_exact no apJ j r d
                      | _ => normal_exact apH (n_jtj no j j) (n_jtr no j r) d
                      end.
(** [x] minimises the norm of the residual [F] over all reduced states, and no other state does. *)
Definition only_minimiser {X Rs} (norm : Rs -> R) (F : X -> Rs) (x : X) : Prop :=
  forall z, norm (F x) <= norm (F z) /\ (norm (F z) <= norm (F x) -> z = x).
(** Each step: if the matrix of its least-squares problem is regular, the new state is the minimiser of the residual of the step,
    formed with the states before it. *)
Definition minimising {X Rs J} (norm : Rs -> R) (reg : J -> Prop) (K : R -> R -> list X -> J)
  (res : list X -> R -> R -> X -> Rs) (past : list X) (t dt : R) (x : X) : Prop :=
  reg (K t dt past) -> only_minimiser norm (res past t dt) x.

(** Gauss-Newton by the normal equations or by QR, full steps, stopping by the relative size of the correction or of the gradient,
    allowed at least two iterations. *)
Definition full_steps (tag : lstag) (cf : config R) : Prop :=
  (tag = GaussNewton \/ tag = GaussNewtonQr) /\ f_update cf = UStandard /\
  (f_stop cf = WhenRelCorrection \/ f_stop cf = WhenRelGradient) /\
  0 < f_tol cf <= 1 /\ (2 <= f_max cf < int32_max)%Z.

(** ** The FOM by itself *)
(** One BDF1 or BDF2 step of y' = f(y,t) from the states [past], newest first, the first BDF2 step being a BDF1 step. *)
Definition fom_step {S Y} (o : sops S) (yo : vops S Y) (f : Y -> S -> Y) (name : scheme) (past : list Y) (t dt : S) (y : Y) : Prop :=
  match name, past with
  | BDF2, y_n :: y_nm1 :: _ => bdf2_eq o yo (fun y => f y (sadd o t dt)) y_n y_nm1 dt y
  | _, y_n :: _ => bdf1_eq yo (fun y => f y (sadd o t dt)) y_n dt y
  | _, [] => False
  end.

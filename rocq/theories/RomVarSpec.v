(** Specification of C98: ROMs whose FOM, masks, scalings and hyper-reduction never fail. *)
From Coq Require Import Reals ZArith List.
From Verif Require Import Base RInst ExplicitModel ImplicitModel NonlinDiag NonlinModel NonlinSpec NonlinLaws NewtonSpec NewtonRunSpec LspgModel GalerkinModel RomRunSpec.
Import ListNotations.
Local Open Scope R_scope.

(** What [fom_is], [mask_is] and so on of [RomRunSpec.v] say of the user's objects when they return; here that they do. *)
Definition fom_returns {S Y Rf J B W} (fom : sfom (S:=S) (Y:=Y) (R:=Rf) (J:=J) (B:=B) (W:=W)) (phi : B) : Prop :=
  (forall y t r w, fst (fo_rhs fom y t r w) = Ok tt) /\ (forall y t j w, fst (fo_jac fom y phi t j w) = Ok tt).
Definition mask_returns {Ru Ju Rm J W} (m : masker (Ru:=Ru) (Ju:=Ju) (R:=Rm) (J:=J) (W:=W)) : Prop :=
  (forall a r w, fst (mk_R m a r w) = Ok tt) /\ (forall a j w, fst (mk_J m a j w) = Ok tt).
Definition scaler_returns {S Y Rs J W} (scaler : Y -> S -> Rs -> option J -> W -> outcome unit * (Rs * option J * W)) : Prop :=
  forall y t r Jo w, fst (scaler y t r Jo w) = Ok tt.
Definition updater_returns {S Y Rs J B W} (up : updater (S:=S) (Y:=Y) (R:=Rs) (J:=J) (B:=B) (W:=W)) : Prop :=
  (forall r a y b w, fst (up_R up r a y b w) = Ok tt) /\ (forall j a phi b w, fst (up_J up j a phi b w) = Ok tt).
Definition dfom_returns {S Y Rf Jf B W}
  (dfom : Z -> S -> S -> Rf -> B -> option Jf -> Y -> list Y -> W -> outcome unit * (Rf * option Jf * W)) (phi : B) : Prop :=
  forall step t dt r Jo y older w, fst (dfom step t dt r phi Jo y older w) = Ok tt.
Definition proj_returns {S A X W} (proj : S -> A -> X -> W -> outcome unit * (X * W)) : Prop :=
  forall t a x w, fst (proj t a x w) = Ok tt.

(** Newton's method, full steps: each step that starts well, in the sense of C91 and from the state before it, ends where the residual
    of the step is as small as the tolerance asks. *)
Definition solved_each {X J H} (no : nlops R X X J H) (ap : J -> X -> X) (cf : config R)
  (res : list X -> R -> R -> X -> X) (jac : list X -> R -> R -> X -> J) (past : list X) (t dt : R) (x : X) : Prop :=
  match past with
  | x_n :: _ => forall far, starts_well no (n_vo no) ap cf (res past t dt) (jac past t dt) x_n far ->
      n_rnorm no (res past t dt x) <= far * f_tol cf
  | [] => True
  end.

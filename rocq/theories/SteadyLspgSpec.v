(** Specification of the steady LSPG problems (C67, C68). *)
From Coq Require Import List Bool.
From Verif Require Import Base Laws LspgModel GalerkinModel GalerkinSpec SteadyLspgModel.

Section User.
  Context {X Y Rf Jf Rm Jm B W : Type}.
  Variables (must : bool) (good : W -> Prop).
  (** The FOM: its residual is [f], the action of its Jacobian on a basis [df]. *)
  Definition steady_rj_is (fom : steady_fom (Y:=Y) (Rf:=Rf) (Jf:=Jf) (B:=B) (W:=W))
             (f : Y -> Rf) (df : Y -> B -> Jf) : Prop :=
    forall y r phi j w, good w ->
      returns must good (sf_rj fom y r phi j w) (f y, option_map (fun _ => df y phi) j).
  (** The scaling at the FOM state y multiplies residuals by [SR y], Jacobians by [SJ y]. *)
  Definition scaler_is {R J} (sc : scaler (Y:=Y) (W:=W) R J) (SR : Y -> R -> R) (SJ : Y -> J -> J) : Prop :=
    forall y r j w, good w -> returns must good (sc y r j w) (SR y r, option_map (SJ y) j).

  Variables (recon : X -> Y) (phi : B).
  Variable fom : steady_fom (Y:=Y) (Rf:=Rf) (Jf:=Jf) (B:=B) (W:=W).
  (** What create_steady_problem makes. [P], [PJ]: what is done to the FOM's residual and Jacobian
      action at a FOM state: nothing, masking, scaling, or masking and then scaling. *)
  Inductive lspg_steady : forall R J : Type, (Y -> Rf -> R) -> (Y -> Jf -> J) ->
      (X -> R -> option J -> sobj Y Rf Jf W -> outcome unit * (R * option J * sobj Y Rf Jf W)) -> Prop :=
  | SteadyDefault : lspg_steady Rf Jf (fun _ r => r) (fun _ j => j) (steady_problem_default recon phi fom)
  | SteadyMasked msk (K : Rf -> Rm) (KJ : Jf -> Jm) :
      masker_is must good msk K KJ ->
      lspg_steady Rm Jm (fun _ => K) (fun _ => KJ) (steady_problem_masked recon phi fom msk)
  | SteadyScaled sc SR SJ :
      scaler_is sc SR SJ -> lspg_steady Rf Jf SR SJ (lspg_steady_default recon phi fom sc)
  | SteadyMaskedScaled msk (K : Rf -> Rm) (KJ : Jf -> Jm) sc SR SJ :
      masker_is must good msk K KJ -> scaler_is sc SR SJ ->
      lspg_steady Rm Jm (fun y r => SR y (K r)) (fun y j => SJ y (KJ j)) (lspg_steady_masked recon phi fom msk sc).
End User.

(** An affine FOM  f(y) = A y + b  on an affine trial space  { Phi x + t }:  the Jacobian action is the
    same everywhere and acts as A Phi. *)
Record affine_fom {S X Y Rf Jf B} (xo : vops S X) (yo : vops S Y) (ro : vops S Rf) (recon : X -> Y) (phi : B)
  (fapp : Jf -> X -> Rf) (f : Y -> Rf) (df : Y -> B -> Jf) (Phi : X -> Y) (A : Y -> Rf) : Prop := {
  af_recon : exists t, forall x, recon x = vadd yo (Phi x) t;
  af_lin : linear yo ro A;
  af_res : exists b, forall y, f y = vadd ro (A y) b;
  af_jac : exists j, (forall y, df y phi = j) /\ forall d, fapp j d = A (Phi d)
}.

(** Specification of C83: Galerkin ROMs of linear FOMs. *)
From Coq Require Import Reals ZArith List.
From Verif Require Import Base RInst Laws ExplicitModel ImplicitModel ImplicitSpec LspgModel RomSpec GalerkinModel GalerkinSpec.
Import ListNotations.
Local Open Scope R_scope.

(** The ROM [c] of a FOM y' = f(y,t), f affine in y, with trial space {bapp x + off}. The FOM applies its Jacobian, [D t], to the
    basis, AB(t) = D(t) phi; [P]: how a FOM right hand side is reduced (phi^T, the hyper-reduction operator, or that after the masker),
    [PJ] does the same with the columns of the Jacobian action. *)
Record linear_rom {X Y Rf Jf Mf Rm Jm J B W : Type} (eps : R) (xo : vops R X) (yo : vops R Y) (ro : vops R Rf) (jo : vops R J)
    (ap : J -> X -> X) (fapp : Jf -> X -> Rf) (recon bapp : X -> Y) (off : Y) (phi : B)
    (fom : sfom (S:=R) (Y:=Y) (R:=Rf) (J:=Jf) (B:=B) (W:=W)) (f : Y -> R -> Rf) (D : R -> Y -> Rf) (AB : R -> Jf)
    (P : R -> Rf -> X) (PJ : R -> Jf -> J)
    (c : X -> R -> gcmd (X:=X) (Y:=Y) (Rf:=Rf) (Jf:=Jf) (Mf:=Mf) (Rm:=Rm) (Jm:=Jm) (J:=J) (M:=unit) (W:=W)) : Prop := {
  lr_space : vspace (Rops eps) yo;
  lr_basis : linear xo yo bapp;
  lr_recon : forall x, recon x = vadd yo (bapp x) off;
  lr_affine : forall y d t, f (vadd yo y d) t = vadd ro (f y t) (D t d);
  lr_rhs : fom_rhs true (fun _ => True) fom f;
  lr_jac : exists df, fom_jac true (fun _ => True) fom df /\ forall y t, df y phi t = AB t;
  lr_action : forall t x, fapp (AB t) x = D t (bapp x);
  lr_reduce : forall t, linear ro xo (P t);
  lr_reduce_jac : forall t M x, ap (PJ t M) x = P t (fapp M x);
  lr_kind : galerkin_rhs_jac true (fun _ => True) (Rops eps) xo jo recon phi fom P PJ c
}.
(** The reduced equation x' = P(t) f(bapp x + off, t). *)
Definition reduced {X Y Rf : Type} (recon : X -> Y) (f : Y -> R -> Rf) (P : R -> Rf -> X) (x : X) (t : R) : X := P t (f (recon x) t).

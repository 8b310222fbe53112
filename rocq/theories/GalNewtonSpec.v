(** Specification of C93: Galerkin ROMs of nonlinear FOMs. *)
From Coq Require Import Reals ZArith List.
From Verif Require Import Base RInst Laws ExplicitModel ImplicitModel ImplicitSpec LspgModel RomSpec GalerkinModel GalerkinSpec.
Import ListNotations.
Local Open Scope R_scope.

(** The ROM [c] of a FOM y' = f(y,t) with trial space {bapp x + off}. The FOM applies its Jacobian at y, [D y t], to the basis,
    AB(y,t) = D(y,t) phi; [P]: how a FOM right hand side is reduced (phi^T, the hyper-reduction operator, or that after the masker),
    [PJ] does the same with the columns of the Jacobian action. *)
Record smooth_rom {X Y Rf Jf Mf Rm Jm J B W : Type} (eps : R) (xo : vops R X) (yo : vops R Y) (ro : vops R Rf) (jo : vops R J)
    (ap : J -> X -> X) (fapp : Jf -> X -> Rf) (recon bapp : X -> Y) (off : Y) (phi : B)
    (fom : sfom (S:=R) (Y:=Y) (R:=Rf) (J:=Jf) (B:=B) (W:=W)) (f : Y -> R -> Rf) (D : Y -> R -> Y -> Rf) (AB : Y -> R -> Jf)
    (P : R -> Rf -> X) (PJ : R -> Jf -> J)
    (c : X -> R -> gcmd (X:=X) (Y:=Y) (Rf:=Rf) (Jf:=Jf) (Mf:=Mf) (Rm:=Rm) (Jm:=Jm) (J:=J) (M:=unit) (W:=W)) : Prop := {
  sr_space : vspace (Rops eps) yo;
  sr_basis : linear xo yo bapp;
  sr_recon : forall x, recon x = vadd yo (bapp x) off;
  sr_rhs : fom_rhs true (fun _ => True) fom f;
  sr_jac : exists df, fom_jac true (fun _ => True) fom df /\ forall y t, df y phi t = AB y t;
  sr_action : forall y t x, fapp (AB y t) x = D y t (bapp x);
  sr_reduce : forall t, linear ro xo (P t);
  sr_reduce_jac : forall t M x, ap (PJ t M) x = P t (fapp M x);
  sr_kind : galerkin_rhs_jac true (fun _ => True) (Rops eps) xo jo recon phi fom P PJ c
}.
(** The derivative of the reduced right hand side P(t) f(bapp x + off, t) *)
Definition reduced_jac {X Y Jf J : Type} (recon : X -> Y) (AB : Y -> R -> Jf) (PJ : R -> Jf -> J) (x : X) (t : R) : J := PJ t (AB (recon x) t).

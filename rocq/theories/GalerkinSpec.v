(** Specification of the Galerkin systems (C37): what the user's objects compute, and what a
    Galerkin system is built from. *)
From Coq Require Import ZArith List Bool.
From Verif Require Import Base ExplicitModel ImplicitModel ImplicitSpec LspgModel RomSpec GalerkinModel.
Import ListNotations.

(** A call that computes [v]: if it returns then with [v], and the world stays in [good] in
    any case. With [must] it does return. *)
Definition returns {A W} (must : bool) (good : W -> Prop) (r : outcome unit * (A * W)) (v : A) : Prop :=
  good (snd (snd r)) /\ (fst r = Ok tt -> fst (snd r) = v) /\ (must = true -> fst r = Ok tt).

(** ops::product(transpose(), a, phi, v, b, out) computes a T(v) + b out; T is phi^T. *)
Definition product_is {S B A V} (vo : vops S V) (prod : S -> B -> A -> S -> V -> V) (phi : B) (T : A -> V) : Prop :=
  forall a v b r, prod a phi v b r = vadd vo (vscale vo a (T v)) (vscale vo b r).

Section User.
  Context {S X Y Rf Jf Mf Rm Jm J B W : Type}.
  Variables (must : bool) (good : W -> Prop).
  (** The FOM's right-hand side, Jacobian action and mass matrix action *)
  Definition fom_rhs (fom : sfom (S:=S) (Y:=Y) (R:=Rf) (J:=Jf) (B:=B) (W:=W)) (f : Y -> S -> Rf) : Prop :=
    forall y t r w, good w -> returns must good (fo_rhs fom y t r w) (f y t).
  Definition fom_jac (fom : sfom (S:=S) (Y:=Y) (R:=Rf) (J:=Jf) (B:=B) (W:=W)) (df : Y -> B -> S -> Jf) : Prop :=
    forall y phi t j w, good w -> returns must good (fo_jac fom y phi t j w) (df y phi t).
  Definition fom_mass (mass : Y -> B -> S -> Mf -> W -> outcome unit * (Mf * W)) (dm : Y -> B -> S -> Mf) : Prop :=
    forall y phi t m w, good w -> returns must good (mass y phi t m w) (dm y phi t).
  (** The hyper-reduction operator and the masker *)
  Definition reducer_is {A AJ} (h : reducer (S:=S) (X:=X) (J:=J) (W:=W) A AJ)
             (H : S -> A -> X) (HJ : S -> AJ -> J) : Prop :=
    (forall a t r w, good w -> returns must good (hr_r h a t r w) (H t a)) /\
    (forall a t j w, good w -> returns must good (hr_j h a t j w) (HJ t a)).
  Definition masker_is (m : masker (Ru:=Rf) (Ju:=Jf) (R:=Rm) (J:=Jm) (W:=W)) (K : Rf -> Rm) (KJ : Jf -> Jm) : Prop :=
    (forall a r w, good w -> returns must good (mk_R m a r w) (K a)) /\
    (forall a j w, good w -> returns must good (mk_J m a j w) (KJ a)).
  (** A steady FOM: residual [f], action of its Jacobian on the basis [df], on a vector [dv] *)
  Definition steady_is (fom : steady_fom (Y:=Y) (Rf:=Rf) (Jf:=Jf) (B:=B) (W:=W))
             (f : Y -> Rf) (df : Y -> B -> Jf) (dv : Y -> Y -> Rf) : Prop :=
    (forall y r w, good w -> returns must good (sf_res fom y r w) (f y)) /\
    (forall y r phi j w, good w ->
       returns must good (sf_rj fom y r phi j w) (f y, option_map (fun _ => df y phi) j)) /\
    (forall y v r w, good w -> returns must good (sf_jv fom y v r w) (dv y v)).

  (** ** The unsteady systems. [P], [PJ]: how a FOM right-hand side and a FOM Jacobian action are
      reduced. Default: by phi^T; hyper-reduced: by the user's operator; masked: by the
      masker and then the user's operator. *)
  Variables (o : sops S) (xo : vops S X) (jo : vops S J).
  Variables (recon : X -> Y) (phi : B).
  Variable fom : sfom (S:=S) (Y:=Y) (R:=Rf) (J:=Jf) (B:=B) (W:=W).
  Notation gcmd := (gcmd (X:=X) (Y:=Y) (Rf:=Rf) (Jf:=Jf) (Mf:=Mf) (Rm:=Rm) (Jm:=Jm) (J:=J) (M:=unit) (W:=W)).
  Inductive galerkin_rhs : (S -> Rf -> X) -> (X -> S -> gcmd) -> Prop :=
  | DefaultRhs prodv T :
      product_is xo prodv phi T -> galerkin_rhs (fun _ => T) (default_rhs o recon phi prodv fom)
  | HypredRhs hyp H HJ :
      reducer_is hyp H HJ -> galerkin_rhs H (hypred_rhs recon fom hyp)
  | MaskedRhs msk K KJ hyp H HJ :
      masker_is msk K KJ -> reducer_is hyp H HJ ->
      galerkin_rhs (fun t r => H t (K r)) (masked_rhs recon fom msk hyp).
  Inductive galerkin_rhs_jac : (S -> Rf -> X) -> (S -> Jf -> J) -> (X -> S -> gcmd) -> Prop :=
  | DefaultRhsJac prodv prodj T TJ :
      product_is xo prodv phi T -> product_is jo prodj phi TJ ->
      galerkin_rhs_jac (fun _ => T) (fun _ => TJ) (default_rhs_jac o recon phi prodv prodj fom)
  | HypredRhsJac hyp H HJ :
      reducer_is hyp H HJ -> galerkin_rhs_jac H HJ (hypred_rhs_jac recon phi fom hyp)
  | MaskedRhsJac msk K KJ hyp H HJ :
      masker_is msk K KJ -> reducer_is hyp H HJ ->
      galerkin_rhs_jac (fun t r => H t (K r)) (fun t j => HJ t (KJ j)) (masked_rhs_jac recon phi fom msk hyp).
End User.

(** ** The steady systems *)
Section SteadySpec.
  Context {S X Y Rf Jf Rm Jm J B W : Type}.
  Variables (must : bool) (good : W -> Prop).
  Variables (o : sops S) (xo : vops S X) (jo : vops S J).
  Variables (recon : X -> Y) (phi : B).
  Variable fom : steady_fom (Y:=Y) (Rf:=Rf) (Jf:=Jf) (B:=B) (W:=W).
  Notation gcmd := (gcmd (X:=X) (Y:=Y) (Rf:=Rf) (Jf:=Jf) (Mf:=unit) (Rm:=Rm) (Jm:=Jm) (J:=J) (M:=unit) (W:=W)).
  Inductive galerkin_steady : (Rf -> X) -> (Jf -> J) -> (X -> gcmd) -> Prop :=
  | DefaultSteady prodv prodj T TJ :
      product_is xo prodv phi T -> product_is jo prodj phi TJ ->
      galerkin_steady T TJ (steady_default o recon phi prodv prodj fom)
  | HypredSteady (t0 : S) hyp H HJ :
      reducer_is must good hyp H HJ -> galerkin_steady (H t0) (HJ t0) (steady_hypred recon phi fom t0 hyp)
  | MaskedSteady (t0 : S) msk K KJ hyp H HJ :
      masker_is must good msk K KJ -> reducer_is must good hyp H HJ ->
      galerkin_steady (fun r => H t0 (K r)) (fun j => HJ t0 (KJ j)) (steady_masked recon phi fom t0 msk hyp).
End SteadySpec.

(** ** The reduced problem as an ODE of its own
    A system written directly for x' = F(x,t) (with Jacobian [JF], mass matrix [MF]). *)
Section Direct.
  Context {S X J : Type}.
  Definition ode_system (F : X -> S -> X) (JF : X -> S -> J) : isys (S:=S) (V:=X) (J:=J) (W:=unit) :=
    mk_isys (fun x t _ j w => (Ok tt, (F x t, option_map (fun _ => JF x t) j, w)))
            (fun _ _ m f j w => (NoFuel, (m, f, j, w))).
  Definition ode_mass_system (F : X -> S -> X) (JF MF : X -> S -> J) : isys (S:=S) (V:=X) (J:=J) (W:=unit) :=
    mk_isys (fun _ _ f j w => (NoFuel, (f, j, w)))
            (fun x t _ _ j w => (Ok tt, (MF x t, F x t, option_map (fun _ => JF x t) j, w))).
End Direct.

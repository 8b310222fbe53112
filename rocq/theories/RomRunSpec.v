(** Specification of C79 and C80: what the user's objects of a fully discrete or LSPG problem
    compute, and when a reduced state is accepted. *)
From Coq Require Import ZArith List Bool.
From Verif Require Import Base ExplicitModel ImplicitModel ImplicitSpec LspgModel RomSpec LspgSpec GalerkinModel GalerkinSpec.
Import ListNotations.
Local Open Scope Z_scope.

(** Whenever the fully discrete FOM returns, the residual is [Rd], and the Jacobian action on
    [phi], if it was requested, [Jd]. *)
Definition dfom_is {S Y Rf Jf B W}
  (dfom : Z -> S -> S -> Rf -> B -> option Jf -> Y -> list Y -> W -> outcome unit * (Rf * option Jf * W)) (phi : B)
  (Rd : Z -> S -> S -> Y -> list Y -> Rf) (Jd : Z -> S -> S -> Y -> list Y -> Jf) : Prop :=
  forall step t dt r Jo y older w r' j' w',
  dfom step t dt r phi Jo y older w = (Ok tt, (r', j', w')) ->
  r' = Rd step t dt y older /\ (forall j, Jo = Some j -> j' = Some (Jd step t dt y older)).
(** Whenever a projection returns, it gives [P]. *)
Definition proj_is {S A X W} (proj : S -> A -> X -> W -> outcome unit * (X * W)) (P : S -> A -> X) : Prop :=
  forall t a x w x' w', proj t a x w = (Ok tt, (x', w')) -> x' = P t a.
(** The projections of the fully discrete Galerkin systems: by phi^T, or by the user's
    hyper-reduction operator. *)
Inductive projections {S X J B Rf Jf W} (o : sops S) (xo : vops S X) (jo : vops S J) (phi : B)
  : (S -> Rf -> X -> W -> outcome unit * (X * W)) -> (S -> Jf -> J -> W -> outcome unit * (J * W)) ->
    (S -> Rf -> X) -> (S -> Jf -> J) -> Prop :=
| ByBasis prodv prodj T TJ :
    product_is xo prodv phi T -> product_is jo prodj phi TJ ->
    projections o xo jo phi (project_by o prodv phi) (project_by o prodj phi) (fun _ => T) (fun _ => TJ)
| ByReducer (h : reducer (S:=S) (X:=X) (J:=J) (W:=W) Rf Jf) H HJ :
    proj_is (fun t a r w => hr_r h a t r w) H -> proj_is (fun t a j w => hr_j h a t j w) HJ ->
    projections o xo jo phi (fun t a r w => hr_r h a t r w) (fun t a j w => hr_j h a t j w) H HJ.
(** Masks, scalings, and updaters of hyper-reduced residuals *)
Definition mask_is {Ru Ju R J W} (m : masker (Ru:=Ru) (Ju:=Ju) (R:=R) (J:=J) (W:=W)) (K : Ru -> R) (KJ : Ju -> J) : Prop :=
  (forall a r w r' w', mk_R m a r w = (Ok tt, (r', w')) -> r' = K a) /\
  (forall a j w j' w', mk_J m a j w = (Ok tt, (j', w')) -> j' = KJ a).
Definition scaler_is {S Y R J W} (scaler : Y -> S -> R -> option J -> W -> outcome unit * (R * option J * W))
  (Sc : Y -> S -> R -> R) (ScJ : Y -> S -> J -> J) : Prop :=
  forall y t r Jo w r' j' w', scaler y t r Jo w = (Ok tt, (r', j', w')) ->
  r' = Sc y t r /\ (forall j, Jo = Some j -> j' = Some (ScJ y t j)).
Definition updater_is {S Y R J B W} (up : updater (S:=S) (Y:=Y) (R:=R) (J:=J) (B:=B) (W:=W))
  (U : R -> S -> Y -> S -> R) (UJ : J -> S -> B -> S -> J) : Prop :=
  (forall r a y b w r' w', up_R up r a y b w = (Ok tt, (r', w')) -> r' = U r a y b) /\
  (forall j a phi b w j' w', up_J up j a phi b w = (Ok tt, (j', w')) -> j' = UJ j a phi b).

(** The exception of a fully discrete FOM as the solver sees it. *)
Definition as_residual_failure (e : outcome unit) : outcome unit :=
  match e with Throw EDiscreteTimeResidual => Throw EResidualEvaluation | _ => e end.

(** ** Solvers
    The solver returns normally only with a state at which it was given a residual, and
    perhaps a Jacobian, that [Acc] accepts ([ok]: the states for which this is known so far). *)
Fixpoint certified_rj {V R J Ws} (Acc : R -> option J -> Prop) (ok : V -> Prop) (s : sol V R J Ws) : Prop :=
  match s with
  | SEnd (Ok _) y _ => ok y
  | SEnd _ _ _ => True
  | SCall y _ _ k => forall e r j,
      certified_rj Acc (match e with Ok _ => fun z => (z = y /\ Acc r j) \/ ok z | _ => ok end) (k e r j)
  end.
(** The new state is acceptable: [res], [jac], residual and Jacobian of the step from the states
    accepted before, newest first. *)
Definition accepted_rj {S X R J} (Acc : R -> option J -> Prop) (res : list X -> S -> S -> X -> R)
  (jac : list X -> S -> S -> X -> J) (past : list X) (t dt : S) (x : X) : Prop :=
  Acc (res past t dt x) None \/ Acc (res past t dt x) (Some (jac past t dt x)).

(** ** Residuals and Jacobians *)
(** Fully discrete: the FOM at the reconstructed states *)
Section Discrete.
  Context {S X Y Rf : Type} (o : sops S).
  Variable recon : X -> Y.
  Variable z : Y.
  Variable three : bool.
  Definition discrete_at {A} (F : Z -> S -> S -> Y -> list Y -> A) (past : list X) (t dt : S) (x : X) : A :=
    F (Z.of_nat (length past)) (sadd o t dt) dt (recon x) (fom_stencil recon z three past).
  Definition projected_at {A B} (P : S -> A -> B) (F : Z -> S -> S -> Y -> list Y -> A) (past : list X) (t dt : S) (x : X) : B :=
    P (sadd o t dt) (discrete_at F past t dt x).
End Discrete.
(** LSPG: the BDF1 residual of the FOM for BDF1 and for the first step of BDF2, else BDF2's;
    [h]: the factor before dt *)
Section Semi.
  Context {S X : Type} (o : sops S).
  Definition by_past {A} (name : scheme) (one : X -> A) (two : X -> X -> A) (none : A) (past : list X) : A :=
    match name, past with
    | BDF2, x_n :: x_nm1 :: _ => two x_n x_nm1
    | _, x_n :: _ => one x_n
    | _, [] => none
    end.
  Context {Y J : Type} (yo : vops S Y) (jo : vops S J) (recon : X -> Y).
  Variables (f : Y -> S -> Y) (df : Y -> J -> S -> J) (phi : J).
  Definition lspg_res (name : scheme) (past : list X) (t dt : S) (x : X) : Y :=
    let v := f (recon x) (sadd o t dt) in
    by_past name (fun x_n => bdf1_R o yo (recon x_n) dt v (recon x))
      (fun x_n x_nm1 => bdf2_R o yo (recon x_n) (recon x_nm1) dt v (recon x)) v past.
  Definition lspg_jacobian (name : scheme) (past : list X) (t dt : S) (x : X) : J :=
    let j := df (recon x) phi (sadd o t dt) in
    by_past name (fun _ => scheme_J o jo phi (s1 o) dt j) (fun _ _ => scheme_J o jo phi (frac o 2 3) dt j) j past.
End Semi.
(** Hyper-reduced: what the updater makes of the right-hand side on the sample mesh and of the
    combination of states on the stencil mesh *)
Section HypRed.
  Context {S X Y R J B : Type} (o : sops S) (yo : vops S Y) (recon : X -> Y).
  Variables (f : Y -> S -> R) (df : Y -> B -> S -> J) (phi : B).
  Variables (U : R -> S -> Y -> S -> R) (UJ : J -> S -> B -> S -> J).
  Definition hypred_res (name : scheme) (past : list X) (t dt : S) (x : X) : R :=
    let v := f (recon x) (sadd o t dt) in
    by_past name (fun x_n => U v (sopp o dt) (vminus o yo (recon x) (recon x_n)) (s1 o))
      (fun x_n x_nm1 => U v (sopp o (smul o (frac o 2 3) dt))
         (vadd yo (vminus o yo (recon x) (vscale yo (frac o 4 3) (recon x_n))) (vscale yo (frac o 1 3) (recon x_nm1)))
         (s1 o)) v past.
  Definition hypred_jacobian (name : scheme) (past : list X) (t dt : S) (x : X) : J :=
    let j := df (recon x) phi (sadd o t dt) in
    by_past name (fun _ => UJ j (sopp o dt) phi (s1 o)) (fun _ _ => UJ j (sopp o (smul o (frac o 2 3) dt)) phi (s1 o)) j past.
End HypRed.
(** Behind a mask, or a scaling at the reconstructed state *)
Definition masked_at {S X A B} (K : A -> B) (F : list X -> S -> S -> X -> A) (past : list X) (t dt : S) (x : X) : B :=
  K (F past t dt x).
Definition scaled_at {S X Y A} (o : sops S) (recon : X -> Y) (Sc : Y -> S -> A -> A) (F : list X -> S -> S -> X -> A)
  (past : list X) (t dt : S) (x : X) : A := Sc (recon x) (sadd o t dt) (F past t dt x).

(** Model of the Galerkin systems: rom/impl/galerkin_unsteady_system_default_rhs_only.hpp,
    ..._default_rhs_with_mass_matrix.hpp, ..._default_rhs_and_jacobian.hpp,
    ..._default_rhs_and_jacobian_and_mm.hpp, ..._hypred_rhs_only.hpp,
    ..._hypred_rhs_and_jacobian.hpp, ..._masked_rhs_only.hpp,
    ..._masked_rhs_and_jacobian.hpp, galerkin_steady_system_default.hpp,
    ..._hypred.hpp, ..._masked.hpp, galerkin_helpers.hpp,
    galerkin_unsteady_explicit_problem.hpp, galerkin_unsteady_explicit.hpp,
    galerkin_unsteady_implicit.hpp. (The fully discrete ones are in LspgModel.) No
    proofs in this file.

    [X]: reduced states, right-hand sides and residuals; [Y]: FOM states; [Rf],
    [Jf], [Mf]: FOM right-hand sides (or residuals), Jacobian and mass matrix actions
    on the basis; [Rm], [Jm]: masked ones; [J], [M]: reduced Jacobian and mass matrix;
    [B]: basis. [recon]: mapFromReducedState (see SubspaceModel). ops::product is a
    parameter; it does not throw. *)
From Coq Require Import ZArith List Bool.
From Verif Require Import Base ExplicitModel ImplicitModel LspgModel.
Import ListNotations.
Local Open Scope cmd_scope.

Section Galerkin.
  Context {S X Y Rf Jf Mf Rm Jm J M B W : Type} (o : sops S).
  Variable recon : X -> Y.
  Variable phi : B.
  (** ops::product(transpose(), alpha, phi, v, beta, out), and for matrices *)
  Variable prodv : S -> B -> Rf -> S -> X -> X.
  Variable prodj : S -> B -> Jf -> S -> J -> J.
  Variable prodm : S -> B -> Mf -> S -> M -> M.

  (** The mutable members of all the system classes (each has some of them):
      fomState_, fomRhs_ or fomResidual_ (unMasked...), fomJacAction_,
      fomMMAction_, maskedFomRhs_, maskedFomJacAction_; the user's world; and what
      the caller passed by reference to be filled. *)
  (* galerkin_unsteady_system_default_rhs_only.hpp 75-76; galerkin_unsteady_system_default_rhs_with_mass_matrix.hpp 83-85; galerkin_unsteady_system_default_rhs_and_jacobian.hpp 106-108; galerkin_unsteady_system_default_rhs_and_jacobian_and_mm.hpp 120-123; galerkin_unsteady_system_hypred_rhs_only.hpp 69-71; galerkin_unsteady_system_hypred_rhs_and_jacobian.hpp 93-96; galerkin_unsteady_system_masked_rhs_only.hpp 80-84; galerkin_unsteady_system_masked_rhs_and_jacobian.hpp 109-119; galerkin_steady_system_default.hpp 136-140; galerkin_steady_system_hypred.hpp 112-115; galerkin_steady_system_masked.hpp 113-123 *)
  Record gmem := mk_gmem {
    g_y : Y; g_f : Rf; g_j : Jf; g_m : Mf; g_kf : Rm; g_kj : Jm; g_w : W;
    o_r : X; o_j : option J; o_m : M
  }.
  (* model only: computations over gmem *)
  Definition gcmd := cmd gmem unit.
  (* fomState_, written: galerkin_unsteady_system_default_rhs_only.hpp 56 and its like *)
  Definition set_y v : gcmd := fun g =>
    (Ok tt, mk_gmem v (g_f g) (g_j g) (g_m g) (g_kf g) (g_kj g) (g_w g) (o_r g) (o_j g) (o_m g)).
  (* the reduced right-hand side or residual, written: galerkin_unsteady_system_default_rhs_only.hpp 67-69 and its like *)
  Definition set_r v : gcmd := fun g =>
    (Ok tt, mk_gmem (g_y g) (g_f g) (g_j g) (g_m g) (g_kf g) (g_kj g) (g_w g) v (o_j g) (o_m g)).
  (* the reduced mass matrix, written: galerkin_unsteady_system_default_rhs_with_mass_matrix.hpp 75-77 *)
  Definition set_m v : gcmd := fun g =>
    (Ok tt, mk_gmem (g_y g) (g_f g) (g_j g) (g_m g) (g_kf g) (g_kj g) (g_w g) (o_r g) (o_j g) v).
  (* galerkin_unsteady_system_default_rhs_and_jacobian.hpp 89; galerkin_steady_system_default.hpp 95, 103 *)
  Definition requested (g : gmem) : bool := match o_j g with Some _ => true | None => false end.
  (** if (reducedJacobian) { c } *)
  (* galerkin_unsteady_system_default_rhs_and_jacobian.hpp 89-100; galerkin_unsteady_system_hypred_rhs_and_jacobian.hpp 83-87; galerkin_unsteady_system_masked_rhs_and_jacobian.hpp 98-103; galerkin_steady_system_default.hpp 103-110 *)
  Definition if_requested (c : gcmd) : gcmd := fun g => if requested g then c g else (Ok tt, g).

  (** trialSubspace_.get().mapFromReducedState(reducedState, fomState_) *)
  (* galerkin_unsteady_system_default_rhs_only.hpp 56; galerkin_unsteady_system_default_rhs_with_mass_matrix.hpp 58; galerkin_unsteady_system_default_rhs_and_jacobian.hpp 75; galerkin_unsteady_system_default_rhs_and_jacobian_and_mm.hpp 82; galerkin_unsteady_system_hypred_rhs_only.hpp 59; galerkin_unsteady_system_hypred_rhs_and_jacobian.hpp 80; galerkin_unsteady_system_masked_rhs_only.hpp 68; galerkin_unsteady_system_masked_rhs_and_jacobian.hpp 93; galerkin_steady_system_default.hpp 74, 87, 118; galerkin_steady_system_hypred.hpp 81; galerkin_steady_system_masked.hpp 89 *)
  Definition map_state (x : X) : gcmd := set_y (recon x).

  (** Calls of user objects *)
  Variable fom : sfom (S:=S) (Y:=Y) (R:=Rf) (J:=Jf) (B:=B) (W:=W).
  Variable mass : Y -> B -> S -> Mf -> W -> outcome unit * (Mf * W).
  (** rhs(fomState_, t, fomRhs_) *)
  (* galerkin_unsteady_system_default_rhs_only.hpp 59; galerkin_unsteady_system_default_rhs_with_mass_matrix.hpp 60; galerkin_unsteady_system_default_rhs_and_jacobian.hpp 77; galerkin_unsteady_system_default_rhs_and_jacobian_and_mm.hpp 85; galerkin_unsteady_system_hypred_rhs_only.hpp 61; galerkin_unsteady_system_hypred_rhs_and_jacobian.hpp 81; galerkin_unsteady_system_masked_rhs_only.hpp 70; galerkin_unsteady_system_masked_rhs_and_jacobian.hpp 94 *)
  Definition call_rhs (t : S) : gcmd := fun g =>
    let '(e, (f, w)) := fo_rhs fom (g_y g) t (g_f g) (g_w g) in
    (e, mk_gmem (g_y g) f (g_j g) (g_m g) (g_kf g) (g_kj g) w (o_r g) (o_j g) (o_m g)).
  (** applyJacobian(fomState_, phi, t, fomJacAction_) *)
  (* galerkin_unsteady_system_default_rhs_and_jacobian.hpp 91; galerkin_unsteady_system_default_rhs_and_jacobian_and_mm.hpp 105; galerkin_unsteady_system_hypred_rhs_and_jacobian.hpp 85; galerkin_unsteady_system_masked_rhs_and_jacobian.hpp 100 *)
  Definition call_jac (t : S) : gcmd := fun g =>
    let '(e, (j, w)) := fo_jac fom (g_y g) phi t (g_j g) (g_w g) in
    (e, mk_gmem (g_y g) (g_f g) j (g_m g) (g_kf g) (g_kj g) w (o_r g) (o_j g) (o_m g)).
  (** applyMassMatrix(fomState_, phi, t, fomMMAction_) *)
  (* galerkin_unsteady_system_default_rhs_with_mass_matrix.hpp 72; galerkin_unsteady_system_default_rhs_and_jacobian_and_mm.hpp 98 *)
  Definition call_mass (t : S) : gcmd := fun g =>
    let '(e, (m, w)) := mass (g_y g) phi t (g_m g) (g_w g) in
    (e, mk_gmem (g_y g) (g_f g) (g_j g) m (g_kf g) (g_kj g) w (o_r g) (o_j g) (o_m g)).

  (** phi^T times the FOM object, with alpha = 1 and beta = 0 *)
  (* galerkin_unsteady_system_default_rhs_only.hpp 67-69; galerkin_unsteady_system_default_rhs_with_mass_matrix.hpp 68-70; galerkin_unsteady_system_default_rhs_and_jacobian.hpp 85-87; galerkin_unsteady_system_default_rhs_and_jacobian_and_mm.hpp 93-95; galerkin_steady_system_default.hpp 77-78, 100-101 *)
  Definition project_r : gcmd := fun g => set_r (prodv (s1 o) phi (g_f g) (s0 o) (o_r g)) g.
  (* galerkin_unsteady_system_default_rhs_with_mass_matrix.hpp 75-77; galerkin_unsteady_system_default_rhs_and_jacobian_and_mm.hpp 99-101 *)
  Definition project_m : gcmd := fun g => set_m (prodm (s1 o) phi (g_m g) (s0 o) (o_m g)) g.
  (* galerkin_unsteady_system_default_rhs_and_jacobian.hpp 96-99; galerkin_unsteady_system_default_rhs_and_jacobian_and_mm.hpp 110-113; galerkin_steady_system_default.hpp 106-109 *)
  Definition project_j : gcmd := fun g =>
    (Ok tt, mk_gmem (g_y g) (g_f g) (g_j g) (g_m g) (g_kf g) (g_kj g) (g_w g) (o_r g)
                    (on_jac (fun j => prodj (s1 o) phi (g_j g) (s0 o) j) (o_j g)) (o_m g)).

  (** hyperReducer(operand, t, result); in the steady systems without t. [A], [AJ]:
      what it is applied to *)
  (* hyperReducer_ as called at galerkin_unsteady_system_hypred_rhs_only.hpp 63; galerkin_unsteady_system_hypred_rhs_and_jacobian.hpp 82, 86; galerkin_unsteady_system_masked_rhs_only.hpp 74; galerkin_unsteady_system_masked_rhs_and_jacobian.hpp 96, 102; galerkin_steady_system_hypred.hpp 89, 91; galerkin_steady_system_masked.hpp 103, 106 *)
  Record reducer (A AJ : Type) := mk_reducer {
    hr_r : A -> S -> X -> W -> outcome unit * (X * W);
    hr_j : AJ -> S -> J -> W -> outcome unit * (J * W)
  }.
  (* galerkin_unsteady_system_hypred_rhs_only.hpp 63; galerkin_unsteady_system_hypred_rhs_and_jacobian.hpp 82; galerkin_unsteady_system_masked_rhs_only.hpp 74; galerkin_unsteady_system_masked_rhs_and_jacobian.hpp 96; galerkin_steady_system_hypred.hpp 89; galerkin_steady_system_masked.hpp 103 *)
  Definition reduce_r {A AJ} (h : reducer A AJ) (src : gmem -> A) (t : S) : gcmd := fun g =>
    let '(e, (r, w)) := hr_r A AJ h (src g) t (o_r g) (g_w g) in
    (e, mk_gmem (g_y g) (g_f g) (g_j g) (g_m g) (g_kf g) (g_kj g) w r (o_j g) (o_m g)).
  (* galerkin_unsteady_system_hypred_rhs_and_jacobian.hpp 86; galerkin_unsteady_system_masked_rhs_and_jacobian.hpp 102; galerkin_steady_system_hypred.hpp 91; galerkin_steady_system_masked.hpp 106 *)
  Definition reduce_j {A AJ} (h : reducer A AJ) (src : gmem -> AJ) (t : S) : gcmd := fun g =>
    match o_j g with
    | Some j0 =>
        let '(e, (j, w)) := hr_j A AJ h (src g) t j0 (g_w g) in
        (e, mk_gmem (g_y g) (g_f g) (g_j g) (g_m g) (g_kf g) (g_kj g) w (o_r g) (Some j) (o_m g))
    | None => (Undef UNullDeref, g)
    end.
  (** masker(unmasked, masked) *)
  Variable msk : masker (Ru:=Rf) (Ju:=Jf) (R:=Rm) (J:=Jm) (W:=W).
  (* galerkin_unsteady_system_masked_rhs_only.hpp 72; galerkin_unsteady_system_masked_rhs_and_jacobian.hpp 95; galerkin_steady_system_masked.hpp 102 *)
  Definition mask_r : gcmd := fun g =>
    let '(e, (k, w)) := mk_R msk (g_f g) (g_kf g) (g_w g) in
    (e, mk_gmem (g_y g) (g_f g) (g_j g) (g_m g) k (g_kj g) w (o_r g) (o_j g) (o_m g)).
  (* galerkin_unsteady_system_masked_rhs_and_jacobian.hpp 101; galerkin_steady_system_masked.hpp 105 *)
  Definition mask_j : gcmd := fun g =>
    let '(e, (k, w)) := mk_J msk (g_j g) (g_kj g) (g_w g) in
    (e, mk_gmem (g_y g) (g_f g) (g_j g) (g_m g) (g_kf g) k w (o_r g) (o_j g) (o_m g)).

  (** ** Unsteady systems *)
  (** galerkin_unsteady_system_default_rhs_only.hpp 51-70 *)
  Definition default_rhs (x : X) (t : S) : gcmd := map_state x;;; call_rhs t;;; project_r.
  (** galerkin_unsteady_system_default_rhs_with_mass_matrix.hpp 51-78 *)
  Definition default_mass_rhs (x : X) (t : S) : gcmd :=
    map_state x;;; call_rhs t;;; project_r;;; call_mass t;;; project_m.
  (** galerkin_unsteady_system_default_rhs_and_jacobian.hpp 68-101 *)
  Definition default_rhs_jac (x : X) (t : S) : gcmd :=
    map_state x;;; call_rhs t;;; project_r;;; if_requested (call_jac t;;; project_j).
  (** galerkin_unsteady_system_default_rhs_and_jacobian_and_mm.hpp 74-115 *)
  Definition default_mass_rhs_jac (x : X) (t : S) : gcmd :=
    map_state x;;; call_rhs t;;; project_r;;; call_mass t;;; project_m;;;
    if_requested (call_jac t;;; project_j).
  Variable hyp : reducer Rf Jf.
  (** galerkin_unsteady_system_hypred_rhs_only.hpp 53-64 *)
  Definition hypred_rhs (x : X) (t : S) : gcmd := map_state x;;; call_rhs t;;; reduce_r hyp g_f t.
  (** galerkin_unsteady_system_hypred_rhs_and_jacobian.hpp 74-88 *)
  Definition hypred_rhs_jac (x : X) (t : S) : gcmd :=
    map_state x;;; call_rhs t;;; reduce_r hyp g_f t;;; if_requested (call_jac t;;; reduce_j hyp g_j t).
  Variable hypm : reducer Rm Jm.
  (** galerkin_unsteady_system_masked_rhs_only.hpp 62-75 *)
  Definition masked_rhs (x : X) (t : S) : gcmd :=
    map_state x;;; call_rhs t;;; mask_r;;; reduce_r hypm g_kf t.
  (** galerkin_unsteady_system_masked_rhs_and_jacobian.hpp 87-104 *)
  Definition masked_rhs_jac (x : X) (t : S) : gcmd :=
    map_state x;;; call_rhs t;;; mask_r;;; reduce_r hypm g_kf t;;;
    if_requested (call_jac t;;; mask_j;;; reduce_j hypm g_kj t).
End Galerkin.
Arguments mk_gmem {X Y Rf Jf Mf Rm Jm J M W}. Arguments mk_reducer {S X J W A AJ}.
Arguments hr_r {S X J W A AJ}. Arguments hr_j {S X J W A AJ}.

(** ** As systems of the ODE steppers: the members and the user's world are the memory *)
Section Systems.
  Context {S X Y Rf Jf Mf Rm Jm J W : Type}.
  (* the members between calls, and the user's world: galerkin_unsteady_system_default_rhs_only.hpp 75-76 and the members listed at gmem *)
  Record gobj := mk_gobj {
    b_y : Y; b_f : Rf; b_j : Jf; b_m : Mf; b_kf : Rm; b_kj : Jm; b_w : W
  }.
  (* model only: the arguments of a call join the members *)
  Definition enter {M} (r : X) (j : option J) (m : M) (b : gobj) : gmem (M:=M) :=
    mk_gmem (b_y b) (b_f b) (b_j b) (b_m b) (b_kf b) (b_kj b) (b_w b) r j m.
  (* model only: the members after a call *)
  Definition leave {M} (g : gmem (X:=X) (J:=J) (M:=M)) : gobj :=
    mk_gobj (g_y g) (g_f g) (g_j g) (g_m g) (g_kf g) (g_kj g) (g_w g).
  (** rhs(x, t, out) *)
  (* galerkin_unsteady_system_default_rhs_only.hpp 51-53; galerkin_unsteady_system_hypred_rhs_only.hpp 53-55; galerkin_unsteady_system_masked_rhs_only.hpp 62-64 *)
  Definition rhs_method (c : X -> S -> gcmd (J:=J) (M:=unit)) (x : X) (t : S) (r : X) (b : gobj)
    : outcome unit * (X * gobj) :=
    let '(e, g) := c x t (enter r None tt b) in (e, (o_r g, leave g)).
  (** massMatrixAndRhs(x, t, M, out) *)
  (* galerkin_unsteady_system_default_rhs_with_mass_matrix.hpp 51-54 *)
  Definition mass_rhs_method {M} (c : X -> S -> gcmd (J:=J) (M:=M)) (x : X) (t : S) (m : M) (r : X) (b : gobj)
    : outcome unit * (M * X * gobj) :=
    let '(e, g) := c x t (enter r None m b) in (e, (o_m g, o_r g, leave g)).
  (** rhsAndJacobian(x, t, out, Jo) *)
  (* galerkin_unsteady_system_default_rhs_and_jacobian.hpp 68-71; galerkin_unsteady_system_hypred_rhs_and_jacobian.hpp 74-77; galerkin_unsteady_system_masked_rhs_and_jacobian.hpp 87-90 *)
  Definition rhs_jac_method (c : X -> S -> gcmd (J:=J) (M:=unit)) (x : X) (t : S) (r : X) (j : option J) (b : gobj)
    : outcome unit * (X * option J * gobj) :=
    let '(e, g) := c x t (enter r j tt b) in (e, (o_r g, o_j g, leave g)).
  (** massMatrixAndRhsAndJacobian(x, t, M, out, Jo) *)
  (* galerkin_unsteady_system_default_rhs_and_jacobian_and_mm.hpp 74-78 *)
  Definition mass_rhs_jac_method (c : X -> S -> gcmd (J:=J) (M:=J)) (x : X) (t : S) (m : J) (r : X)
             (j : option J) (b : gobj) : outcome unit * (J * X * option J * gobj) :=
    let '(e, g) := c x t (enter r j m b) in (e, (o_m g, o_r g, o_j g, leave g)).
  (** A system for the implicit steppers has one of the two methods; the other is
      not called *)
  (* the object passed to create_implicit_stepper: galerkin_unsteady_system_default_rhs_and_jacobian.hpp 29-109 *)
  Definition rhs_jac_system (c : X -> S -> gcmd (J:=J) (M:=unit)) : isys (S:=S) (V:=X) (J:=J) (W:=gobj) :=
    mk_isys (rhs_jac_method c) (fun _ _ m f j b => (NoFuel, (m, f, j, b))).
  (* the object passed to create_implicit_stepper: galerkin_unsteady_system_default_rhs_and_jacobian_and_mm.hpp 25-124 *)
  Definition mass_rhs_jac_system (c : X -> S -> gcmd (J:=J) (M:=J)) : isys (S:=S) (V:=X) (J:=J) (W:=gobj) :=
    mk_isys (fun _ _ f j b => (NoFuel, (f, j, b))) (mass_rhs_jac_method c).
  (** ... for the explicit ones, with the caller's linear solver and rhs observer, which
      see the user's world only *)
  (* model only: a call that sees the user's world only *)
  Definition in_world {A} (r : outcome unit * (A * W)) (b : gobj) : outcome unit * (A * gobj) :=
    let '(e, (a, w)) := r in
    (e, (a, mk_gobj (b_y b) (b_f b) (b_j b) (b_m b) (b_kf b) (b_kj b) w)).
  (* model only: the same for the rhs observer *)
  Definition observe (obs : Z -> Z -> S -> X -> W -> outcome unit * W) k i t f (b : gobj) : outcome unit * gobj :=
    let '(e, w) := obs k i t f (b_w b) in
    (e, mk_gobj (b_y b) (b_f b) (b_j b) (b_m b) (b_kf b) (b_kj b) w).
  (* the object passed to create_explicit_stepper: galerkin_unsteady_system_default_rhs_only.hpp 24-77 *)
  Definition rhs_system (c : X -> S -> gcmd (J:=J) (M:=unit)) (obs : Z -> Z -> S -> X -> W -> outcome unit * W)
    : esys (S:=S) (V:=X) (M:=J) (W:=gobj) :=
    mk_esys (rhs_method c) (fun _ _ m f b => (NoFuel, (m, f, b))) (fun _ x _ b => (NoFuel, (x, b))) (observe obs).
  (* the object passed to create_explicit_stepper: galerkin_unsteady_system_default_rhs_with_mass_matrix.hpp 15-86 *)
  Definition mass_rhs_system (c : X -> S -> gcmd (J:=J) (M:=J))
             (solve : J -> X -> X -> W -> outcome unit * (X * W)) (obs : Z -> Z -> S -> X -> W -> outcome unit * W)
    : esys (S:=S) (V:=X) (M:=J) (W:=gobj) :=
    mk_esys (fun _ _ f b => (NoFuel, (f, b))) (mass_rhs_method c)
            (fun m x f b => in_world (solve m x f (b_w b)) b) (observe obs).
End Systems.
Arguments mk_gobj {Y Rf Jf Mf Rm Jm W}. Arguments gobj : clear implicits.

(** ** Steady systems *)
Section Steady.
  Context {X Y Rf Jf Rm Jm J B W S : Type} (o : sops S).
  Variable recon linmap : X -> Y.   (* mapFromReducedState, ...WithoutTranslation *)
  Variable phi : B.
  Variable prodv : S -> B -> Rf -> S -> X -> X.
  Variable prodj : S -> B -> Jf -> S -> J -> J.
  (** The steady FOM: residual(y, r); residualAndJacobianAction(y, r, phi, Jo);
      jacobianAction(y, operand, result) on a vector *)
  (* fomSystem_ as called at galerkin_steady_system_default.hpp 76, 98, 123; galerkin_steady_system_hypred.hpp 87; galerkin_steady_system_masked.hpp 93-98 *)
  Record steady_fom := mk_steady_fom {
    sf_res : Y -> Rf -> W -> outcome unit * (Rf * W);
    sf_rj : Y -> Rf -> B -> option Jf -> W -> outcome unit * (Rf * option Jf * W);
    sf_jv : Y -> Y -> Rf -> W -> outcome unit * (Rf * W)
  }.
  Variable fom : steady_fom.
  Notation gmem := (gmem (X:=X) (Y:=Y) (Rf:=Rf) (Jf:=Jf) (Mf:=unit) (Rm:=Rm) (Jm:=Jm) (J:=J) (M:=unit) (W:=W)).
  Notation gcmd := (cmd gmem unit).
  (** residual(fomState_, fomResidual_) *)
  (* galerkin_steady_system_default.hpp 76 *)
  Definition call_res : gcmd := fun g =>
    let '(e, (f, w)) := sf_res fom (g_y g) (g_f g) (g_w g) in
    (e, mk_gmem (g_y g) f (g_j g) (g_m g) (g_kf g) (g_kj g) w (o_r g) (o_j g) (o_m g)).
  (** residualAndJacobianAction(fomState_, fomResidual_, phi, &fomJacAction_ or {}) *)
  (* galerkin_steady_system_default.hpp 94-98; galerkin_steady_system_hypred.hpp 83-87; galerkin_steady_system_masked.hpp 91-99 *)
  Definition call_rj : gcmd := fun g =>
    let given := if requested g then Some (g_j g) else None in
    let '(e, (f, j, w)) := sf_rj fom (g_y g) (g_f g) phi given (g_w g) in
    let j' := match mask given j with Some a => a | None => g_j g end in
    (e, mk_gmem (g_y g) f j' (g_m g) (g_kf g) (g_kj g) w (o_r g) (o_j g) (o_m g)).

  (** galerkin_steady_system_default.hpp 70-79 *)
  Definition steady_residual (x : X) : gcmd :=
    map_state recon x;;; call_res;;; project_r o phi prodv.
  (** galerkin_steady_system_default.hpp 81-111 *)
  Definition steady_default (x : X) : gcmd :=
    map_state recon x;;; call_rj;;; project_r o phi prodv;;; if_requested (project_j o phi prodj).
  (** galerkin_steady_system_default.hpp 113-131: applyJacobian(x, operand, out). auxFomVec_ and auxFomVec2_ are set to zero
      and then overwritten, so they carry nothing from call to call and are not in
      the memory; [zero] is what jacobianAction is given to write into. *)
  Definition steady_apply (zero : Rf) (x v : X) : gcmd :=
    map_state recon x;;;
    (fun g => let '(e, (a, w)) := sf_jv fom (g_y g) (linmap v) zero (g_w g) in
              match e with
              | Ok _ => (Ok tt, mk_gmem (g_y g) (g_f g) (g_j g) (g_m g) (g_kf g) (g_kj g) w
                                        (prodv (s1 o) phi a (s0 o) (o_r g)) (o_j g) (o_m g))
              | _ => (e, mk_gmem (g_y g) (g_f g) (g_j g) (g_m g) (g_kf g) (g_kj g) w (o_r g) (o_j g) (o_m g))
              end).
  (** galerkin_steady_system_hypred.hpp 76-93. The reducers of steady problems do not
      depend on time; [t0] is a dummy *)
  Variable t0 : S.
  Variable hyp : reducer (S:=S) (X:=X) (J:=J) (W:=W) Rf Jf.
  Definition steady_hypred (x : X) : gcmd :=
    map_state recon x;;; call_rj;;; reduce_r hyp g_f t0;;; if_requested (reduce_j hyp g_j t0).
  (** galerkin_steady_system_hypred.hpp 95-107: residual and applyJacobian *)
  Definition steady_hypred_residual (x : X) : gcmd := throw ERuntime.
  (* galerkin_steady_system_hypred.hpp 101-107 *)
  Definition steady_hypred_apply (x v : X) : gcmd := throw ERuntime.
  Variable msk : masker (Ru:=Rf) (Ju:=Jf) (R:=Rm) (J:=Jm) (W:=W).
  Variable hypm : reducer (S:=S) (X:=X) (J:=J) (W:=W) Rm Jm.
  (* galerkin_steady_system_masked.hpp 84-108 *)
  Definition steady_masked (x : X) : gcmd :=
    map_state recon x;;; call_rj;;; mask_r msk;;; reduce_r hypm g_kf t0;;;
    if_requested (mask_j msk;;; reduce_j hypm g_kj t0).
  (** Calls of the methods: reduced residual, reduced Jacobian (if any), members and world *)
  (* galerkin_steady_system_default.hpp 81-83; galerkin_steady_system_hypred.hpp 76-78; galerkin_steady_system_masked.hpp 84-86 *)
  Definition steady_method (c : X -> gcmd) (x : X) (r : X) (j : option J) (b : gobj Y Rf Jf unit Rm Jm W)
    : outcome unit * (X * option J * gobj Y Rf Jf unit Rm Jm W) :=
    let '(e, g) := c x (enter r j tt b) in (e, (o_r g, o_j g, leave g)).
End Steady.
Arguments mk_steady_fom {Y Rf Jf B W}. Arguments sf_res {Y Rf Jf B W}.
Arguments sf_rj {Y Rf Jf B W}. Arguments sf_jv {Y Rf Jf B W}.

(** C75: a Galerkin ROM whose trial space contains the FOM's velocities reproduces the FOM. *)
From Coq Require Import ZArith List QArith Qcanon.
From Verif Require Import Base QcInst Laws LawInst ExplicitModel ExplicitSpec ExplicitExtra ImplicitModel ImplicitSpec LspgModel RomSpec
  GalerkinModel GalerkinSpec GalerkinOrtho RomExactClaims RomExactWitness.
Import ListNotations.
Local Open Scope Z_scope.

(** Any number of steps of any explicit scheme, from matching initial states: the FOM, stepped by a
    stepper of its own, is where the ROM says. [d x t]: the FOM's velocity at recon x in reduced
    coordinates. [P]: phi^T, or the hyper-reduction operator, a left inverse of the basis. *)
Theorem C75_explicit :
  forall (S X Y Jf Mf Rm Jm J B W W' M' : Type) (o : sops S) (xo : vops S X) (yo : vops S Y),
  sfield o -> schar0 o -> vspace o xo -> vspace o yo ->
  forall (recon bapp : X -> Y) (tr : Y) (phi : B), linear xo yo bapp -> (forall x, recon x = vadd yo (bapp x) tr) ->
  forall (fom : sfom (S:=S) (Y:=Y) (R:=Y) (J:=Jf) (B:=B) (W:=W)) f (d : X -> S -> X) (good : W -> Prop),
  fom_rhs true good fom f -> (forall x t, f (recon x) t = bapp (d x t)) ->
  forall obs, (forall k i t v w, good w -> exists w', obs k i t v w = (Ok tt, w') /\ good w') ->
  forall P c, galerkin_rhs true good o xo recon phi fom P c -> (forall t v, P t (bapp v) = v) ->
  forall (v : @esys S Y M' W') good', computes v good' f ->
  let rom := rhs_system (Jf:=Jf) (Mf:=Mf) (Rm:=Rm) (Jm:=Jm) (J:=J) c obs in
  forall name k, explicit_num_bufs name = Ok k ->
  forall g g', used k (explicit_step o xo rom name) g -> used k (explicit_step o yo v name) g' ->
  good (b_w (x_w g)) -> good' (x_w g') -> x_y g' = recon (x_y g) ->
  forall ts hs n, exists gn gn',
    drive (explicit_step o xo rom name) ts hs n g = (Ok tt, gn) /\
    drive (explicit_step o yo v name) ts hs n g' = (Ok tt, gn') /\ x_y gn' = recon (x_y gn).
Proof. intros. eapply exact_explicit; eassumption. Qed.
Print Assumptions C75_explicit.

(** With mass matrices, [vel] the FOM's velocity M^-1 f; the basis need not be orthonormal. *)
Theorem C75_explicit_mass_matrix :
  forall (S X Y Jf Mf Rm Jm J B W W' M' : Type) (o : sops S) (xo : vops S X) (yo : vops S Y) (jo : vops S J),
  sfield o -> schar0 o -> vspace o xo -> vspace o yo -> vspace o jo ->
  forall (recon bapp : X -> Y) (tr : Y) (phi : B), linear xo yo bapp -> (forall x, recon x = vadd yo (bapp x) tr) ->
  forall (fom : sfom (S:=S) (Y:=Y) (R:=Y) (J:=Jf) (B:=B) (W:=W)) f (d : X -> S -> X) (good : W -> Prop)
    mass (dm : Y -> B -> S -> Mf),
  fom_rhs true good fom f -> fom_mass true good mass dm ->
  forall obs, (forall k i t v w, good w -> exists w', obs k i t v w = (Ok tt, w') /\ good w') ->
  forall prodv prodm T (TM : Mf -> J), product_is xo prodv phi T -> product_is jo prodm phi TM ->
  forall solve (apply : J -> X -> X),
  (forall x t old w, good w -> exists s w',
     solve (TM (dm (recon x) phi t)) old (T (f (recon x) t)) w = (Ok tt, (s, w')) /\
     apply (TM (dm (recon x) phi t)) s = T (f (recon x) t) /\ good w') ->
  (forall x t z z', apply (TM (dm (recon x) phi t)) z = apply (TM (dm (recon x) phi t)) z' -> z = z') ->
  forall (v : @esys S Y M' W') good' apply' mass', computes_mm v good' apply' mass' f ->
  (forall y t z z', apply' (mass' y t) z = apply' (mass' y t) z' -> z = z') ->
  (forall y t a, apply (TM (dm y phi t)) a = T (apply' (mass' y t) (bapp a))) ->
  forall vel, (forall y t, apply' (mass' y t) (vel y t) = f y t) -> (forall x t, vel (recon x) t = bapp (d x t)) ->
  let rom := mass_rhs_system (Jf:=Jf) (Rm:=Rm) (Jm:=Jm) (default_mass_rhs o recon phi prodv prodm fom mass) solve obs in
  forall name k, explicit_num_bufs_mm name = Ok k ->
  forall g g', used k (explicit_step_mm o xo rom name) g -> used k (explicit_step_mm o yo v name) g' ->
  good (b_w (x_w g)) -> good' (x_w g') -> x_y g' = recon (x_y g) ->
  forall ts hs n, exists gn gn',
    drive (explicit_step_mm o xo rom name) ts hs n g = (Ok tt, gn) /\
    drive (explicit_step_mm o yo v name) ts hs n g' = (Ok tt, gn') /\ x_y gn' = recon (x_y gn).
Proof. intros. eapply exact_explicit_mm; eassumption. Qed.
Print Assumptions C75_explicit_mass_matrix.

(** Implicit schemes: the residual given to the solver is zero exactly at the reduced states whose
    reconstruction solves the FOM's own equation for the step. *)
Theorem C75_implicit :
  forall (S X Y Jf Mf Rm Jm J B W : Type) (o : sops S) (xo : vops S X) (yo : vops S Y) (jo : vops S J),
  sfield o -> schar0 o -> vspace o xo -> vspace o yo -> vspace o jo ->
  forall (recon bapp : X -> Y) (tr : Y) (phi : B), linear xo yo bapp -> (forall x, recon x = vadd yo (bapp x) tr) ->
  forall (fom : sfom (S:=S) (Y:=Y) (R:=Y) (J:=Jf) (B:=B) (W:=W)) f (d : X -> S -> X) (jid : J) df,
  fom_rhs false (fun _ => True) fom f -> fom_jac false (fun _ => True) fom df ->
  (forall x t, f (recon x) t = bapp (d x t)) ->
  forall P PJ c, galerkin_rhs_jac (Mf:=Mf) (Rm:=Rm) (Jm:=Jm) false (fun _ => True) o xo jo recon phi fom P PJ c ->
  (forall t v, P t (bapp v) = v) ->
  let pol := policy_std o xo jo jid (rhs_jac_system c) in
  (forall x_n st t k dt x R Jo g r jo' g',
   std_rj pol BDF1 (x_n :: st) t k dt x R Jo g = (Ok tt, (r, jo', g')) ->
   (r = vzero xo <-> bdf1_eq yo (fun y => f y t) (recon x_n) dt (recon x))) /\
  (forall x_n st t dt x R Jo g r jo' g',
   std_rj pol BDF2 (x_n :: st) t 1 dt x R Jo g = (Ok tt, (r, jo', g')) ->
   (r = vzero xo <-> bdf1_eq yo (fun y => f y t) (recon x_n) dt (recon x))) /\
  (forall x_n x_nm1 st t k dt x R Jo g r jo' g', k <> 1 ->
   std_rj pol BDF2 (x_n :: x_nm1 :: st) t k dt x R Jo g = (Ok tt, (r, jo', g')) ->
   (r = vzero xo <-> bdf2_eq o yo (fun y => f y t) (recon x_n) (recon x_nm1) dt (recon x))) /\
  (forall x_n st t k dt x R Jo g r jo' g', pp_trk (snd g) <> k ->
   std_rj pol CrankNicolson (x_n :: st) t k dt x R Jo g = (Ok tt, (r, jo', g')) ->
   (r = vzero xo <-> cn_eq o yo (f (recon x_n) (ssub o t dt)) (fun y => f y t) (recon x_n) dt (recon x))).
Proof. intros. eapply exact_implicit; eassumption. Qed.
Print Assumptions C75_implicit.

(** A trial space that contains all FOM velocities is not enough: with a basis that is not
    orthonormal and no mass matrix the ROM is elsewhere after one step. *)
Theorem C75_any_basis_refuted :
  product_is QcV two_prod (q 2) (fun v => q 2 * v)%Qc /\
  computes line_fom (fun _ => True) (fun y _ => y) /\ (forall x, two_recon x = q 2 * x)%Qc /\
  exists g g',
    drive (explicit_step QcS QcV two_rom ForwardEuler) (fun _ => q 0) (fun _ => q 1) 1 two_start = (Ok tt, g) /\
    drive (explicit_step QcS QcV line_fom ForwardEuler) (fun _ => q 0) (fun _ => q 1) 1 line_start = (Ok tt, g') /\
    x_y line_start = two_recon (x_y two_start) /\ x_y g' <> two_recon (x_y g).
Proof. exact (conj two_product (conj line_computes (conj (fun _ => eq_refl) not_reproduced))). Qed.
Print Assumptions C75_any_basis_refuted.

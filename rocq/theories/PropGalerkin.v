(** C37, C62, C63, C64: Galerkin problems. [returns must good call v]: [call] computes [v] (see
    GalerkinSpec); [P], [PJ]: phi^T, or the hyper-reduction operator, or it after the masker. *)
From Coq Require Import ZArith List Bool Reals QArith Qcanon.
From Verif Require Import Base QcInst RInst Laws ExplicitModel ExplicitSpec ExplicitProofs ExplicitExtra
  ImplicitModel ImplicitSpec LspgModel RomSpec GalerkinModel GalerkinSpec GalerkinProofs GalerkinClaims GalerkinOrtho
  ProblemObjects ProblemObjectsSpec ProblemObjectsProofs.
Import ListNotations.
Local Open Scope Z_scope.

(** C37. The right-hand side is phi^T f(recon x, t), and reduced and masked variants. *)
Theorem C37_rhs :
  forall (S X Y Rf Jf Mf Rm Jm J B W : Type) (o : sops S) (xo : vops S X), vspace o xo ->
  forall (must : bool) (good : W -> Prop) (recon : X -> Y) (phi : B)
    (fom : sfom (S:=S) (Y:=Y) (R:=Rf) (J:=Jf) (B:=B) (W:=W)) f, fom_rhs must good fom f ->
  forall P c, galerkin_rhs must good o xo recon phi fom P c ->
  forall x t r (b : gobj Y Rf Jf Mf Rm Jm W), good (b_w b) ->
  returns must (fun b => good (b_w b)) (rhs_method (J:=J) c x t r b) (P t (f (recon x) t)).
Proof. exact @rhs_value. Qed.
Print Assumptions C37_rhs.

(** ... the Jacobian is phi^T (df/dy phi). *)
Theorem C37_rhs_and_jacobian :
  forall (S X Y Rf Jf Mf Rm Jm J B W : Type) (o : sops S) (xo : vops S X) (jo : vops S J), vspace o xo -> vspace o jo ->
  forall (must : bool) (good : W -> Prop) (recon : X -> Y) (phi : B)
    (fom : sfom (S:=S) (Y:=Y) (R:=Rf) (J:=Jf) (B:=B) (W:=W)) f df, fom_rhs must good fom f -> fom_jac must good fom df ->
  forall P PJ c, galerkin_rhs_jac must good o xo jo recon phi fom P PJ c ->
  forall x t r j (b : gobj Y Rf Jf Mf Rm Jm W), good (b_w b) ->
  returns must (fun b => good (b_w b)) (rhs_jac_method c x t r j b)
    (P t (f (recon x) t), option_map (fun _ => PJ t (df (recon x) phi t)) j).
Proof. exact @rhs_jac_value. Qed.
Print Assumptions C37_rhs_and_jacobian.

(** ... the mass matrix is phi^T (M phi). *)
Theorem C37_mass_matrix_and_rhs :
  forall (S X Y Rf Jf Mf Rm Jm J B W : Type) (o : sops S) (xo : vops S X) (jo : vops S J), vspace o xo -> vspace o jo ->
  forall (must : bool) (good : W -> Prop) (recon : X -> Y) (phi : B)
    (fom : sfom (S:=S) (Y:=Y) (R:=Rf) (J:=Jf) (B:=B) (W:=W)) f mass dm,
  fom_rhs must good fom f -> fom_mass must good mass dm ->
  forall prodv prodm T (TM : Mf -> J), product_is xo prodv phi T -> product_is jo prodm phi TM ->
  forall x t m r (b : gobj Y Rf Jf Mf Rm Jm W), good (b_w b) ->
  returns must (fun b => good (b_w b))
    (mass_rhs_method (J:=J) (default_mass_rhs o recon phi prodv prodm fom mass) x t m r b)
    (TM (dm (recon x) phi t), T (f (recon x) t)).
Proof. intros. eapply mass_rhs_value; eassumption. Qed.
Print Assumptions C37_mass_matrix_and_rhs.

Theorem C37_mass_matrix_rhs_and_jacobian :
  forall (S X Y Rf Jf Mf Rm Jm J B W : Type) (o : sops S) (xo : vops S X) (jo : vops S J), vspace o xo -> vspace o jo ->
  forall (must : bool) (good : W -> Prop) (recon : X -> Y) (phi : B)
    (fom : sfom (S:=S) (Y:=Y) (R:=Rf) (J:=Jf) (B:=B) (W:=W)) f df mass dm,
  fom_rhs must good fom f -> fom_jac must good fom df -> fom_mass must good mass dm ->
  forall prodv prodj prodm T (TJ : Jf -> J) (TM : Mf -> J),
  product_is xo prodv phi T -> product_is jo prodj phi TJ -> product_is jo prodm phi TM ->
  forall x t m r j (b : gobj Y Rf Jf Mf Rm Jm W), good (b_w b) ->
  returns must (fun b => good (b_w b))
    (mass_rhs_jac_method (default_mass_rhs_jac o recon phi prodv prodj prodm fom mass) x t m r j b)
    (TM (dm (recon x) phi t), T (f (recon x) t), option_map (fun _ => TJ (df (recon x) phi t)) j).
Proof. intros. eapply mass_rhs_jac_value; eassumption. Qed.
Print Assumptions C37_mass_matrix_rhs_and_jacobian.

(** ... and the steady problems. *)
Theorem C37_steady :
  forall (S X Y Rf Jf Rm Jm J B W : Type) (o : sops S) (xo : vops S X) (jo : vops S J), vspace o xo -> vspace o jo ->
  forall (must : bool) (good : W -> Prop) (recon : X -> Y) (phi : B)
    (fom : steady_fom (Y:=Y) (Rf:=Rf) (Jf:=Jf) (B:=B) (W:=W)) f df dv, steady_is must good fom f df dv ->
  forall P PJ c, galerkin_steady must good o xo jo recon phi fom P PJ c ->
  forall x r j (b : gobj Y Rf Jf unit Rm Jm W), good (b_w b) ->
  returns must (fun b => good (b_w b)) (steady_method c x r j b)
    (P (f (recon x)), option_map (fun _ => PJ (df (recon x) phi)) j).
Proof. exact @steady_value. Qed.
Print Assumptions C37_steady.

(** [linmap]: the basis without the shift *)
Theorem C37_steady_matrix_free :
  forall (S X Y Rf Jf Rm Jm J B W : Type) (o : sops S) (xo : vops S X), vspace o xo ->
  forall (must : bool) (good : W -> Prop) (recon linmap : X -> Y) (phi : B)
    (fom : steady_fom (Y:=Y) (Rf:=Rf) (Jf:=Jf) (B:=B) (W:=W)) f df dv, steady_is must good fom f df dv ->
  forall prodv T, product_is xo prodv phi T ->
  forall x r (j : option J) (b : gobj Y Rf Jf unit Rm Jm W), good (b_w b) ->
  returns must (fun b => good (b_w b)) (steady_method (steady_residual o recon phi prodv fom) x r j b) (T (f (recon x)), j) /\
  forall zero v,
  returns must (fun b => good (b_w b))
    (steady_method (fun x => steady_apply o recon linmap phi prodv fom zero x v) x r j b)
    (T (dv (recon x) (linmap v)), j).
Proof. intros. split; intros; [eapply steady_residual_value|eapply steady_apply_value]; eassumption. Qed.
Print Assumptions C37_steady_matrix_free.

(** The reduced Jacobian is the derivative of the reduced right-hand side (in R): [Df y t] is the
    derivative of f, [bapp] the basis, [fapp] and [xapp] apply matrices. *)
Theorem C37_jacobian_is_derivative :
  forall (X Y Rf Jf Mf Rm Jm J B W : Type) eps0 (xo : vops R X) (jo : vops R J) (yo : vops R Y) (ro : vops R Rf)
    (nx : X -> R) (ny : Y -> R) (nr : Rf -> R), vspace (Rops eps0) xo -> vspace (Rops eps0) jo ->
  (forall d, 0 <= nx d)%R -> (forall d, 0 <= nr d)%R ->
  forall (recon bapp : X -> Y) (xapp : J -> X -> X) (fapp : Jf -> X -> Rf),
  (forall x d, recon (vadd xo x d) = vadd yo (recon x) (bapp d)) -> (exists K, forall d, ny (bapp d) <= K * nx d)%R ->
  forall must (good : W -> Prop) (phi : B) (fom : sfom (S:=R) (Y:=Y) (R:=Rf) (J:=Jf) (B:=B) (W:=W)) f df Df P PJ c,
  fom_rhs must good fom f -> fom_jac must good fom df ->
  (forall y t, derivative2 yo ny ro nr (fun y => f y t) y (Df y t)) ->
  (forall y t d, fapp (df y phi t) d = Df y t (bapp d)) ->
  (forall t, bounded ro nr xo nx (P t)) -> (forall t A d, xapp (PJ t A) d = P t (fapp A d)) ->
  galerkin_rhs_jac (Mf:=Mf) (Rm:=Rm) (Jm:=Jm) must good (Rops eps0) xo jo recon phi fom P PJ c ->
  forall x t r j b r' j' b', good (b_w b) ->
  rhs_jac_method c x t r (Some j) b = (Ok tt, (r', Some j', b')) ->
  derivative2 xo nx xo nx (fun x => P t (f (recon x) t)) x (xapp j').
Proof. intros. eapply jacobian_is_derivative; eassumption. Qed.
Print Assumptions C37_jacobian_is_derivative.

Theorem C37_mass_matrix_jacobian_is_derivative :
  forall (X Y Rf Jf Mf Rm Jm J B W : Type) eps0 (xo : vops R X) (jo : vops R J) (yo : vops R Y) (ro : vops R Rf)
    (nx : X -> R) (ny : Y -> R) (nr : Rf -> R), vspace (Rops eps0) xo -> vspace (Rops eps0) jo ->
  (forall d, 0 <= nx d)%R -> (forall d, 0 <= nr d)%R ->
  forall (recon bapp : X -> Y) (xapp : J -> X -> X) (fapp : Jf -> X -> Rf),
  (forall x d, recon (vadd xo x d) = vadd yo (recon x) (bapp d)) -> (exists K, forall d, ny (bapp d) <= K * nx d)%R ->
  forall must (good : W -> Prop) (phi : B) (fom : sfom (S:=R) (Y:=Y) (R:=Rf) (J:=Jf) (B:=B) (W:=W)) f df Df mass dm
    prodv prodj prodm T TJ TM,
  fom_rhs must good fom f -> fom_jac must good fom df -> fom_mass must good mass dm ->
  product_is xo prodv phi T -> product_is jo prodj phi TJ -> product_is jo prodm phi TM ->
  (forall y t, derivative2 yo ny ro nr (fun y => f y t) y (Df y t)) ->
  (forall y t d, fapp (df y phi t) d = Df y t (bapp d)) ->
  bounded ro nr xo nx T -> (forall A d, xapp (TJ A) d = T (fapp A d)) ->
  forall x t m r j (b : gobj Y Rf Jf Mf Rm Jm W) m' r' j' b', good (b_w b) ->
  mass_rhs_jac_method (default_mass_rhs_jac (Rops eps0) recon phi prodv prodj prodm fom mass) x t m r (Some j) b
    = (Ok tt, (m', r', Some j', b')) ->
  derivative2 xo nx xo nx (fun x => T (f (recon x) t)) x (xapp j').
Proof. intros. eapply mass_jacobian_is_derivative; eassumption. Qed.
Print Assumptions C37_mass_matrix_jacobian_is_derivative.

Theorem C37_steady_jacobian_is_derivative :
  forall (X Y Rf Jf Rm Jm J B W : Type) eps0 (xo : vops R X) (jo : vops R J) (yo : vops R Y) (ro : vops R Rf)
    (nx : X -> R) (ny : Y -> R) (nr : Rf -> R), vspace (Rops eps0) xo -> vspace (Rops eps0) jo ->
  (forall d, 0 <= nx d)%R -> (forall d, 0 <= nr d)%R ->
  forall (recon bapp : X -> Y) (xapp : J -> X -> X) (fapp : Jf -> X -> Rf),
  (forall x d, recon (vadd xo x d) = vadd yo (recon x) (bapp d)) -> (exists K, forall d, ny (bapp d) <= K * nx d)%R ->
  forall must (good : W -> Prop) (phi : B) (fom : steady_fom (Y:=Y) (Rf:=Rf) (Jf:=Jf) (B:=B) (W:=W)) f df dv Df P PJ c,
  steady_is must good fom f df dv ->
  (forall y, derivative2 yo ny ro nr f y (Df y)) -> (forall y d, fapp (df y phi) d = Df y (bapp d)) ->
  bounded ro nr xo nx P -> (forall A d, xapp (PJ A) d = P (fapp A d)) ->
  galerkin_steady (Rm:=Rm) (Jm:=Jm) must good (Rops eps0) xo jo recon phi fom P PJ c ->
  forall x r j b r' j' b', good (b_w b) ->
  steady_method c x r (Some j) b = (Ok tt, (r', Some j', b')) ->
  derivative2 xo nx xo nx (fun x => P (f (recon x))) x (xapp j').
Proof. intros. eapply steady_jacobian_is_derivative; eassumption. Qed.
Print Assumptions C37_steady_jacobian_is_derivative.

Theorem C37_steady_apply_is_derivative :
  forall (X Y Rf Jf Rm Jm J B W : Type) eps0 (xo : vops R X) (yo : vops R Y) (ro : vops R Rf)
    (nx : X -> R) (ny : Y -> R) (nr : Rf -> R), vspace (Rops eps0) xo ->
  (forall d, 0 <= nx d)%R -> (forall d, 0 <= nr d)%R ->
  forall (recon bapp : X -> Y),
  (forall x d, recon (vadd xo x d) = vadd yo (recon x) (bapp d)) -> (exists K, forall d, ny (bapp d) <= K * nx d)%R ->
  forall must (good : W -> Prop) (phi : B) (fom : steady_fom (Y:=Y) (Rf:=Rf) (Jf:=Jf) (B:=B) (W:=W)) f df dv prodv T,
  steady_is must good fom f df dv -> (forall y, derivative2 yo ny ro nr f y (dv y)) ->
  product_is xo prodv phi T -> bounded ro nr xo nx T ->
  forall x, exists L, derivative2 xo nx xo nx (fun x => T (f (recon x))) x L /\
  forall zero v r j (b : gobj Y Rf Jf unit Rm Jm W) r' j' b', good (b_w b) ->
  steady_method (J:=J) (fun x => steady_apply (Rops eps0) recon bapp phi prodv fom zero x v) x r j b = (Ok tt, (r', j', b')) ->
  r' = L v /\ j' = j.
Proof. intros. eapply steady_apply_is_derivative; eassumption. Qed.
Print Assumptions C37_steady_apply_is_derivative.

(** Explicit problems make the textbook steps for x' = P f(recon x, t). *)
Theorem C37_explicit_one_step_schemes :
  forall (S X Y Rf Jf Mf Rm Jm J B W : Type) (o : sops S) (xo : vops S X), sfield o -> schar0 o -> vspace o xo ->
  forall (good : W -> Prop) (recon : X -> Y) (phi : B)
    (fom : sfom (S:=S) (Y:=Y) (R:=Rf) (J:=Jf) (B:=B) (W:=W)) f, fom_rhs true good fom f ->
  forall obs, (forall k i t v w, good w -> exists w', obs k i t v w = (Ok tt, w') /\ good w') ->
  forall P c, galerkin_rhs true good o xo recon phi fom P c ->
  let sys := rhs_system (Jf:=Jf) (Mf:=Mf) (Rm:=Rm) (Jm:=Jm) (J:=J) c obs in
  forall name tab n, tab_of o name = Some tab -> explicit_num_bufs name = Ok n ->
  forall g, used n (explicit_step o xo sys name) g -> good (b_w (x_w g)) ->
  forall t step h, exists g',
    explicit_step o xo sys name t step h g = (Ok tt, g') /\
    x_y g' = erk_next o xo (fun x t => P t (f (recon x) t)) tab (x_y g) t h /\ good (b_w (x_w g')).
Proof.
  intros S X Y Rf Jf Mf Rm Jm J B W o xo HF HC HX good recon phi fom f Hf obs Hobs P c HG sys name tab n HT HN g HU Hg t step h.
  destruct (erk_step_ok o xo sys HF HC HX _ _ (explicit_computes o xo HX good recon phi fom f Hf obs Hobs P c HG)
    name tab n t step h g HT HN (used_length o xo sys name n g HN HU) Hg) as (g' & E & EY & _ & G).
  exists g'. split; [exact E|]. split; [exact EY|exact G].
Qed.
Print Assumptions C37_explicit_one_step_schemes.

Theorem C37_explicit_ab2 :
  forall (S X Y Rf Jf Mf Rm Jm J B W : Type) (o : sops S) (xo : vops S X), sfield o -> schar0 o -> vspace o xo ->
  forall (good : W -> Prop) (recon : X -> Y) (phi : B)
    (fom : sfom (S:=S) (Y:=Y) (R:=Rf) (J:=Jf) (B:=B) (W:=W)) f, fom_rhs true good fom f ->
  forall obs, (forall k i t v w, good w -> exists w', obs k i t v w = (Ok tt, w') /\ good w') ->
  forall P c, galerkin_rhs true good o xo recon phi fom P c ->
  let sys := rhs_system (Jf:=Jf) (Mf:=Mf) (Rm:=Rm) (Jm:=Jm) (J:=J) c obs in
  forall g, used 2 (explicit_step o xo sys AdamsBashforth2) g -> good (b_w (x_w g)) ->
  forall ts hs ys n, ab2_sequence o xo (fun x t => P t (f (recon x) t)) ts hs ys -> ys 0%nat = x_y g ->
  exists g', drive (explicit_step o xo sys AdamsBashforth2) ts hs n g = (Ok tt, g') /\ x_y g' = ys n.
Proof.
  intros S X Y Rf Jf Mf Rm Jm J B W o xo HF HC HX good recon phi fom f Hf obs Hobs P c HG sys g HU Hg ts hs ys n HS H0.
  destruct (ab2_drive o xo sys HF HC HX _ _ (explicit_computes o xo HX good recon phi fom f Hf obs Hobs P c HG)
    ts hs ys g n (used_length o xo sys AdamsBashforth2 2 g eq_refl HU) Hg HS H0) as (g' & E & EY & _).
  exists g'. split; [exact E|exact EY].
Qed.
Print Assumptions C37_explicit_ab2.

(** ... with the reduced mass matrix: [Z x t] solves phi^T M phi z = phi^T f. *)
Theorem C37_explicit_mass_matrix :
  forall (S X Y Rf Jf Mf Rm Jm J B W : Type) (o : sops S) (xo : vops S X) (jo : vops S J),
  sfield o -> schar0 o -> vspace o xo -> vspace o jo ->
  forall (good : W -> Prop) (recon : X -> Y) (phi : B)
    (fom : sfom (S:=S) (Y:=Y) (R:=Rf) (J:=Jf) (B:=B) (W:=W)) f mass (dm : Y -> B -> S -> Mf),
  fom_rhs true good fom f -> fom_mass true good mass dm ->
  forall obs, (forall k i t v w, good w -> exists w', obs k i t v w = (Ok tt, w') /\ good w') ->
  forall prodv prodm T (TM : Mf -> J), product_is xo prodv phi T -> product_is jo prodm phi TM ->
  forall solve (apply : J -> X -> X),
  (forall x t old w, good w -> exists s w',
     solve (TM (dm (recon x) phi t)) old (T (f (recon x) t)) w = (Ok tt, (s, w')) /\
     apply (TM (dm (recon x) phi t)) s = T (f (recon x) t) /\ good w') ->
  forall Z : X -> S -> X, (forall x t, apply (TM (dm (recon x) phi t)) (Z x t) = T (f (recon x) t)) ->
  (forall x t z z', apply (TM (dm (recon x) phi t)) z = apply (TM (dm (recon x) phi t)) z' -> z = z') ->
  let sys := mass_rhs_system (Jf:=Jf) (Rm:=Rm) (Jm:=Jm) (default_mass_rhs o recon phi prodv prodm fom mass) solve obs in
  (forall name tab n, tab_of o name = Some tab -> explicit_num_bufs_mm name = Ok n ->
   forall g, used n (explicit_step_mm o xo sys name) g -> good (b_w (x_w g)) ->
   forall t step h, exists g',
     explicit_step_mm o xo sys name t step h g = (Ok tt, g') /\ x_y g' = erk_next o xo Z tab (x_y g) t h /\
     good (b_w (x_w g'))) /\
  (forall g, used 2 (explicit_step_mm o xo sys AdamsBashforth2) g -> good (b_w (x_w g)) ->
   forall ts hs ys n, ab2_sequence o xo Z ts hs ys -> ys 0%nat = x_y g ->
   exists g', drive (explicit_step_mm o xo sys AdamsBashforth2) ts hs n g = (Ok tt, g') /\ x_y g' = ys n).
Proof.
  intros S X Y Rf Jf Mf Rm Jm J B W o xo jo HF HC HX HJ good recon phi fom f mass dm Hf Hm obs Hobs prodv prodm T TM HT HTM
    solve apply Hsolve Z HZ Hinj sys.
  pose proof (explicit_computes_mm (Jf:=Jf) (Rm:=Rm) (Jm:=Jm) o xo jo HX good recon phi fom f Hf obs Hobs HJ mass dm Hm
    prodv prodm T TM HT HTM solve apply Hsolve) as HU. split.
  - intros name tab n Ht Hn g Hg Hw t step h.
    destruct (erk_step_mm_ok o xo sys HF HC HX _ _ _ _ Z HU HZ Hinj name tab n t step h g Ht Hn
      (used_length_mm o xo sys name n g Hn Hg) Hw) as (g' & E & EY & _ & G).
    exists g'. split; [exact E|]. split; [exact EY|exact G].
  - intros g Hg Hw ts hs ys n HS H0.
    destruct (ab2_drive_mm o xo sys HF HC HX _ _ _ _ Z HU HZ Hinj ts hs ys g n
      (used_length_mm o xo sys AdamsBashforth2 2 g eq_refl Hg) Hw HS H0) as (g' & E & EY & _).
    exists g'. split; [exact E|exact EY].
Qed.
Print Assumptions C37_explicit_mass_matrix.

(** Implicit problems do, whatever the caller does, what a stepper created for
    x' = P f(recon x, t) does: same outcomes, same states. [F], [JF]: any way of writing the reduced
    ODE and its Jacobian. *)
Theorem C37_implicit :
  forall (S X Y Rf Jf Mf Rm Jm J B W Ws : Type) (o : sops S) (xo : vops S X) (jo : vops S J),
  vspace o xo -> vspace o jo ->
  forall (jid : J) (good : W -> Prop) (recon : X -> Y) (phi : B)
    (fom : sfom (S:=S) (Y:=Y) (R:=Rf) (J:=Jf) (B:=B) (W:=W)) f df, fom_rhs true good fom f -> fom_jac true good fom df ->
  forall (solver : Ws -> X -> sol X X J Ws) P PJ c F JF,
  galerkin_rhs_jac (Mf:=Mf) true good o xo jo recon phi fom P PJ c ->
  (forall x t, P t (f (recon x) t) = F x t) -> (forall x t, PJ t (df (recon x) phi t) = JF x t) ->
  forall name cS cR x0 ws (b : gobj Y Rf Jf Mf Rm Jm W) ga gb, good (b_w b) ->
  implicit_create o name cS cR (mk_ppol (-1) b) x0 ws = Ok ga ->
  implicit_create o name cS cR (mk_ppol (-1) tt) x0 ws = Ok gb ->
  forall evs t k,
  fst (perform o (implicit_step o (policy_std o xo jo jid (rhs_jac_system c)) solver name) put_ode t_y evs t k ga) =
  fst (perform o (implicit_step o (policy_std o xo jo jid (ode_system F JF)) solver name) put_ode t_y evs t k gb).
Proof. intros. eapply implicit_perform_as; eassumption. Qed.
Print Assumptions C37_implicit.

Theorem C37_implicit_mass_matrix :
  forall (S X Y Rf Jf Mf Rm Jm J B W Ws : Type) (o : sops S) (xo : vops S X) (jo : vops S J),
  vspace o xo -> vspace o jo ->
  forall (japp : J -> X -> X) (good : W -> Prop) (recon : X -> Y) (phi : B)
    (fom : sfom (S:=S) (Y:=Y) (R:=Rf) (J:=Jf) (B:=B) (W:=W)) f df, fom_rhs true good fom f -> fom_jac true good fom df ->
  forall (solver : Ws -> X -> sol X X J Ws) mass (dm : Y -> B -> S -> Mf), fom_mass true good mass dm ->
  forall prodv prodj prodm T TJ TM,
  product_is xo prodv phi T -> product_is jo prodj phi TJ -> product_is jo prodm phi TM ->
  forall name cS cR cM x0 ws (b : gobj Y Rf Jf Mf Rm Jm W) ga gb, good (b_w b) ->
  implicit_create o name cS cR (mk_mpol cM cS cR (-1) b) x0 ws = Ok ga ->
  implicit_create o name cS cR (mk_mpol cM cS cR (-1) tt) x0 ws = Ok gb ->
  forall evs t k,
  fst (perform o (implicit_step o (policy_mm o xo jo japp
         (mass_rhs_jac_system (default_mass_rhs_jac o recon phi prodv prodj prodm fom mass))) solver name)
       put_ode t_y evs t k ga) =
  fst (perform o (implicit_step o (policy_mm o xo jo japp
         (ode_mass_system (fun x t => T (f (recon x) t)) (fun x t => TJ (df (recon x) phi t))
                          (fun x t => TM (dm (recon x) phi t)))) solver name)
       put_ode t_y evs t k gb).
Proof. intros. eapply implicit_mass_perform; eassumption. Qed.
Print Assumptions C37_implicit_mass_matrix.

(** With the identity for a basis and no shift, the Galerkin problem is the FOM problem. *)
Theorem C37_identity_basis :
  forall (S Y Jf Mf Rm Jm B W Ws : Type) (o : sops S) (yo : vops S Y) (jo : vops S Jf),
  vspace o yo -> vspace o jo ->
  forall (jid : Jf) (good : W -> Prop) (id : B) (fom : sfom (S:=S) (Y:=Y) (R:=Y) (J:=Jf) (B:=B) (W:=W)) f (jac : Y -> S -> Jf),
  fom_rhs true good fom f -> fom_jac true good fom (fun y _ t => jac y t) ->
  forall (solver : Ws -> Y -> sol Y Y Jf Ws) prodv prodj,
  product_is yo prodv id (fun v => v) -> product_is jo prodj id (fun A => A) ->
  forall name cS cR x0 ws (b : gobj Y Y Jf Mf Rm Jm W) ga gb, good (b_w b) ->
  implicit_create o name cS cR (mk_ppol (-1) b) x0 ws = Ok ga ->
  implicit_create o name cS cR (mk_ppol (-1) tt) x0 ws = Ok gb ->
  forall evs t k,
  fst (perform o (implicit_step o (policy_std o yo jo jid
         (rhs_jac_system (default_rhs_jac o (fun x => x) id prodv prodj fom))) solver name) put_ode t_y evs t k ga) =
  fst (perform o (implicit_step o (policy_std o yo jo jid (ode_system f jac)) solver name) put_ode t_y evs t k gb).
Proof.
  intros. eapply implicit_perform_as with (df := fun y _ t => jac y t) (recon := fun x => x) (phi := id) (fom := fom)
    (P := fun _ v => v) (PJ := fun _ A => A) (f := f); try eassumption; try reflexivity.
  apply DefaultRhsJac; assumption.
Qed.
Print Assumptions C37_identity_basis.

(** Exceptions of the FOM's right-hand side reach the caller, whose objects are as they were. *)
Theorem C37_fom_failure :
  forall (S X Y Rf Jf Mf Rm Jm J B W : Type) (o : sops S) (xo : vops S X) (jo : vops S J)
    (must : bool) (good : W -> Prop) (recon : X -> Y) (phi : B) (fom : sfom (S:=S) (Y:=Y) (R:=Rf) (J:=Jf) (B:=B) (W:=W))
    x t r (b : gobj Y Rf Jf Mf Rm Jm W) e rf w,
  fo_rhs fom (recon x) t (b_f b) (b_w b) = (e, (rf, w)) -> e <> Ok tt ->
  (forall P c, galerkin_rhs (J:=J) must good o xo recon phi fom P c ->
   exists b', rhs_method c x t r b = (e, (r, b')) /\ b_w b' = w) /\
  (forall P PJ c j, galerkin_rhs_jac must good o xo jo recon phi fom P PJ c ->
   exists b', rhs_jac_method c x t r j b = (e, (r, j, b')) /\ b_w b' = w).
Proof. intros. split; intros; [eapply rhs_failure|eapply rhs_jac_failure]; eassumption. Qed.
Print Assumptions C37_fom_failure.

(** Without a request for the Jacobian the FOM is not asked for it. *)
Theorem C37_jacobian_only_on_request :
  forall (S X Y Rf Jf Mf Rm Jm J B W : Type) (o : sops S) (recon : X -> Y) (phi : B)
    (fom fom' : sfom (S:=S) (Y:=Y) (R:=Rf) (J:=Jf) (B:=B) (W:=W)),
  (forall y t r w, fo_rhs fom y t r w = fo_rhs fom' y t r w) ->
  forall x t r (b : gobj Y Rf Jf Mf Rm Jm W),
  (forall prodv prodj,
     rhs_jac_method (J:=J) (default_rhs_jac o recon phi prodv prodj fom) x t r None b =
     rhs_jac_method (default_rhs_jac o recon phi prodv prodj fom') x t r None b) /\
  (forall hyp, rhs_jac_method (J:=J) (hypred_rhs_jac recon phi fom hyp) x t r None b =
               rhs_jac_method (hypred_rhs_jac recon phi fom' hyp) x t r None b) /\
  (forall msk hyp, rhs_jac_method (J:=J) (masked_rhs_jac recon phi fom msk hyp) x t r None b =
                   rhs_jac_method (masked_rhs_jac recon phi fom' msk hyp) x t r None b).
Proof. exact @no_jacobian_call. Qed.
Print Assumptions C37_jacobian_only_on_request.

(** C62. Explicit problems that stay where they were made, and LSPG problems however they are
    moved: no step of a usable problem touches a dead object. *)
Theorem C62_explicit_galerkin_partial :
  forall l, Forall stays l -> correct_use l nothing ->
  Forall (fun r => r = Ok tt) (fst (uses gp_use l (fun _ => None))).
Proof. exact gp_safe. Qed.
Print Assumptions C62_explicit_galerkin_partial.

Theorem C62_lspg :
  forall l, Forall not_copied l -> correct_use l nothing ->
  Forall (fun r => r = Ok tt) (fst (uses lp_use l lnothing)).
Proof. exact lp_safe. Qed.
Print Assumptions C62_lspg.

Theorem C62_copied_explicit_galerkin_refuted :
  ~ forall l, correct_use l nothing -> Forall (fun r => r = Ok tt) (fst (uses gp_use l (fun _ => None))).
Proof. exact gp_copy_refuted. Qed.
Print Assumptions C62_copied_explicit_galerkin_refuted.

Theorem C62_moved_explicit_galerkin_refuted :
  ~ forall l, Forall not_copied l -> correct_use l nothing ->
    Forall (fun r => r = Ok tt) (fst (uses gp_use l (fun _ => None))).
Proof. exact gp_move_refuted. Qed.
Print Assumptions C62_moved_explicit_galerkin_refuted.

(** C63. The residual an implicit Galerkin problem gives to the solver is phi^T times the FOM's
    time-discrete residual at the reconstructed states, if phi^T phi = 1 ... *)
Theorem C63_orthonormal_basis_partial :
  forall (S X Y Jf Mf Rm Jm J B W : Type) (o : sops S) (xo : vops S X) (yo : vops S Y) (jo : vops S J),
  sfield o -> schar0 o -> vspace o xo -> vspace o jo ->
  forall (jid : J) (recon bapp : X -> Y) (tr : Y) (phi : B), (forall x, recon x = vadd yo (bapp x) tr) ->
  forall (fom : sfom (S:=S) (Y:=Y) (R:=Y) (J:=Jf) (B:=B) (W:=W)) f df,
  fom_rhs false (fun _ => True) fom f -> fom_jac false (fun _ => True) fom df ->
  forall prodv prodj T TJ, product_is xo prodv phi T -> product_is jo prodj phi TJ -> linear yo xo T ->
  (forall d, T (bapp d) = d) ->
  let pol := policy_std o xo jo jid (rhs_jac_system (Mf:=Mf) (Rm:=Rm) (Jm:=Jm) (default_rhs_jac o recon phi prodv prodj fom)) in
  (forall x_n st t k dt x R Jo g r jo' g',
   std_rj pol BDF1 (x_n :: st) t k dt x R Jo g = (Ok tt, (r, jo', g')) ->
   r = T (bdf1_R o yo (recon x_n) dt (f (recon x) t) (recon x))) /\
  (forall x_n x_nm1 st t k dt x R Jo g r jo' g', k <> 1 ->
   std_rj pol BDF2 (x_n :: x_nm1 :: st) t k dt x R Jo g = (Ok tt, (r, jo', g')) ->
   r = T (bdf2_R o yo (recon x_n) (recon x_nm1) dt (f (recon x) t) (recon x))).
Proof. intros. split; intros; [eapply ortho_bdf1|eapply ortho_bdf2]; eassumption. Qed.
Print Assumptions C63_orthonormal_basis_partial.

(** ... or if the problem has a mass matrix. *)
Theorem C63_mass_matrix_partial :
  forall (S X Y Jf Mf Rm Jm J B W : Type) (o : sops S) (xo : vops S X) (yo : vops S Y) (jo : vops S J),
  sfield o -> schar0 o -> vspace o xo -> vspace o yo -> vspace o jo ->
  forall (jid : J) (japp : J -> X -> X) (recon bapp : X -> Y) (tr : Y) (phi : B),
  linear xo yo bapp -> (forall x, recon x = vadd yo (bapp x) tr) ->
  forall (fom : sfom (S:=S) (Y:=Y) (R:=Y) (J:=Jf) (B:=B) (W:=W)) f df,
  fom_rhs false (fun _ => True) fom f -> fom_jac false (fun _ => True) fom df ->
  forall prodv prodj T TJ, product_is xo prodv phi T -> product_is jo prodj phi TJ -> linear yo xo T ->
  forall mass dm (mapp : Y -> S -> Y -> Y), fom_mass false (fun _ => True) mass dm ->
  forall prodm (TM : Mf -> J), product_is jo prodm phi TM ->
  (forall y t d, japp (TM (dm y phi t)) d = T (mapp y t (bapp d))) ->
  let pol := policy_mm o xo jo japp
    (mass_rhs_jac_system (Rm:=Rm) (Jm:=Jm) (default_mass_rhs_jac o recon phi prodv prodj prodm fom mass)) in
  (forall x_n st t k dt x R Jo g r jo' g',
   std_rj pol BDF1 (x_n :: st) t k dt x R Jo g = (Ok tt, (r, jo', g')) ->
   r = T (bdf1_R_mm o yo (fun m v => m v) (recon x_n) dt (mapp (recon x) t) (f (recon x) t) (recon x))) /\
  (forall x_n x_nm1 st t k dt x R Jo g r jo' g', k <> 1 ->
   std_rj pol BDF2 (x_n :: x_nm1 :: st) t k dt x R Jo g = (Ok tt, (r, jo', g')) ->
   r = T (bdf2_R_mm o yo (fun m v => m v) (recon x_n) (recon x_nm1) dt (mapp (recon x) t) (f (recon x) t) (recon x))).
Proof. intros. split; intros; [eapply ortho_bdf1_mm|eapply ortho_bdf2_mm]; eassumption. Qed.
Print Assumptions C63_mass_matrix_partial.

(** Otherwise a reduced residual of zero does not make the FOM's residual orthogonal to the basis:
    basis 2, y' = y, one step of BDF1. *)
Theorem C63_any_basis_refuted :
  product_is QcV two_prod (q 2) (fun v => q 2 * v)%Qc /\
  exists x_n dt x jo' g',
    std_rj (policy_std QcS QcV QcV (q 1) two_sys) BDF1 [x_n] (q 0) 1 dt x (q 0) None ([], mk_ppol (-1) two_obj)
      = (Ok tt, (q 0, jo', g')) /\
    (q 2 * bdf1_R QcS QcV (two_recon x_n) dt (two_recon x) (two_recon x))%Qc <> q 0.
Proof. exact (conj two_product not_orthogonal). Qed.
Print Assumptions C63_any_basis_refuted.

(** C64. The methods residual and applyJacobian of hyper-reduced steady problems always throw, and
    change nothing. *)
Theorem C64_hyper_reduced_steady_refuted :
  forall (X Y Rf Jf Rm Jm J W : Type) x v r (j : option J) (b : gobj Y Rf Jf unit Rm Jm W),
  steady_method (X:=X) steady_hypred_residual x r j b = (Throw ERuntime, (r, j, b)) /\
  steady_method (X:=X) (fun x => steady_hypred_apply x v) x r j b = (Throw ERuntime, (r, j, b)).
Proof. intros. destruct b. split; reflexivity. Qed.
Print Assumptions C64_hyper_reduced_steady_refuted.

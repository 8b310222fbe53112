(** Cases meeting the hypotheses of [PropGalerkin.v]. *)
From Coq Require Import ZArith List Bool Reals Lra QArith Qcanon.
From Verif Require Import Base QcInst RInst Laws LawInst ExplicitModel ExplicitSpec ExplicitExtra ImplicitModel ImplicitSpec
  ImplicitWitness ExImplicit LspgModel RomSpec ExLspg GalerkinModel GalerkinSpec GalerkinProofs GalerkinClaims GalerkinOrtho
  ProblemObjects ProblemObjectsSpec.
Import ListNotations.
Local Open Scope Z_scope.

(** FOM states in the plane, y' = (y2 + t, - y1), mass matrix diag(1, 2), basis (3/5, 4/5), shift (1, 0).
    The world counts the calls; once its flag is set the FOM throws. *)
Definition gW := (nat * bool)%type.
Definition healthy (w : gW) : Prop := snd w = false.
Definition gcall {A} (v old : A) (w : gW) : outcome unit * (A * gW) :=
  if snd w then (Throw (EUser 1), (old, w)) else (Ok tt, (v, (Datatypes.S (fst w), false))).
Definition g_basis : P2 := (Q2Qc (3 # 5), Q2Qc (4 # 5)).
Definition g_bapp (x : Qc) : P2 := vscale ex_p2 x g_basis.
Definition g_recon (x : Qc) : P2 := vadd ex_p2 (g_bapp x) (q 1, q 0).
Definition g_rhs (y : P2) (t : Qc) : P2 := (snd y + t, - fst y)%Qc.
Definition g_jac (y phi : P2) (t : Qc) : P2 := (snd phi, - fst phi)%Qc.
Definition g_mass (y phi : P2) (t : Qc) : P2 := (fst phi, q 2 * snd phi)%Qc.
Definition g_fom : sfom (S:=Qc) (Y:=P2) (R:=P2) (J:=P2) (B:=P2) (W:=gW) :=
  mk_sfom (fun y t r w => gcall (g_rhs y t) r w) (fun y phi t j w => gcall (g_jac y phi t) j w).
Definition g_massf (y phi : P2) (t : Qc) (m : P2) (w : gW) := gcall (g_mass y phi t) m w.
Definition g_dot (a b : P2) : Qc := (fst a * fst b + snd a * snd b)%Qc.
Definition g_prod (a : Qc) (phi v : P2) (b r : Qc) : Qc := (a * g_dot phi v + b * r)%Qc.

Lemma gcall_returns {A} (v old : A) w : healthy w -> returns true healthy (gcall v old w) v.
Proof. unfold healthy. destruct w as [n fl]. cbn. intros ->. repeat split. Qed.
Example ex_g_rhs : fom_rhs true healthy g_fom g_rhs.
Proof. intros y t r w Hw. apply gcall_returns. exact Hw. Qed.
Example ex_g_jac : fom_jac true healthy g_fom g_jac.
Proof. intros y phi t j w Hw. apply gcall_returns. exact Hw. Qed.
Example ex_g_mass : fom_mass true healthy g_massf g_mass.
Proof. intros y phi t j w Hw. apply gcall_returns. exact Hw. Qed.
Example ex_g_product : product_is QcV g_prod g_basis (g_dot g_basis).
Proof. intros a v b r. reflexivity. Qed.
(** Reducer t -> sum of the components plus t; masker: swap. *)
Definition g_red : reducer (S:=Qc) (X:=Qc) (J:=Qc) (W:=gW) P2 P2 :=
  mk_reducer (fun a t r w => gcall (fst a + snd a + t)%Qc r w) (fun a t j w => gcall (fst a + snd a)%Qc j w).
Example ex_g_red : reducer_is true healthy g_red (fun t a => fst a + snd a + t)%Qc (fun _ a => fst a + snd a)%Qc.
Proof. split; intros; apply gcall_returns; assumption. Qed.
Definition g_msk : masker (Ru:=P2) (Ju:=P2) (R:=P2) (J:=P2) (W:=gW) :=
  mk_masker (fun a r w => gcall (snd a, fst a) r w) (fun a j w => gcall (snd a, fst a) j w).
Example ex_g_msk : masker_is true healthy g_msk (fun a => (snd a, fst a)) (fun a => (snd a, fst a)).
Proof. split; intros; apply gcall_returns; assumption. Qed.
Definition g_sfom : steady_fom (Y:=P2) (Rf:=P2) (Jf:=P2) (B:=P2) (W:=gW) :=
  mk_steady_fom (fun y r w => gcall (g_rhs y (q 0)) r w)
    (fun y r phi j w => gcall (g_rhs y (q 0), option_map (fun _ => g_jac y phi (q 0)) j) (r, j) w)
    (fun y v r w => gcall (g_jac y v (q 0)) r w).
Example ex_g_steady : steady_is true healthy g_sfom (fun y => g_rhs y (q 0)) (fun y phi => g_jac y phi (q 0)) (fun y v => g_jac y v (q 0)).
Proof. repeat split; intros; try (apply gcall_returns; assumption); unfold healthy in *; destruct w; cbn in *; subst; reflexivity. Qed.

(** All variants exist. *)
Example ex_g_all :
  galerkin_rhs_jac (Mf:=P2) (Rm:=P2) (Jm:=P2) true healthy QcS QcV QcV g_recon g_basis g_fom
    (fun _ => g_dot g_basis) (fun _ => g_dot g_basis) (default_rhs_jac QcS g_recon g_basis g_prod g_prod g_fom) /\
  (exists P PJ, galerkin_rhs_jac (Mf:=P2) (Rm:=P2) (Jm:=P2) true healthy QcS QcV QcV g_recon g_basis g_fom P PJ
    (hypred_rhs_jac g_recon g_basis g_fom g_red)) /\
  (exists P PJ, galerkin_rhs_jac (Mf:=P2) true healthy QcS QcV QcV g_recon g_basis g_fom P PJ
    (masked_rhs_jac g_recon g_basis g_fom g_msk g_red)) /\
  (exists P PJ, galerkin_steady (Rm:=P2) (Jm:=P2) true healthy QcS QcV QcV g_recon g_basis g_sfom P PJ
    (steady_masked g_recon g_basis g_sfom (q 0) g_msk g_red)).
Proof.
  split; [exact (DefaultRhsJac true healthy QcS QcV QcV g_recon g_basis g_fom g_prod g_prod _ _ ex_g_product ex_g_product)|].
  split; [|split]; do 2 eexists.
  - eapply HypredRhsJac. apply ex_g_red.
  - eapply MaskedRhsJac; [apply ex_g_msk|apply ex_g_red].
  - eapply MaskedSteady; [apply ex_g_msk|apply ex_g_red].
Qed.
Definition g_obj (fl : bool) : gobj P2 P2 P2 P2 P2 P2 gW :=
  mk_gobj (q 9, q 9) (q 9, q 9) (q 9, q 9) (q 9, q 9) (q 9, q 9) (q 9, q 9) (0%nat, fl).
(** The order of the operators matters here: at x = 5 the masked residual is reduced after masking. *)
Definition g_shown (r : outcome unit * (Qc * option Qc * gobj P2 P2 P2 P2 P2 P2 gW)) :=
  (this (fst (fst (snd r))), option_map this (snd (fst (snd r)))).
Example ex_g_values :
  g_shown (rhs_jac_method (default_rhs_jac QcS g_recon g_basis g_prod g_prod g_fom) (q 5) (q 1) (q 8) (Some (q 7)) (g_obj false))
    = (-1 # 5, Some 0%Q) /\
  g_shown (rhs_jac_method (masked_rhs_jac g_recon g_basis g_fom g_msk g_red) (q 5) (q 1) (q 8) (Some (q 7)) (g_obj false))
    = (2%Q, Some (1 # 5)) /\
  fst (rhs_jac_method (default_rhs_jac QcS g_recon g_basis g_prod g_prod g_fom) (q 5) (q 1) (q 8) (Some (q 7)) (g_obj true))
    = Throw (EUser 1).
Proof. split; [|split]; vm_compute; reflexivity. Qed.
(** An explicit problem, created and stepped by RK4; with the mass matrix and a linear solver. *)
Definition g_obs (k i : Z) (t v : Qc) (w : gW) : outcome unit * gW := (Ok tt, w).
Definition g_solve (m x f : Qc) (w : gW) : outcome unit * (Qc * gW) := (Ok tt, ((f / m)%Qc, w)).
Example ex_g_solver : forall x t old w, healthy w -> exists s w',
  g_solve (g_dot g_basis (g_mass (g_recon x) g_basis t)) old (g_dot g_basis (g_rhs (g_recon x) t)) w = (Ok tt, (s, w')) /\
  (g_dot g_basis (g_mass (g_recon x) g_basis t) * s)%Qc = g_dot g_basis (g_rhs (g_recon x) t) /\ healthy w'.
Proof.
  intros x t old w Hw. do 2 eexists. split; [reflexivity|]. split; [|exact Hw].
  apply Qcmult_div_r. intros E. apply (f_equal this) in E. revert E. vm_compute. discriminate.
Qed.
Definition g_est : @est Qc Qc Qc (gobj P2 P2 P2 P2 P2 P2 gW) :=
  mk_est (q 5) [q 0; q 0; q 0; q 0] (q 0) (q 0) (q 0) (g_obj false) [].
Example ex_g_explicit :
  used 4 (explicit_step QcS QcV (rhs_system (default_rhs QcS g_recon g_basis g_prod g_fom) g_obs) RungeKutta4) g_est /\
  healthy (b_w (x_w g_est)) /\
  fst (explicit_step QcS QcV (rhs_system (default_rhs QcS g_recon g_basis g_prod g_fom) g_obs) RungeKutta4
        (q 0) 1 half g_est) = Ok tt /\
  fst (b_w (x_w (snd (explicit_step QcS QcV (rhs_system (default_rhs QcS g_recon g_basis g_prod g_fom) g_obs) RungeKutta4
        (q 0) 1 half g_est)))) = 4%nat.
Proof. split; [apply UsedFresh; reflexivity|]. vm_compute. repeat split. Qed.
(** An implicit problem and the reduced ODE: two runs of BDF2. *)
Definition g_run {P} (g : outcome P) (step : P -> list (outcome unit * Qc)) := match g with Ok a => step a | _ => [] end.
Definition g_evs : list (event Qc Qc) := [Start (q 0) (q 5); Attempt half; Attempt half; Start (q 0) (q 1); Attempt half].
Example ex_g_implicit : exists ga gb,
  implicit_create QcS BDF2 (q 0) (q 0) (mk_ppol (-1) (g_obj false)) (q 0) tt = Ok ga /\
  implicit_create QcS BDF2 (q 0) (q 0) (mk_ppol (-1) tt) (q 0) tt = Ok gb /\
  map fst (fst (perform QcS (implicit_step QcS (policy_std QcS QcV QcV (q 1)
      (rhs_jac_system (default_rhs_jac QcS g_recon g_basis g_prod g_prod g_fom))) newton1 BDF2) put_ode t_y g_evs (q 0) 0 ga))
    = [Ok tt; Ok tt; Ok tt; Ok tt; Ok tt].
Proof. do 2 eexists. split; [reflexivity|]. split; [reflexivity|]. vm_compute. reflexivity. Qed.
(** The identity as basis *)
Example ex_g_identity : product_is QcV (fun a (_ : unit) v b r => a * v + b * r)%Qc tt (fun v : Qc => v).
Proof. intros a v b r. reflexivity. Qed.

(** The derivative: one unknown, y' = y^2 and the map x -> 2 x + 1 (ex_rfom). *)
Example ex_g_derivative : forall eps0,
  fom_rhs true (fun _ => True) ex_rfom (fun y _ => y * y)%R /\
  fom_jac true (fun _ => True) ex_rfom (fun y phi _ => 2 * y * phi)%R /\
  (forall x d, (2 * (x + d) + 1 = (2 * x + 1) + 2 * d)%R) /\ (exists K, forall d, (Rabs (2 * d) <= K * Rabs d)%R) /\
  (forall y (t d : R), (2 * y * 2 * d = 2 * y * (2 * d))%R) /\
  (forall y, derivative2 Rv Rabs Rv Rabs (fun y => y * y)%R y (Rmult (2 * y))) /\
  bounded Rv Rabs Rv Rabs (Rmult 2) /\ (forall A d : R, (2 * A * d = 2 * (A * d))%R) /\
  product_is Rv (fun a phi v b r => a * (phi * v) + b * r)%R 2%R (Rmult 2) /\
  vspace (Rops eps0) Rv /\
  exists r' j' b',
    rhs_jac_method (default_rhs_jac (Rops eps0) (fun x => 2 * x + 1)%R 2%R
      (fun a phi v b r => a * (phi * v) + b * r)%R (fun a phi v b r => a * (phi * v) + b * r)%R ex_rfom)
      3%R 0%R 9%R (Some 9%R) (mk_gobj 0%R 0%R 0%R tt tt tt 0%nat) = (Ok tt, (r', Some j', b')).
Proof.
  intros eps0. split; [intros y t r w _; repeat split|]. split; [intros y phi t j w _; repeat split|].
  split; [intros; ring|]. split; [exact (bo_bound _ _ _ _ _ ex_bounded)|]. split; [intros; ring|].
  split; [exact ex_derivative2|]. split; [exact ex_bounded|]. split; [intros; ring|].
  assert (HP : product_is Rv (fun a phi v b r => a * (phi * v) + b * r)%R 2%R (Rmult 2)) by (intros a v b r; reflexivity).
  assert (HV : vspace (Rops eps0) Rv) by exact (self_space (Rops eps0) (R_field eps0)).
  split; [exact HP|]. split; [exact HV|].
  destruct (rhs_jac_value (Mf:=unit) (Rm:=unit) (Jm:=unit) (Rops eps0) Rv Rv HV HV true (fun _ => True) (fun x => 2 * x + 1)%R 2%R
    ex_rfom (fun y _ => y * y)%R (fun y phi _ => 2 * y * phi)%R) with (P := fun _ : R => Rmult 2) (PJ := fun _ : R => Rmult 2)
    (c := default_rhs_jac (Mf:=unit) (Rm:=unit) (Jm:=unit) (M:=unit) (Rops eps0) (fun x => 2 * x + 1)%R 2%R (fun a phi v b r => a * (phi * v) + b * r)%R
            (fun a phi v b r => a * (phi * v) + b * r)%R ex_rfom)
    (x := 3%R) (t := 0%R) (r := 9%R) (j := Some 9%R) (b := mk_gobj 0%R 0%R 0%R tt tt tt 0%nat) as (_ & V & M).
  - intros y t r w _. repeat split.
  - intros y phi t j w _. repeat split.
  - apply DefaultRhsJac; exact HP.
  - exact I.
  - destruct (rhs_jac_method _ _ _ _ _ _) as [e [[r' j'] b']]. cbn [fst snd] in V, M. rewrite (M eq_refl) in *.
    specialize (V eq_refl). cbn [option_map] in V. injection V as _ ->. do 3 eexists. reflexivity.
Qed.

(** C62 *)
Example ex_objects :
  correct_use [UCreate 0; UCreate 1; UStep 0; UDestroy 0; UStep 1] nothing /\
  Forall stays [UCreate 0; UCreate 1; UStep 0; UDestroy 0; UStep 1] /\
  correct_use [UCreate 0; UMove 0 1; UDestroy 0; UStep 1; UMove 1 0; UStep 0] nothing /\
  Forall not_copied [UCreate 0; UMove 0 1; UDestroy 0; UStep 1; UMove 1 0; UStep 0].
Proof. cbn. repeat split; try discriminate; repeat constructor. Qed.

(** C63: the basis above is orthonormal; with the mass matrix the reduced matrix is phi^T M phi. *)
Lemma comb_self (a b d : Qc) : (a * (d * a) + b * (d * b))%Qc = ((a * a + b * b) * d)%Qc.
Proof. ring. Qed.
Example ex_orthonormal : forall d, g_dot g_basis (g_bapp d) = d.
Proof.
  intros d. transitivity ((fst g_basis * fst g_basis + snd g_basis * snd g_basis) * d)%Qc; [apply comb_self|].
  replace (fst g_basis * fst g_basis + snd g_basis * snd g_basis)%Qc with (Q2Qc 1); [apply Qcmult_1_l|].
  apply Qc_is_canon. vm_compute. reflexivity.
Qed.
Lemma comb_mass (a b c d : Qc) : ((a * a + b * (c * b)) * d)%Qc = (a * (d * a) + b * (c * (d * b)))%Qc.
Proof. ring. Qed.
Example ex_mass_applied : forall y t d,
  (g_dot g_basis (g_mass y g_basis t) * d)%Qc = g_dot g_basis ((fun v => (fst v, q 2 * snd v)%Qc) (g_bapp d)).
Proof. intros y t d. exact (comb_mass (fst g_basis) (snd g_basis) (q 2) d). Qed.
Lemma dot_linear (v : P2) : linear ex_p2 QcV (g_dot v).
Proof.
  split.
  - intros x y. change ((fst v * (fst x + fst y) + snd v * (snd x + snd y))%Qc =
                        ((fst v * fst x + snd v * snd x) + (fst v * fst y + snd v * snd y))%Qc). ring.
  - intros c x. change ((fst v * (c * fst x) + snd v * (c * snd x))%Qc = (c * (fst v * fst x + snd v * snd x))%Qc). ring.
Qed.
Example ex_dot_linear : linear ex_p2 QcV (g_dot g_basis).
Proof. exact (dot_linear g_basis). Qed.

(** Cases meeting the hypotheses of [PropRomRun.v]. *)
From Coq Require Import ZArith List Bool Reals Lra QArith Qcanon.
From Verif Require Import Base QcInst RInst Laws LawInst AdvanceModel AdvanceSpec AdvanceProofs TargetProofs Track ExplicitModel ExplicitExtra
  ImplicitModel ImplicitSpec ImplicitWitness LspgModel RomSpec LspgSpec GalerkinModel GalerkinSpec RomRunSpec ExImplicit ExLspg ExGalerkin.
Import ListNotations.
Local Open Scope Z_scope.

(** FOM states in the plane, y' = (y2 + t, - y1), trial map x -> x (3/5, 4/5) + (1, 0). The third evaluation of the
    right-hand side throws. *)
Definition rr_call {A} (v old : A) (w : nat) : outcome unit * (A * nat) :=
  (if Nat.eqb w 2 then Throw EVelocity else Ok tt, (if Nat.eqb w 2 then old else v, Datatypes.S w)).
Definition rr_fom : sfom (S:=Qc) (Y:=P2) (R:=P2) (J:=P2) (B:=P2) (W:=nat) :=
  mk_sfom (fun y t r w => rr_call (g_rhs y t) r w) (fun y phi t j w => (Ok tt, (g_jac y phi t, w))).
Lemma rr_call_ok {A} (v old : A) w v' w' : rr_call v old w = (Ok tt, (v', w')) -> v' = v.
Proof. cbv [rr_call]. destruct (Nat.eqb w 2); intros E; [discriminate|]. injection E as <- _. reflexivity. Qed.
Example ex_rr_fom : fom_is rr_fom g_rhs g_jac.
Proof.
  split.
  - intros y t r w f' w' E. exact (rr_call_ok _ _ _ _ _ E).
  - intros y phi t j w j' w' E. injection E as <- _. reflexivity.
Qed.
(** On the sample mesh: the first component, or the first plus twice the second. *)
Definition rr_sample : sfom (S:=Qc) (Y:=P2) (R:=Qc) (J:=Qc) (B:=P2) (W:=nat) :=
  mk_sfom (fun y t r w => rr_call (fst (g_rhs y t)) r w) (fun y phi t j w => (Ok tt, (fst (g_jac y phi t), w))).
Example ex_rr_sample : fom_is rr_sample (fun y t => fst (g_rhs y t)) (fun y phi t => fst (g_jac y phi t)).
Proof.
  split.
  - intros y t r w f' w' E. exact (rr_call_ok _ _ _ _ _ E).
  - intros y phi t j w j' w' E. injection E as <- _. reflexivity.
Qed.
Example ex_rr_updater : updater_is (W:=nat) ex_up (fun r a y b => a * r + b * fst y)%Qc (fun j a phi b => a * j + b * fst phi)%Qc.
Proof. split; intros; match goal with H : _ = _ |- _ => injection H as <- _; reflexivity end. Qed.
Definition rr_mask : masker (Ru:=P2) (Ju:=P2) (R:=Qc) (J:=Qc) (W:=nat) :=
  mk_masker (fun a r w => (Ok tt, ((fst a + q 2 * snd a)%Qc, w))) (fun a j w => (Ok tt, ((fst a + q 2 * snd a)%Qc, w))).
Example ex_rr_mask : mask_is rr_mask (fun a => fst a + q 2 * snd a)%Qc (fun a => fst a + q 2 * snd a)%Qc.
Proof. split; intros; match goal with H : _ = _ |- _ => injection H as <- _; reflexivity end. Qed.
(** Scaling of both components by 2 and 3, or by 5 *)
Definition rr_scale (a : P2) : P2 := (q 2 * fst a, q 3 * snd a)%Qc.
Definition rr_scaler (y : P2) (t : Qc) (r : P2) (Jo : option P2) (w : nat) : outcome unit * (P2 * option P2 * nat) :=
  (Ok tt, (rr_scale r, option_map rr_scale Jo, w)).
Example ex_rr_scaler : scaler_is rr_scaler (fun _ _ => rr_scale) (fun _ _ => rr_scale).
Proof. intros y t r Jo w r' j' w' E. injection E as <- <- _. split; [reflexivity|]. intros j ->. reflexivity. Qed.
Definition rr_scaler1 (y : P2) (t : Qc) (r : Qc) (Jo : option Qc) (w : nat) : outcome unit * (Qc * option Qc * nat) :=
  (Ok tt, ((q 5 * r)%Qc, option_map (Qcmult (q 5)) Jo, w)).
Example ex_rr_scaler1 : scaler_is rr_scaler1 (fun _ _ => Qcmult (q 5)) (fun _ _ => Qcmult (q 5)).
Proof. intros y t r Jo w r' j' w' E. injection E as <- <- _. split; [reflexivity|]. intros j ->. reflexivity. Qed.

(** One Gauss-Newton step, then the normal equations are checked: J^T r = 0. *)
Definition rr_acc {A B} (dot : B -> A -> Qc) (r : A) (j : option B) : Prop := exists a, j = Some a /\ dot a r = q 0.
Definition rr_gn {A B} (dot : B -> A -> Qc) (sq : B -> Qc) (r0 : A) (j0 : B) (ws : unit) (y : Qc) : sol Qc A B unit :=
  SCall y r0 (Some j0) (fun e r j =>
    match e, j with
    | Ok _, Some a =>
        let y' := (y - dot a r / sq a)%Qc in
        SCall y' r (Some a) (fun e' r' j' =>
          match e', j' with
          | Ok _, Some a' => if Qc_eq_dec (dot a' r') (q 0) then SEnd (Ok tt) y' ws else SEnd (Throw ENonlinearSolve) y' ws
          | _, _ => SEnd (Throw ENonlinearSolve) y' ws
          end)
    | _, _ => SEnd (Throw ENonlinearSolve) y ws
    end).
Example ex_rr_gn : forall A B (dot : B -> A -> Qc) sq r0 j0, asks (rr_gn dot sq r0 j0) /\
  (forall ws y, certified_rj (rr_acc dot) (fun _ => False) (rr_gn dot sq r0 j0 ws y)) /\
  forall ws y, ends (fun r => r <> Throw ETimeStep) (rr_gn dot sq r0 j0 ws y).
Proof.
  intros A B dot sq r0 j0. split; [intros ws y; exact I|].
  split; intros ws y; cbn; intros e r j; destruct e; try discriminate; try exact I;
    destruct j as [b|]; try discriminate; try exact I; cbn; intros e' r' j'; destruct e'; try discriminate; try exact I;
    destruct j' as [b'|]; try discriminate; try exact I; destruct (Qc_eq_dec (dot b' r') (q 0)); try discriminate; try exact I.
  left. split; [reflexivity|]. exists b'. split; [reflexivity|assumption].
Qed.
Definition rr_gn2 := rr_gn g_dot (fun j => g_dot j j) (q 0, q 0) (q 0, q 0).
Definition rr_gn1 := rr_gn Qcmult (fun j : Qc => j * j)%Qc (q 0) (q 0).

(** The runs, BDF2: three steps of size 1/2 without failures (the FOM's call counter starts at 3), or to the time 3/2 with
    recovery: the second step fails and is repeated with half its size. *)
Definition rr_obs (_ : Z) (_ : Qc) (_ : Qc) (w : unit) := (Ok tt, w).
Definition rr_n {G} (made : outcome G) (step : Qc -> Qc -> Z -> Qc -> G -> outcome unit * (Qc * G)) : Prop :=
  match made with
  | Ok g =>
      let run := advance_n_steps QcS (mk_user (split_obs rr_obs) (pol3 (split_pol (fun _ _ _ w => (Ok half, w)))) noop_guess
                   (split_step step)) (Z.of_nat 3) (q 0) (q 1, (g, tt), []) in
      fst run = Ok tt /\ length (reports (snd (snd run))) = 4%nat
  | _ => False
  end.
Definition rr_target {G} (made : outcome G) (step : Qc -> Qc -> Z -> Qc -> G -> outcome unit * (Qc * G)) : Prop :=
  match made with
  | Ok g =>
      let run := to_target QcS (mk_user (split_obs rr_obs) (split_pol (fun _ _ _ w => (Ok (half, Q2Qc (1 # 10), q 2), w))) noop_guess
                   (split_step step)) true 20 (q 0) (Q2Qc (3 # 2)) (q 1, (g, tt), []) in
      fst run = Ok tt /\ length (reports (snd (snd run))) = 5%nat
  | _ => False
  end.
Definition rr_made {R P} (mkp : list P2 -> P) (cr : R) := lspg_create QcS BDF2 (q 0) cr (q 0, q 0) mkp (q 9) tt.
Ltac rr_go := vm_compute; split; reflexivity.
Example ex_rr_default :
  rr_n (rr_made (fresh_policy 3%nat) (q 0, q 0))
    (implicit_fn (implicit_step QcS (default_policy QcS ex_p2 ex_p2 g_recon rr_fom g_basis) rr_gn2 BDF2)) /\
  rr_target (rr_made (fresh_policy 0%nat) (q 0, q 0))
    (implicit_fn (implicit_step QcS (default_policy QcS ex_p2 ex_p2 g_recon rr_fom g_basis) rr_gn2 BDF2)).
Proof. split; rr_go. Qed.
Example ex_rr_scaled :
  rr_n (rr_made (fresh_policy 3%nat) (q 0, q 0))
    (implicit_fn (implicit_step QcS (scaled_policy (default_policy QcS ex_p2 ex_p2 g_recon rr_fom g_basis) rr_scaler) rr_gn2 BDF2)) /\
  rr_target (rr_made (fresh_policy 0%nat) (q 0, q 0))
    (implicit_fn (implicit_step QcS (scaled_policy (default_policy QcS ex_p2 ex_p2 g_recon rr_fom g_basis) rr_scaler) rr_gn2 BDF2)).
Proof. split; rr_go. Qed.
Example ex_rr_masked :
  rr_n (rr_made (fresh_masked (q 0, q 0) (q 0, q 0) 3%nat) (q 0))
    (implicit_fn (implicit_step QcS (masked_policy (default_policy QcS ex_p2 ex_p2 g_recon rr_fom g_basis) rr_mask) rr_gn1 BDF2)) /\
  rr_target (rr_made (fresh_masked (q 0, q 0) (q 0, q 0) 0%nat) (q 0))
    (implicit_fn (implicit_step QcS (masked_policy (default_policy QcS ex_p2 ex_p2 g_recon rr_fom g_basis) rr_mask) rr_gn1 BDF2)).
Proof. split; rr_go. Qed.
Example ex_rr_hyper_reduced :
  rr_n (rr_made (fresh_policy 3%nat) (q 0))
    (implicit_fn (implicit_step QcS (hypred_policy QcS ex_p2 g_recon rr_sample g_basis ex_up) rr_gn1 BDF2)) /\
  rr_target (rr_made (fresh_policy 0%nat) (q 0))
    (implicit_fn (implicit_step QcS (hypred_policy QcS ex_p2 g_recon rr_sample g_basis ex_up) rr_gn1 BDF2)).
Proof. split; rr_go. Qed.
Example ex_rr_scaled_hyper_reduced :
  rr_n (rr_made (fresh_policy 3%nat) (q 0))
    (implicit_fn (implicit_step QcS (scaled_policy (hypred_policy QcS ex_p2 g_recon rr_sample g_basis ex_up) rr_scaler1) rr_gn1 BDF2)) /\
  rr_target (rr_made (fresh_policy 0%nat) (q 0))
    (implicit_fn (implicit_step QcS (scaled_policy (hypred_policy QcS ex_p2 g_recon rr_sample g_basis ex_up) rr_scaler1) rr_gn1 BDF2)).
Proof. split; rr_go. Qed.

(** Fully discrete, three states: y - y_n - dt f(y) + dt/4 (y_n - y_n-1) after the first step. *)
Definition rr_R (step : Z) (t dt : Qc) (y : P2) (l : list P2) : P2 :=
  match l with
  | y_n :: y_nm1 :: _ =>
      let e := vminus QcS ex_p2 (vminus QcS ex_p2 y y_n) (vscale ex_p2 dt (g_rhs y t)) in
      if step =? 1 then e else vadd ex_p2 e (vscale ex_p2 (dt / q 4)%Qc (vminus QcS ex_p2 y_n y_nm1))
  | _ => y
  end.
Definition rr_J (step : Z) (t dt : Qc) (y : P2) (l : list P2) : P2 := vminus QcS ex_p2 g_basis (vscale ex_p2 dt (g_jac y g_basis t)).
Definition rr_dfom (step : Z) (t dt : Qc) (r phi : P2) (Jo : option P2) (y : P2) (l : list P2) (w : nat)
  : outcome unit * (P2 * option P2 * nat) :=
  if Nat.eqb w 2 then (Throw EDiscreteTimeResidual, (r, Jo, Datatypes.S w))
  else (Ok tt, (rr_R step t dt y l, option_map (fun _ => rr_J step t dt y l) Jo, Datatypes.S w)).
Example ex_rr_dfom : dfom_is rr_dfom g_basis rr_R rr_J.
Proof.
  intros step t dt r Jo y l w r' j' w'. cbv [rr_dfom]. destruct (Nat.eqb w 2); [discriminate|].
  intros E. injection E as <- <- _. split; [reflexivity|]. try reflexivity; intros j ->; reflexivity.
Qed.
Definition rr_pr (t : Qc) (a : P2) (x : Qc) (w : nat) : outcome unit * (Qc * nat) := project_by QcS g_prod g_basis t a x w.
Example ex_rr_by_basis : projections (W:=nat) QcS QcV QcV g_basis (project_by QcS g_prod g_basis) (project_by QcS g_prod g_basis)
  (fun _ => g_dot g_basis) (fun _ => g_dot g_basis).
Proof. apply ByBasis; intros a v b r; reflexivity. Qed.
(** Hyper-reduction by (1 + t, 2) *)
Definition rr_red : reducer (S:=Qc) (X:=Qc) (J:=Qc) (W:=nat) P2 P2 :=
  mk_reducer (fun a t r w => (Ok tt, (g_dot (q 1 + t, q 2)%Qc a, w))) (fun a t j w => (Ok tt, (g_dot (q 1 + t, q 2)%Qc a, w))).
Example ex_rr_by_reducer : projections (W:=nat) QcS QcV QcV g_basis (fun t a r w => hr_r rr_red a t r w) (fun t a j w => hr_j rr_red a t j w)
  (fun t => g_dot (q 1 + t, q 2)%Qc) (fun t => g_dot (q 1 + t, q 2)%Qc).
Proof. apply ByReducer; intros t a x w x' w' E; injection E as <- _; reflexivity. Qed.
Definition rr_dmade {Q} (q0 : Q) := discrete_create QcS (total true) (q 0) (q 0, q 0) q0 (q 9) tt.
Example ex_rr_fully_discrete :
  rr_n (rr_dmade (3%nat))
    (arb_fn (arb_step QcS (fd_system g_recon (total true) (lspg_discrete rr_dfom g_basis)) rr_gn2 (total true - 1))) /\
  rr_target (rr_dmade (0%nat))
    (arb_fn (arb_step QcS (fd_system g_recon (total true) (lspg_discrete rr_dfom g_basis)) rr_gn2 (total true - 1))).
Proof. split; rr_go. Qed.
Example ex_rr_galerkin_fully_discrete :
  rr_n (rr_dmade (((q 0, q 0), (q 0, q 0), 3%nat)))
    (arb_fn (arb_step QcS (fd_system g_recon (total true) (galerkin_discrete rr_dfom g_basis (project_by QcS g_prod g_basis) (project_by QcS g_prod g_basis))) rr_gn1 (total true - 1))) /\
  rr_target (rr_dmade (((q 0, q 0), (q 0, q 0), 0%nat)))
    (arb_fn (arb_step QcS (fd_system g_recon (total true) (galerkin_discrete rr_dfom g_basis (project_by QcS g_prod g_basis) (project_by QcS g_prod g_basis))) rr_gn1 (total true - 1))).
Proof. split; rr_go. Qed.
Example ex_rr_galerkin_reduced :
  rr_n (rr_dmade (((q 0, q 0), (q 0, q 0), 3%nat)))
    (arb_fn (arb_step QcS (fd_system g_recon (total true) (galerkin_discrete rr_dfom g_basis (fun t a r w => hr_r rr_red a t r w) (fun t a j w => hr_j rr_red a t j w))) rr_gn1 (total true - 1))) /\
  rr_target (rr_dmade (((q 0, q 0), (q 0, q 0), 0%nat)))
    (arb_fn (arb_step QcS (fd_system g_recon (total true) (galerkin_discrete rr_dfom g_basis (fun t a r w => hr_r rr_red a t r w) (fun t a j w => hr_j rr_red a t j w))) rr_gn1 (total true - 1))).
Proof. split; rr_go. Qed.

(** C79: evaluations that return, and the FOM's failure *)
Example ex_rr_values : exists r' j' p',
  fd_system g_recon 3 (lspg_discrete rr_dfom g_basis) 2 (q 1) half (q 0, q 0) (Some (q 0, q 0)) (q 1) [q 2; q 3]
    (mk_fomhist [(q 7, q 7); (q 8, q 8); (q 9, q 9)] 1, 0%nat) = (Ok tt, (r', Some j', p')) /\
  map (fun y => fst y) (firstn 2 (fh_data (fst p'))) = [fst (g_recon (q 1)); fst (g_recon (q 2))].
Proof. do 3 eexists. split; [vm_compute; reflexivity|vm_compute; reflexivity]. Qed.
Example ex_rr_gvalues : exists r' j' p',
  fd_system g_recon 3 (galerkin_discrete rr_dfom g_basis (project_by QcS g_prod g_basis) (project_by QcS g_prod g_basis)) 2 (q 1) half (q 0)
    (Some (q 0)) (q 1) [q 2; q 3] (mk_fomhist [(q 7, q 7); (q 8, q 8); (q 9, q 9)] 1, ((q 0, q 0), (q 0, q 0), 0%nat))
  = (Ok tt, (r', Some j', p')).
Proof. do 3 eexists. vm_compute. reflexivity. Qed.
Example ex_rr_failure : exists h' older,
  reconstruct g_recon (q 1) [q 2; q 3] 2 (mk_fomhist [(q 7, q 7); (q 8, q 8); (q 9, q 9)] 1) = (Ok tt, h') /\
  fh_data h' = g_recon (q 1) :: older /\ (3 - 1 <= length older)%nat /\
  exists r1 j1 w1, rr_dfom 2 (q 1) half (q 0, q 0) g_basis None (g_recon (q 1)) (firstn (3 - 1) older) 2
    = (Throw EDiscreteTimeResidual, (r1, j1, w1)).
Proof. do 2 eexists. split; [reflexivity|]. split; [reflexivity|]. split; [cbn; auto|]. do 3 eexists. reflexivity. Qed.

(** C79, derivatives, on the line: trial map x -> 2 x + 1, FOM residual y - y_n - dt y^2. *)
Definition rr_Rd (step : Z) (t dt : R) (y : R) (l : list R) : R := (y - hd 0 l - dt * (y * y))%R.
Definition rr_Df (step : Z) (t dt : R) (y : R) (l : list R) (d : R) : R := (d - dt * (2 * y * d))%R.
Definition rr_Jd (step : Z) (t dt : R) (y : R) (l : list R) : R := (2 - dt * (2 * y * 2))%R.
Definition rr_rdfom (step : Z) (t dt : R) (r phi : R) (Jo : option R) (y : R) (l : list R) (w : nat)
  : outcome unit * (R * option R * nat) := (Ok tt, (rr_Rd step t dt y l, option_map (fun _ => rr_Jd step t dt y l) Jo, Datatypes.S w)).
Example ex_rr_rdfom : dfom_is rr_rdfom 2%R rr_Rd rr_Jd.
Proof. intros step t dt r Jo y l w r' j' w' E. injection E as <- <- _. split; [reflexivity|]. try reflexivity; intros j ->; reflexivity. Qed.
Example ex_rr_derivative : forall step t dt y l, derivative2 Rv Rabs Rv Rabs (fun y => rr_Rd step t dt y l) y (rr_Df step t dt y l).
Proof.
  intros step t dt y l e He. pose proof (Rabs_pos dt) as Hdt.
  exists (e / (Rabs dt + 1))%R. split; [apply Rdiv_lt_0_compat; lra|].
  intros d Hd. cbn. unfold rr_Rd, rr_Df.
  match goal with |- (Rabs ?v <= _)%R => replace v with (- (dt * d) * d)%R by ring end.
  rewrite Rabs_mult, Rabs_Ropp, Rabs_mult. apply Rmult_le_compat_r; [apply Rabs_pos|].
  pose proof (Rabs_pos d) as Hp.
  apply Rle_trans with (Rabs dt * (e / (Rabs dt + 1)))%R; [apply Rmult_le_compat_l; lra|].
  apply Rle_trans with ((Rabs dt + 1) * (e / (Rabs dt + 1)))%R.
  - apply Rmult_le_compat_r; [left; apply Rdiv_lt_0_compat; lra|lra].
  - right. field. lra.
Qed.
Example ex_rr_maps :
  (forall x d, 2 * vadd Rv x d + 1 = vadd Rv (2 * x + 1) (2 * d))%R /\ (forall d, Rabs (2 * d) <= 2 * Rabs d)%R /\
  (forall step t dt y l d, rr_Jd step t dt y l * d = rr_Df step t dt y l (2 * d))%R /\
  (forall t : R, bounded Rv Rabs Rv Rabs (fun a : R => 2 * a)%R) /\ (forall (t : R) A d, (2 * A) * d = 2 * (A * d))%R.
Proof.
  split; [intros; cbn; ring|]. split; [intros d; rewrite Rabs_mult, (Rabs_right 2); lra|].
  split; [intros; unfold rr_Jd, rr_Df; ring|]. split; [intros _; exact ex_bounded|]. intros; ring.
Qed.
Definition rr_rprod (a phi v b r : R) : R := (a * (phi * v) + b * r)%R.
Example ex_rr_rprojections : forall eps0, projections (W:=nat) (Rops eps0) Rv Rv 2%R (project_by (Rops eps0) rr_rprod 2%R)
  (project_by (Rops eps0) rr_rprod 2%R) (fun _ a => 2 * a)%R (fun _ a => 2 * a)%R.
Proof. intros eps0. apply (ByBasis (Rops eps0) Rv Rv 2%R rr_rprod rr_rprod (Rmult 2) (Rmult 2)); intros a v b r; reflexivity. Qed.
Example ex_rr_rcall : exists r' j' p',
  fd_system (fun x => 2 * x + 1)%R 2 (lspg_discrete rr_rdfom 2%R) 2 1%R 1%R 0%R (Some 0%R) 1%R [2%R]
    (mk_fomhist [7; 8]%R 1, 0%nat) = (Ok tt, (r', Some j', p')).
Proof. do 3 eexists. reflexivity. Qed.

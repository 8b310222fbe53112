(** A case meeting the hypotheses of [PropRomExact.v]: FOM states in the plane, basis (3/5, 4/5),
    shift (1, 0), y' = ((phi . y)^2 + t) phi. *)
From Coq Require Import ZArith List Bool QArith Qcanon.
From Verif Require Import Base QcInst Laws LawInst ExplicitModel ExplicitSpec ExplicitExtra ImplicitModel ImplicitSpec
  ImplicitWitness ExImplicit LspgModel RomSpec ExLspg GalerkinModel GalerkinSpec GalerkinProofs GalerkinClaims ExGalerkin.
Import ListNotations.
Local Open Scope Z_scope.
Definition e_vel (x t : Qc) : Qc := (g_dot g_basis (g_recon x) * g_dot g_basis (g_recon x) + t)%Qc.
Definition e_rhs (y : P2) (t : Qc) : P2 := g_bapp (g_dot g_basis y * g_dot g_basis y + t)%Qc.
Definition e_jac (y phi : P2) (t : Qc) : P2 := g_bapp (q 2 * g_dot g_basis y * g_dot g_basis phi)%Qc.
Definition e_fom : sfom (S:=Qc) (Y:=P2) (R:=P2) (J:=P2) (B:=P2) (W:=gW) :=
  mk_sfom (fun y t r w => gcall (e_rhs y t) r w) (fun y phi t j w => gcall (e_jac y phi t) j w).
Definition e_sys : @esys Qc P2 unit unit :=
  mk_esys (fun y t _ w => (Ok tt, (e_rhs y t, w))) (fun _ _ m f w => (NoFuel, (m, f, w)))
          (fun _ x _ w => (NoFuel, (x, w))) (fun _ _ _ _ w => (Ok tt, w)).
Example ex_e_space : linear QcV ex_p2 g_bapp /\ (forall x, g_recon x = vadd ex_p2 (g_bapp x) (q 1, q 0)) /\
  (forall x t, e_rhs (g_recon x) t = g_bapp (e_vel x t)) /\ (forall v, g_dot g_basis (g_bapp v) = v).
Proof.
  split; [|split; [|split]].
  - unfold g_bapp, g_basis. generalize (Q2Qc (3 # 5)) (Q2Qc (4 # 5)). intros a b. split; intros; cbn; f_equal; ring.
  - reflexivity.
  - reflexivity.
  - intros v. unfold g_dot, g_bapp, g_basis. cbn [vscale ex_p2 pair_v fst snd QcV].
    assert (E : (Q2Qc (3 # 5) * Q2Qc (3 # 5) + Q2Qc (4 # 5) * Q2Qc (4 # 5) = 1)%Qc)
      by (apply Qc_is_canon; vm_compute; reflexivity).
    rewrite <- (Qcmult_1_r v) at 3. rewrite <- E. generalize (Q2Qc (3 # 5)) (Q2Qc (4 # 5)). intros a b. cbn. ring.
Qed.
Example ex_e_user : fom_rhs true healthy e_fom e_rhs /\ fom_jac true healthy e_fom e_jac /\
  computes e_sys (fun _ => True) e_rhs /\
  galerkin_rhs (Jf:=P2) (Mf:=P2) (Rm:=P2) (Jm:=P2) (J:=unit) true healthy QcS QcV g_recon g_basis e_fom
    (fun _ => g_dot g_basis) (default_rhs QcS g_recon g_basis g_prod e_fom).
Proof.
  split; [intros y t r w Hw; apply gcall_returns; exact Hw|]. split; [intros y phi t r w Hw; apply gcall_returns; exact Hw|].
  split; [|apply DefaultRhs; exact ex_g_product]. split; intros; exists w; repeat split.
Qed.
(** Three steps of AB2 and of SSPRK3: ROM and FOM agree, and do move. *)
Definition e_rom := rhs_system (Jf:=P2) (Mf:=P2) (Rm:=P2) (Jm:=P2) (J:=unit) (default_rhs QcS g_recon g_basis g_prod e_fom) g_obs.
Definition e_g (n : nat) : @est Qc Qc unit (gobj P2 P2 P2 P2 P2 P2 gW) := mk_est (q 1) (repeat (q 0) n) (q 0) (q 0) tt (g_obj false) [].
Definition e_g' (n : nat) : @est Qc P2 unit unit := mk_est (g_recon (q 1)) (repeat (q 0, q 0) n) (q 0, q 0) (q 0, q 0) tt tt [].
Definition e_ts (n : nat) : Qc := (half * q (Z.of_nat n))%Qc.
Definition shown2 (p : P2) := (this (fst p), this (snd p)).
Definition e_agree (name : scheme) (n b : nat) : Prop :=
  let g := snd (drive (explicit_step QcS QcV e_rom name) e_ts (fun _ => half) n (e_g b)) in
  let g' := snd (drive (explicit_step QcS ex_p2 e_sys name) e_ts (fun _ => half) n (e_g' b)) in
  shown2 (x_y g') = shown2 (g_recon (x_y g)) /\ this (x_y g) <> this (q 1).
Example ex_e_used : used 2 (explicit_step QcS QcV e_rom AdamsBashforth2) (e_g 2) /\
  used 2 (explicit_step QcS ex_p2 e_sys AdamsBashforth2) (e_g' 2) /\ healthy (b_w (x_w (e_g 2))) /\
  x_y (e_g' 2) = g_recon (x_y (e_g 2)) /\ explicit_num_bufs AdamsBashforth2 = Ok 2%nat.
Proof. split; [apply UsedFresh; reflexivity|]. split; [apply UsedFresh; reflexivity|]. repeat split. Qed.
Example ex_e_run : e_agree AdamsBashforth2 3 2 /\ e_agree SSPRungeKutta3 2 2.
Proof. split; split; [vm_compute; reflexivity|vm_compute; discriminate|vm_compute; reflexivity|vm_compute; discriminate]. Qed.
(** With a mass matrix: M = diag(1, 2), so f = M v. *)
Definition e_m (y : P2) (t : Qc) : P2 := (q 1, q 2).
Definition e_apply (m v : P2) : P2 := (fst m * fst v, snd m * snd v)%Qc.
Definition e_force (y : P2) (t : Qc) : P2 := e_apply (e_m y t) (e_rhs y t).
Lemma cancel (c a b : Qc) : c <> q 0 -> (c * a = c * b)%Qc -> a = b.
Proof.
  intros H E. apply (f_equal (fun z => z / c)%Qc) in E. unfold Qcdiv in E.
  rewrite !(Qcmult_comm c), <- !Qcmult_assoc, !Qcmult_inv_r, !Qcmult_1_r in E by exact H. exact E.
Qed.
Lemma f_equal2_inv {A B} (a a' : A) (b b' : B) : (a, b) = (a', b') -> a = a' /\ b = b'.
Proof. intros E. split; [exact (f_equal fst E)|exact (f_equal snd E)]. Qed.
Example ex_e_mass :
  (forall y t z z', e_apply (e_m y t) z = e_apply (e_m y t) z' -> z = z') /\
  (forall y t a, (g_dot g_basis (g_mass y g_basis t) * a)%Qc = g_dot g_basis (e_apply (e_m y t) (g_bapp a))) /\
  (forall x t z z', (g_dot g_basis (g_mass (g_recon x) g_basis t) * z)%Qc = (g_dot g_basis (g_mass (g_recon x) g_basis t) * z')%Qc -> z = z').
Proof.
  split; [|split].
  - intros y t [a b] [a' b'] E. unfold e_apply, e_m in E. cbn [fst snd] in E.
    apply f_equal2_inv in E. destruct E as [E1 E2]. f_equal; [apply (cancel (q 1))|apply (cancel (q 2))]; try assumption;
    intros Q; apply (f_equal this) in Q; revert Q; vm_compute; discriminate.
  - intros y t a. unfold g_dot, g_mass, g_bapp, e_apply, e_m. cbn [fst snd vscale ex_p2 pair_v QcV]. cbn. change (q 1) with 1%Qc. ring.
  - intros x t z z' E. eapply cancel; [|exact E]. intros Q. apply (f_equal this) in Q. revert Q. vm_compute. discriminate.
Qed.

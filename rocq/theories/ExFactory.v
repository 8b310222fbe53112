(** Cases meeting the hypotheses of [PropFactory.v]. *)
From Coq Require Import ZArith List Bool QArith Qcanon.
From Verif Require Import Base QcInst Laws LawInst ExplicitModel ExplicitSpec ExplicitProofs ExplicitExtra ImplicitModel ImplicitWitness
  LspgModel FactoryModel FactorySpec FactoryProofs PropFactory.
Import ListNotations.

Example ex_rejected : make FLspg CrankNicolson = Throw ERuntime /\ make FExplicit BDF1 = Throw ERuntime /\
  make FGalerkinImplicit ImplicitArbitrary = Throw ERuntime /\ make FImplicit RungeKutta4 = Throw ERuntime.
Proof. repeat split; apply C41_outside_throws_partial; cbn; try discriminate; intuition discriminate. Qed.
Example ex_created : exists m, make FLspg BDF2 = Ok m /\ md_name m = BDF2.
Proof. apply C41_inside_creates. cbn. tauto. Qed.
(** y' = t y with RK4 *)
Definition ex_fsys : @esys Qc Qc unit unit :=
  mk_esys (fun y t _ w => (Ok tt, ((t * y)%Qc, w))) (fun _ _ m f w => (Ok tt, (m, f, w))) (fun _ x _ w => (Ok tt, (x, w)))
    (fun _ _ _ _ w => (Ok tt, w)).
Example ex_created_steps : exists m tab, make FExplicit RungeKutta4 = Ok m /\ tab_of QcS RungeKutta4 = Some tab /\
  forall g : @est Qc Qc unit unit, length (x_bufs g) = md_bufs m -> exists g',
  explicit_step QcS QcV ex_fsys (md_name m) (q 0) 1 (q 1) g = (Ok tt, g') /\
  x_y g' = erk_next QcS QcV (fun y t => (t * y)%Qc) tab (x_y g) (q 0) (q 1).
Proof.
  eexists. eexists. split; [reflexivity|]. split; [reflexivity|]. intros g HL.
  destruct (C41_explicit_steps Qc Qc unit unit QcS QcV ex_fsys Qc_field Qc_char0 (self_space QcS Qc_field) (fun _ => True)
    (fun y t => (t * y)%Qc)) with (k := FExplicit) (name := RungeKutta4) (g := g) (t := q 0) (step := 1%Z) (h := q 1)
    (m := mk_made RungeKutta4 4 0) (tab := tab_rk4 QcS)
    as (g' & E & Hy & _); try reflexivity; try exact I; try exact HL; auto.
  - split; intros; eexists; split; reflexivity || exact I || (split; [reflexivity|exact I]).
  - exists g'. split; [exact E|exact Hy].
Qed.
Example ex_newton_evaluates : evaluates_first newton1.
Proof. intros ws y. do 4 eexists. split; [reflexivity|]. intros r' j'. do 2 eexists. destruct j'; reflexivity. Qed.
(** Runs of created objects: three steps of size 1/2. *)
From Verif Require Import AdvanceModel AdvanceSpec AdvanceProofs TargetProofs Track ImplicitSpec ExImplicit ExLspg ExGalerkin ExRomRun ExExplicit.
Definition fac_three {V G} (y0 : V) (g : G) (step : V -> Qc -> Z -> Qc -> G -> outcome unit * (V * G)) : Prop :=
  let run := advance_n_steps QcS (mk_user (split_obs (fun _ _ _ w => (Ok tt, w))) (pol3 (split_pol (fun _ _ _ w => (Ok half, w)))) noop_guess
               (split_step step)) (Z.of_nat 3) (q 0) (y0, (g, tt), []) in
  fst run = Ok tt /\ length (reports (snd (snd run))) = 4%nat.
Example ex_created_implicit : forall name, In name [BDF1; BDF2; CrankNicolson] -> exists m, make FImplicit name = Ok m /\
  fac_three (q 1) (created QcS m (q 7) (q 8) (mk_ppol (-1) (0%nat, false)) (q 9) tt)
    (implicit_fn (implicit_step QcS (policy_std QcS QcV QcV (q 1) (puser Qcopp (q (-1)))) newton1 (md_name m))).
Proof. intros name [<-|[<-|[<-|[]]]]; (eexists; split; [reflexivity|]; vm_compute; split; reflexivity). Qed.
(** With the constant mass matrix 2 *)
Definition fac_mm : isys (S:=Qc) (V:=Qc) (J:=Qc) (W:=nat) :=
  mk_isys (fun y t R Jo w => (Throw EVelocity, (R, Jo, w)))
          (fun y t M R Jo w => (Ok tt, (q 2, (- y)%Qc, Some (q (-1)), Datatypes.S w))).
Example ex_created_implicit_mm : rhs_mass_is fac_mm (fun _ _ => q 2) (fun y _ => - y)%Qc /\
  forall name, In name [BDF1; BDF2] -> exists m, make FImplicitMM name = Ok m /\ exists p,
  fac_three (q 1) (created QcS m (q 7) (q 8) p (q 9) tt)
    (implicit_fn (implicit_step QcS (policy_mm QcS QcV QcV Qcmult fac_mm) newton1 (md_name m))).
Proof.
  split; [intros y t M0 f0 Jo w M' f' j' w' E; injection E as <- <- _ _; split; reflexivity|].
  intros name [<-|[<-|[]]]; (eexists; split; [reflexivity|]; exists (mk_mpol (q 0) (q 0) (q 0) (-1) 0%nat); vm_compute; split; reflexivity).
Qed.
Example ex_created_lspg : forall name, In name [BDF1; BDF2] -> exists m d, make FLspg name = Ok m /\ manager_for name (q 0, q 0) = Ok d /\
  fac_three (q 1) (created QcS m (q 7) (q 0, q 0) (fresh_policy 3%nat d) (q 9) tt)
    (implicit_fn (implicit_step QcS (default_policy QcS ex_p2 ex_p2 g_recon rr_fom g_basis) rr_gn2 (md_name m))).
Proof. intros name [<-|[<-|[]]]; (do 2 eexists; split; [reflexivity|]; split; [reflexivity|]; vm_compute; split; reflexivity). Qed.
(** Adams-Bashforth, and steps with mass matrix *)
Example ex_created_ab2 : exists m m', make FExplicit AdamsBashforth2 = Ok m /\ make FGalerkinExplicitMM AdamsBashforth2 = Ok m' /\
  (forall y, used (md_bufs m) (explicit_step QcS QcV ex_fsys (md_name m)) (mk_est y [q 7; q 8] (q 0) (q 0) tt tt [])) /\
  (forall y, used (md_bufs m') (explicit_step_mm QcS QcV ex_fsys (md_name m')) (mk_est y [q 7; q 8] (q 0) (q 0) tt tt [])).
Proof. do 2 eexists. split; [reflexivity|]. split; [reflexivity|]. split; intros y; constructor; reflexivity. Qed.

(** Concrete cases meeting the hypotheses of the theorems in [PropImplicit.v]. *)
From Coq Require Import ZArith List Bool Lia Reals Lra QArith Qcanon.
From Verif Require Import Base QcInst RInst Laws LawInst AdvanceModel AdvanceSpec ExplicitModel ExplicitExtra
  ImplicitModel ImplicitSpec ImplicitProofs ImplicitRefine ImplicitRun ImplicitMore ImplicitWitness Track.
Import ListNotations.
Local Open Scope Z_scope.

(** C14, C46, C48: user systems; [wuser] may fail at chosen calls. *)
Example ex_rhs_is : forall f a bad, rhs_is (wuser f a bad) (fun y _ => f y) /\ jac_is (wuser f a bad) (fun _ _ => a).
Proof.
  intros f a bad. split; intros y t R Jo w f' j' w' E; cbn in E; destruct (bad (fst w)); congruence.
Qed.
Example ex_hit : forall f a bad y t R Jo w r f' j' w',
  is_eval (wuser f a bad) y t R Jo w = (r, (f', j', w')) ->
  snd w' = match r with Throw EVelocity => true | _ => snd w end.
Proof. exact wuser_hit. Qed.
Example ex_pure : pure_system (puser (fun y => (y * y)%Qc) (q 1)) (fun y _ => Ok ((y * y)%Qc, q 1)) (fun _ _ j => j).
Proof. exact (puser_pure _ _). Qed.
(** ... with a mass matrix depending on state and time. *)
Definition ex_mmuser : isys (S:=Qc) (V:=Qc) (J:=Qc) (W:=nat) :=
  mk_isys (fun y t R Jo w => (Throw EVelocity, (R, Jo, w)))
          (fun y t M R Jo w => (Ok tt, ((q 2 + t * y)%Qc, (- y)%Qc, Some (q (-1)), Datatypes.S w))).
Example ex_rhs_mass_is : rhs_mass_is ex_mmuser (fun y t => q 2 + t * y)%Qc (fun y _ => - y)%Qc /\
                         jac_mass_is ex_mmuser (fun _ _ => q (-1)).
Proof.
  split.
  - intros y t M0 f0 Jo w M' f' j' w' E. injection E as <- <- _ _. split; reflexivity.
  - intros y t M0 f0 j w M' f' j' w' E. injection E as _ _ <- _. reflexivity.
Qed.

(** Solvers: [newton1] forwards exceptions; [newton2] turns all of them into
    NonlinearSolveFailure. *)
Definition newton2 (ws : unit) (y : Qc) : sol Qc Qc Qc unit :=
  SCall y (q 0) (Some (q 0)) (fun e r j =>
    match e, j with
    | Ok _, Some a =>
        let y' := (y - r / a)%Qc in
        SCall y' r None (fun e' r' _ =>
          match e' with
          | Ok _ => if Qc_eq_dec r' 0 then SEnd (Ok tt) y' ws else SEnd (Throw ENonlinearSolve) y' ws
          | _ => SEnd (Throw ENonlinearSolve) y' ws
          end)
    | _, _ => SEnd (Throw ENonlinearSolve) y ws
    end).
Example ex_newton2 : forall ws y,
  ends (fun r => r <> Throw ETimeStep) (newton2 ws y) /\
  certified (fun r => r = q 0) (fun _ => False) (newton2 ws y).
Proof.
  intros ws y. split; cbn; intros e r j; destruct e; try discriminate; try exact I;
    destruct j; try discriminate; try exact I; cbn; intros e' r' j'; destruct e'; try discriminate; try exact I;
    destruct (Qc_eq_dec r' 0); try discriminate; try exact I.
  left. split; [reflexivity|assumption].
Qed.
Example ex_newton1 : forall ws y, forwards (newton1 ws y) /\ certified (fun r => r = q 0) (fun _ => False) (newton1 ws y).
Proof. intros ws y. split; [apply newton1_forwards|apply newton1_certified]. Qed.

(** C16, C17: BDF2 on y' = -y; the second step fails once and is repeated with half
    the size, then a third step. *)
Definition ex_bad := at_call 2 EVelocity.
Definition ex_step2 := implicit_step QcS (policy_std QcS QcV QcV (q 1) (wuser Qcopp (q (-1)) ex_bad)) newton2 BDF2.
Example ex_events :
  map fst (fst (perform QcS ex_step2 put_ode t_y
    [Start (q 0) (q 1); Attempt (q 1); Attempt (q 1); Attempt half; Attempt half] (q 0) 0 w18b_start))
  = [Ok tt; Ok tt; Throw ETimeStep; Ok tt; Ok tt].
Proof. vm_compute. reflexivity. Qed.
Example ex_create : implicit_create QcS BDF2 (q 0) (q 0) (mk_ppol (-1) (0%nat, false)) (q 1) tt = Ok w18b_start.
Proof. reflexivity. Qed.

(** C48: to the target 2 with recovery, one rejected attempt. *)
Definition ex_run :=
  to_target QcS (mk_user (split_obs noop_obs)
      (split_pol (fun _ _ _ w => (Ok (q 1, Q2Qc (1 # 10), q 2), w))) noop_guess
      (split_step (implicit_fn ex_step2))) true 20 (q 0) (q 2) (q 1, (w18b_start, tt), []).
Example ex_run_ok :
  fst ex_run = Ok tt /\ seqb QcS (q 2) (q 0) = false /\
  length (reports (snd (snd ex_run))) = 4%nat /\
  length (filter (fun c => match c with CStep _ _ _ _ => true | _ => false end) (snd (snd ex_run))) = 4%nat.
Proof. vm_compute. repeat split; reflexivity. Qed.

(** C47: a uniform BDF2 integration of y' = 3 from 1. *)
Example ex_linked :
  linked (sadd QcS) (accepted_bdf2 QcS QcV (fun r => r = vzero QcV) (fun _ _ => q 3))
    ([(q 2, q 1, q 7); (q 1, q 1, q 4)] ++ [(q 0, q 0, q 1)]).
Proof. repeat split; apply Qc_is_canon; vm_compute; reflexivity. Qed.

(** C15: y' = y^2 on the reals. *)
Definition Rv : vops R R := mk_vops 0%R Rplus Rmult.
Example ex_normed : normed Rv Rabs.
Proof.
  split; intros; cbn.
  - apply Rabs_pos.
  - apply Rabs_triang.
  - apply Rabs_mult.
Qed.
Example ex_matrices : matrices Rv Rv 1%R Rmult.
Proof. split; intros; cbn; ring. Qed.
Example ex_derivative : forall (y t : R), derivative Rv Rabs (fun x => x * x)%R y (Rmult (2 * y)).
Proof.
  intros y t eps He. exists eps. split; [exact He|]. intros d Hd. cbn.
  replace ((y + d) * (y + d) + -1 * (y * y + 2 * y * d))%R with (d * d)%R by ring.
  rewrite Rabs_mult. apply Rmult_le_compat_r; [apply Rabs_pos|lra].
Qed.

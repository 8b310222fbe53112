(** Cases meeting the hypotheses of [PropLspg.v]. *)
From Coq Require Import ZArith List Bool Lia Reals Lra QArith Qcanon.
From Verif Require Import Base QcInst RInst Laws LawInst ExplicitModel ExplicitExtra ImplicitModel ImplicitSpec
  ImplicitWitness ExImplicit LspgModel RomSpec LspgSpec LspgClaims LspgWitness.
Import ListNotations.
Local Open Scope Z_scope.

(** C34, C35: BDF2 with a failing and repeated second step, then a second run. [newton2]
    turns the FOM's failure into a failed solve. *)
Example ex_asks : asks newton2.
Proof. intros ws y. exact I. Qed.
Definition ex_lspg := implicit_step QcS (wpol 2) newton2 BDF2.
Definition ex_evs : list (event Qc Qc) :=
  [Start (q 0) (q 1); Attempt half; Attempt half; Attempt half; Attempt half; Start (q 0) (q 2); Attempt half].
Definition ex_perf := fst (perform QcS ex_lspg put_ode t_y ex_evs (q 0) 0 (wobj BDF2)).
Example ex_lspg_run :
  wstart BDF2 = Ok (wobj BDF2) /\
  map fst ex_perf = [Ok tt; Ok tt; Throw ETimeStep; Ok tt; Ok tt; Ok tt; Ok tt] /\
  after_step_2 ex_evs ex_perf /\ once (firstn 5 ex_evs) (firstn 5 ex_perf).
Proof.
  split; [reflexivity|]. split; [vm_compute; reflexivity|]. split.
  - vm_compute. repeat split; discriminate.
  - eexists _, _, _. split; [reflexivity|]. repeat constructor.
Qed.
(** The machine has a history for these events (first three shown). *)
Example ex_lspg_history : exists res rn' tape' ws' q',
  history QcS newton2 (by_scheme BDF2 (problem_one QcS plus1 (lspg_one QcS QcV QcV (wfom 2) (q 1)))
      (problem_two QcS plus1 (lspg_one QcS QcV QcV (wfom 2) (q 1)) (lspg_two QcS QcV QcV (wfom 2) (q 1))))
    None [] tt (0%nat, 0%nat) (firstn 3 ex_evs) res rn' tape' ws' q' /\
  map fst res = [Ok tt; Ok tt; Throw ETimeStep].
Proof.
  do 5 eexists. split.
  - cbn [ex_evs firstn]. apply HStart. eapply HAccept; [vm_compute; reflexivity|].
    eapply HReject; [vm_compute; reflexivity|]. apply HNil.
  - reflexivity.
Qed.
(** Fully discrete with three states: y - y_n - dt y_n-1 after the first step. *)
Definition ex_dfom (step : Z) (t dt : Qc) (r phi : Qc) (Jo : option Qc) (y : Qc) (l : list Qc) (w : nat)
  : outcome unit * (Qc * option Qc * nat) :=
  match l with
  | [y_n; y_nm1] => (Ok tt, ((y - y_n - (if (step =? 1)%Z then q 0 else dt * y_nm1))%Qc, Some phi, Datatypes.S w))
  | _ => (Undef UOutOfBounds, (r, Jo, w))
  end.
Example ex_ignores : ignores_older (fom_asked ex_dfom (q 1)).
Proof. intros t dt r Jo y y_n a b w. reflexivity. Qed.
Example ex_discrete : exists g,
  discrete_create QcS (total true) (q 0) (q 0) 0%nat (q 9) tt = Ok g /\
  map fst (fst (perform QcS (arb_step QcS (fd_system plus1 (total true) (lspg_discrete ex_dfom (q 1))) newton2 2)
     put_arb a_y [Start (q 0) (q 1); Attempt half; Attempt half; Start (q 0) (q 2); Attempt half] (q 0) 0 g))
  = [Ok tt; Ok tt; Ok tt; Ok tt; Ok tt].
Proof. eexists. split; [reflexivity|]. vm_compute. reflexivity. Qed.

(** C38: y' = y^2 on the line, trial map x -> 2 x + 1; the Jacobian applied to phi is 2 y phi. *)
Definition ex_rfom : sfom (S:=R) (Y:=R) (R:=R) (J:=R) (B:=R) (W:=nat) :=
  mk_sfom (fun y t r w => (Ok tt, ((y * y)%R, Datatypes.S w))) (fun y phi t j w => (Ok tt, ((2 * y * phi)%R, w))).
Example ex_fom_is : fom_is ex_rfom (fun y _ => y * y)%R (fun y phi _ => 2 * y * phi)%R.
Proof.
  split.
  - intros y t r w f' w' E. injection E as <- _. reflexivity.
  - intros y phi t j w j' w' E. injection E as <- _. reflexivity.
Qed.
Example ex_actions : actions Rv Rv Rmult.
Proof. split; intros; cbn; ring. Qed.
Example ex_bounded : bounded Rv Rabs Rv Rabs (Rmult 2).
Proof.
  split.
  - split; intros; cbn; ring.
  - exists 2%R. intros x. rewrite Rabs_mult. right. f_equal. apply Rabs_right. lra.
Qed.
Example ex_derivative2 : forall y, derivative2 Rv Rabs Rv Rabs (fun y => y * y)%R y (Rmult (2 * y)).
Proof. intros y. exact (ex_derivative y 0%R). Qed.
Example ex_lspg_call : forall eps0, exists fs' r' j' p',
  default_policy (Rops eps0) Rv Rv (fun x => vadd Rv (2 * x)%R 1%R) ex_rfom 2%R BDF2 1%R [2%R; 3%R] [] 0%R 2 1%R 0%R (Some 0%R)
    (mk_lpol (mk_fomhist [7%R; 8%R; 9%R] 1) 0%nat) = (Ok tt, (fs', r', j', p')) /\
  fh_data (lp_h p') = [vadd Rv (2 * 1) 1; vadd Rv (2 * 2) 1; 8]%R.
Proof. intros eps0. do 4 eexists. split; reflexivity. Qed.

(** Two components, of which the sample mesh has the first and the stencil mesh both. *)
Definition P2 := (Qc * Qc)%type.
Definition ex_p2 : vops Qc P2 :=
  mk_vops (q 0, q 0) (fun a b => (fst a + fst b, snd a + snd b)%Qc) (fun c a => (c * fst a, c * snd a)%Qc).
Definition ex_full : sfom (S:=Qc) (Y:=P2) (R:=P2) (J:=P2) (B:=P2) (W:=nat) :=
  mk_sfom (fun y t r w => if Nat.eqb w 3 then (Throw EVelocity, (r, w))
                          else (Ok tt, ((snd y, fst y), Datatypes.S w)))
          (fun y phi t j w => (Ok tt, ((snd phi, fst phi), w))).
Definition ex_sample : sfom (S:=Qc) (Y:=P2) (R:=Qc) (J:=Qc) (B:=P2) (W:=nat) :=
  mk_sfom (fun y t r w => if Nat.eqb w 3 then (Throw EVelocity, (r, w))
                          else (Ok tt, (snd y, Datatypes.S w)))
          (fun y phi t j w => (Ok tt, (snd phi, w))).
Definition ex_up : updater (S:=Qc) (Y:=P2) (R:=Qc) (J:=Qc) (B:=P2) (W:=nat) :=
  mk_updater (fun r a y b w => (Ok tt, ((a * r + b * fst y)%Qc, w))) (fun j a phi b w => (Ok tt, ((a * j + b * fst phi)%Qc, w))).
Example ex_restricts : fom_restricts (fun y : P2 => y) fst (fun b : P2 => b) fst ex_full ex_sample.
Proof.
  split.
  - intros y t r rh w. cbn. destruct (Nat.eqb w 3); repeat split. discriminate.
  - intros y phi t j jh w. repeat split.
Qed.
Example ex_updater : updater_ok ex_p2 ex_p2 (fun y : P2 => y) fst (fun b : P2 => b) fst ex_up.
Proof. split; reflexivity. Qed.

(** C38, identity: [wfom] never failing is pure but for its counters. *)
Definition ex_pfom : sfom (S:=Qc) (Y:=Qc) (R:=Qc) (J:=Qc) (B:=Qc) (W:=nat * bool) :=
  mk_sfom (fun y t r w => (Ok tt, ((y * y)%Qc, w))) (fun y phi t j w => (Ok tt, (q 3 * phi, w)%Qc)).
Example ex_identity : fom_pure ex_pfom (fun y _ => y * y)%Qc (fun y phi _ => q 3 * phi)%Qc /\
  pure_system (puser (fun y => y * y)%Qc (q 3)) (fun y _ => Ok ((y * y)%Qc, q 3)) (fun _ _ j => j) /\
  forall y t : Qc, (fun y phi _ => q 3 * phi)%Qc y (q 1) t = q 3.
Proof.
  split; [split; reflexivity|]. split; [apply puser_pure|]. intros y t. apply Qc_is_canon. vm_compute. reflexivity.
Qed.

(** Concrete cases meeting the hypotheses of the theorems in [PropAdvance.v]. *)
From Coq Require Import ZArith List Bool Lia Reals Lra QArith Qcanon.
From Verif Require Import Base RInst QcInst AdvanceModel AdvanceSpec AdvanceProofs
  TargetProofs TargetReal AdvanceExtra.
Import ListNotations.
Local Open Scope Z_scope.

(** C01: three steps; a policy that alternates sizes using the shared world, a
    guesser that perturbs the state, an observer that throws at step 2. *)
Definition ex_obs (limit : Z) (k : Z) (_ : Qc) (_ : Qc) (w : Z) : outcome unit * Z :=
  if k =? limit then (Throw (EUser 7), w) else (Ok tt, w + 10).
Definition ex_pol (k : Z) (_ _ : Qc) (w : Z) : outcome Qc * Z :=
  (Ok (if Z.even w then Q2Qc (1 # 2) else Q2Qc (1 # 4)), w + 1).
Definition ex_guess (k : Z) (_ : Qc) (s : Qc) (w : Z) : outcome unit * (Qc * Z) :=
  (Ok tt, (Qcplus s (Q2Qc 1), w)).
Definition ex_step (s t : Qc) (k : Z) (dt : Qc) (w : Z) : outcome unit * (Qc * Z) :=
  (Ok tt, (Qcplus s (Qcmult dt s), w)).

Example ex_C01_ok :
  match advance_n_steps QcS (mk_user (ex_obs 99) (pol3 ex_pol) ex_guess ex_step) 3 (Q2Qc 0) (Q2Qc 1, 0, []) with
  | (Ok _, (_, w, tr)) => w = 43 /\ length tr = 13%nat
  | _ => False
  end.
Proof. vm_compute. split; reflexivity. Qed.

Example ex_C01_throws :
  match advance_n_steps QcS (mk_user (ex_obs 2) (pol3 ex_pol) ex_guess ex_step) 3 (Q2Qc 0) (Q2Qc 1, 0, []) with
  | (Throw (EUser 7), (_, w, tr)) => w = 22 /\ length tr = 9%nat
  | _ => False
  end.
Proof. vm_compute. split; reflexivity. Qed.

(** C02: a step-number independent stepper (forward Euler for y' = y). *)
Example ex_C02_split :
  forall s t k k' dt,
  (fun (s t : Qc) (_ : Z) (dt : Qc) => Qcplus s (Qcmult dt s)) s t k dt =
  (fun (s t : Qc) (_ : Z) (dt : Qc) => Qcplus s (Qcmult dt s)) s t k' dt.
Proof. reflexivity. Qed.
(** Splitting really needs that hypothesis: a stepper that looks at the number. *)
Example ex_C02_needs_hypothesis :
  let step := fun (s t : Qc) (k : Z) (dt : Qc) => if k =? 1 then Qcplus s (Q2Qc 1) else s in
  fst (fst (snd (advance_n_steps_fixed QcS (pure_user step) 2 (Q2Qc 0) (Q2Qc 1) (Q2Qc 0, tt, [])))) = Q2Qc 1 /\
  let '(y1, _, _) := snd (advance_n_steps_fixed QcS (pure_user step) 1 (Q2Qc 0) (Q2Qc 1) (Q2Qc 0, tt, [])) in
  fst (fst (snd (advance_n_steps_fixed QcS (pure_user step) 1 (Q2Qc 1) (Q2Qc 1) (y1, tt, [])))) = Q2Qc 2.
Proof. vm_compute. split; reflexivity. Qed.

(** C04/C07: recovery halves 1 to 1/2 at every step; three steps to pass 5/4;
    the stepper is called six times. *)
Example ex_C07 :
  match with_step_recovery_args QcS noop_obs (fun _ _ _ w => (Ok (Q2Qc 1, Q2Qc (1 # 10), Q2Qc 2), w))
          picky_step 20 (Q2Qc 0) (Q2Qc (5 # 4)) (Q2Qc 0, 0, []) with
  | (Ok _, (s, w, tr)) => Qceqb s (Q2Qc (3 # 2)) = true /\ w = 6 /\ length (obs_times tr) = 4%nat
  | _ => False
  end.
Proof. vm_compute. repeat split; reflexivity. Qed.
Example ex_C07_trace_hyps :
  let pol := fun (_ : Z) (_ : Qc) (_ : Qc * Qc * Qc) (w : Z) => (Ok (Q2Qc 1, Q2Qc (1 # 10), Q2Qc 2), w) in
  forall k t x w dt m c w', pol k t x w = (Ok (dt, m, c), w') -> m = Q2Qc (1 # 10) /\ c = Q2Qc 2.
Proof. intros pol k t x w dt m c w' H. unfold pol in H. inversion H. split; reflexivity. Qed.
(** ... and gives up when the minimum is above what the stepper accepts. *)
Example ex_C07_gives_up :
  fst (with_step_recovery_args QcS noop_obs (fun _ _ _ w => (Ok (Q2Qc 1, Q2Qc (6 # 10), Q2Qc 2), w))
          picky_step 20 (Q2Qc 0) (Q2Qc (5 # 4)) (Q2Qc 0, 0, [])) = Throw ERuntime.
Proof. vm_compute. reflexivity. Qed.

(** C05: a stepper with an arbitrary failure pattern; hypotheses hold with d = 1/10. *)
Example ex_C05_hyps : forall fails : Z -> R -> bool,
  let u := mk_user (St := R) (W := unit) noop_obs
             (fun _ _ _ w => (Ok (1, / 10, 2)%R, w)) noop_guess
             (fun s _ k dt w => (if fails k dt then Throw ETimeStep else Ok tt, (s, w))) in
  (forall k t s w, fst (u_obs u k t s w) <> NoFuel) /\
  (forall k t x w, fst (u_pol u k t x w) <> NoFuel) /\
  (forall s t k dt w, fst (u_step u s t k dt w) <> NoFuel) /\
  (forall k t x w dt m c w', u_pol u k t x w = (Ok (dt, m, c), w') ->
     (/ 10 <= dt)%R /\ (true = true -> (/ 10 <= m)%R)).
Proof.
  intros fails u. repeat split; try discriminate.
  - intros; cbn. destruct (fails k dt); discriminate.
  - cbn in H. inversion H; subst. lra.
  - intros _. cbn in H. inversion H; subst. lra.
Qed.

(** C03: user code that never throws exists. *)
Example ex_C03 :
  let u := mk_user (T := Qc) (St := Qc) (W := unit) noop_obs (const_pol (Q2Qc 1)) noop_guess
             (fun s _ _ _ w => (Ok tt, (s, w))) in
  (forall k t s w, fst (u_obs u k t s w) = Ok tt) /\
  (forall k t x w, exists y, fst (u_pol u k t x w) = Ok y) /\
  (forall k t s w, fst (u_guess u k t s w) = Ok tt) /\
  (forall s t k dt w, fst (u_step u s t k dt w) = Ok tt).
Proof.
  repeat split; cbn; intros; try reflexivity.
  destruct x as [[a b] c]. eexists. reflexivity.
Qed.

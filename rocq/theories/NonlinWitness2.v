(** More one-dimensional problems that refute properties of the nonlinear solvers, and
    of implicit steps that use them. *)
From Coq Require Import ZArith List Bool Lia QArith Qcanon Floats.SpecFloat.
From Verif Require Import Base QcInst FloatInst LawInst ExplicitModel ExplicitExtra ImplicitModel ImplicitSpec NonlinDiag NonlinModel NonlinWp NonlinDiagProofs NonlinSpec
  NonlinProofs NonlinSolve NonlinLines NonlinClaims NonlinRuns NonlinSeq NonlinFollow NonlinReal NonlinMoreSpec NonlinMore NonlinWitness.
Import ListNotations.
Local Open Scope Z_scope.

(** ** A solve that starts where the absolute residual criterion is met (C50) *)
Section AtRoot.
  Context {S V R J H L W : Type}.
  Variable o : sops S.
  Variable no : nlops S V R J H.
  Variable xt : exts V R J H L.
  Variable rj : V -> R -> option J -> W -> outcome unit * (R * option J * W).
  Lemma steps_head : forall cf (valid : info S V R J -> Prop) measure move p0 is p, steps o cf valid measure move p0 is p ->
    is = [] /\ p = p0 \/
    exists i t, is = i :: t /\ at_point i p0 /\ valid i /\ ~ met o cf 1 (measure i) (measure i).
  Proof.
    intros cf valid measure move p0 is p Hs. induction Hs as [|is p i p' Hs IH Ha Hv Hm Hmv]; [left; auto|right].
    destruct IH as [[-> ->]|[i0 [t [-> [H1 [H2 H3]]]]]].
    - exists i, []. repeat split; assumption.
    - exists i0, (t ++ [i]). repeat split; assumption.
  Qed.
  Lemma root_at_start : forall F DF glin gqr gnewt cf s w r s' w',
    root_object o s -> root_supported cf -> halving_ends o -> computes rj F DF -> linear_ok xt glin gqr gnewt nothing ->
    f_stop cf = WhenAbsResidual -> 1 <= f_max cf ->
    sltb o (n_rnorm no (F (g_x s))) (f_tol cf) = true ->
    exec rj (root_solve o no xt cf) (s, w) = (r, (s', w')) ->
    r = Ok tt /\ g_x s' = g_x s /\ g_file s' = g_file s /\ exists l, g_log s' = g_log s ++ [l].
  Proof.
    intros F DF glin gqr gnewt cf s w r s' w' Ho Hs Hh Hc Hl Hst Hmax Hb E.
    pose proof (root_solve_ok o no xt (graph rj) _ _ _ _ _ _ _ (computes_ok rj _ _ Hc) Hl Hh none_linesearch cf s w Ho Hs) as K.
    pose proof (tri_exec _ _ _ _ _ _ _ _ _ _ _ _ _ _ K E) as [K1 [ls [K2 K3]]]. clear K E.
    assert (Hmet : forall i : info S V R J, at_point i (pt s) -> root_valid (fun y r => r = F y) (fun y j => j = DF y) gnewt i ->
      met o cf 1 (root_meas o no i) (root_meas o no i)).
    { intros i Ha [V1 _]. unfold met. rewrite Hst. cbn [reading root_meas m_res].
      cbv beta in V1. rewrite V1. unfold at_point, pt in Ha.
      pose proof (f_equal (fun z => fst (fst z)) Ha) as Hx. cbn [fst] in Hx. rewrite <- Hx. exact Hb. }
    remember (g_file s') as fl eqn:Ef. remember (pt s') as p eqn:Ep.
    assert (Hhd : forall move is q, steps o cf (root_valid (fun y r => r = F y) (fun y j => j = DF y) gnewt) (root_meas o no)
       move (pt s) is q -> is = [] /\ q = pt s).
    { intros move is q Hq. destruct (steps_head _ _ _ _ _ _ _ Hq) as [Hq'|[i [t [_ [H1 [H2 H3]]]]]]; [exact Hq'|].
      exfalso. exact (H3 (Hmet i H1 H2)). }
    destruct K3 as [is i p Hk Hs1 Ha Hv Hm|is i p e Hk Hs1 Ha Hv Hm Hstk He|is p Hk Hl' Hs1|is p Hk Hl' Hs1
      |is p e Hk Hs1 He Hf|is p r Hk Hs1 He Hf Hne|is p r Hk Hs1 He Hf|is i p r Hk Hs1 Ha Hv Hm He Hf];
      destruct (Hhd _ _ _ Hs1) as [-> ->].
    - split; [reflexivity|]. split; [exact (eq_sym (f_equal (fun z => fst (fst z)) Ep))|]. split; [reflexivity|].
      eexists. exact K2.
    - exfalso. exact (Hm (Hmet i Ha Hv)).
    - exfalso. cbn in Hk. lia.
    - exfalso. cbn in Hk. discriminate.
    - destruct Hf.
    - destruct Hf.
    - destruct Hf.
    - exfalso. exact (Hm (Hmet i Ha Hv)).
  Qed.
End AtRoot.

(** ** C50 in binary64: F(x) = x from x = 0 with the relative criteria and the default
    limit of 100 iterations *)
Definition f0 : spec_float := S754_zero false.
Definition tolf : spec_float := sdiv F64 (s1 F64) (sZ F64 1000000).
Definition cff (st : stop) : config spec_float := mk_config 100 st tolf UStandard None.
Notation run_f st := (exec (sys1 (fun x => x) (fun _ => s1 F64)) (root_solve F64 (n1 F64) (x1 F64) (cff st)) (reg1 F64 root_diags f0, tt)) (only parsing).
Definition is_zero (x : spec_float) : bool := match x with S754_zero _ => true | _ => false end.
Definition summary (r : outcome unit * (reg spec_float spec_float spec_float spec_float spec_float spec_float * unit)) :=
  (fst r, is_zero (g_x (fst (snd r))), length (g_log (fst (snd r))), forallb (fun l => is_zero (l_state l)) (g_log (fst (snd r))), g_file (fst (snd r))).
Lemma run_f_value : forall st, st = WhenRelResidual \/ st = WhenRelCorrection ->
  summary (run_f st) = (Ok tt, true, 100%nat, true, Some RMaxIters).
Proof. intros st [->| ->]; vm_compute; reflexivity. Qed.
Lemma summary_inv : forall r n fl, summary r = (Ok tt, true, n, true, fl) ->
  exists s' w', r = (Ok tt, (s', w')) /\ length (g_log s') = n /\
    Forall (fun l => is_zero (l_state l) = true) (g_log s') /\ g_file s' = fl.
Proof.
  intros [r [s' w']] n fl H. unfold summary in H. cbn [fst snd] in H. exists s', w'.
  injection H as H1 H2 H3 H4 H5. subst. split; [reflexivity|]. split; [reflexivity|]. split; [|reflexivity].
  apply Forall_forall. apply forallb_forall. exact H4.
Qed.
Lemma c50_witness : forall st, st = WhenRelResidual \/ st = WhenRelCorrection -> exists s' w',
  exec (sys1 (fun x => x) (fun _ => s1 F64)) (root_solve F64 (n1 F64) (x1 F64) (cff st)) (reg1 F64 root_diags f0, tt)
    = (Ok tt, (s', w')) /\ length (g_log s') = 100%nat /\
  Forall (fun l => is_zero (l_state l) = true) (g_log s') /\ g_file s' = Some RMaxIters.
Proof. intros st Hst. exact (summary_inv _ _ _ (run_f_value st Hst)). Qed.

(** ** C51: BDF1 for y' = -y^2 from y = 1 with step size 1 and a Newton solver limited to
    one iteration: the step is accepted although its equation is far from solved *)
Definition uq : isys (S:=Qc) (V:=Qc) (J:=Qc) (W:=unit) :=
  mk_isys (fun y t R Jo w => (Ok tt, (- (y * y), match Jo with Some _ => Some (- (q 2 * y)) | None => None end, w)))%Qc
          (fun y t M f Jo w => (Ok tt, (M, f, Jo, w))).
Definition newton_q (n : Z) (tol : Qc) (st : stop) : reg Qc Qc Qc Qc Qc Qc -> Qc -> sol Qc Qc Qc (reg Qc Qc Qc Qc Qc Qc) :=
  as_solver (root_solve QcS (n1 QcS) (x1 QcS) (mk_config n st tol UStandard None)).
Definition stepper_q (y : Qc) : @sst Qc Qc Qc (@ppol unit) (reg Qc Qc Qc Qc Qc Qc) :=
  mk_sst y [q 0] [] (q 0) (q 0) 0 (mk_ppol (-1) tt) (reg1 QcS root_diags (q 0)).
Notation step_q u n tol st y dt := (implicit_step QcS (policy_std QcS (self_v QcS) (self_v QcS) (q 1) u) (newton_q n tol st) BDF1 (q 0) 1 dt (stepper_q y)) (only parsing).
Definition seen_y (r : outcome unit * @sst Qc Qc Qc (@ppol unit) (reg Qc Qc Qc Qc Qc Qc)) :=
  (fst r, this (t_y (snd r)), g_file (t_ws (snd r))).
Lemma seen_inv : forall r e y fl, seen_y r = (e, this y, fl) -> exists g', r = (e, g') /\ t_y g' = y /\ g_file (t_ws g') = fl.
Proof.
  intros [r g'] e y fl H. unfold seen_y in H. cbn [fst snd] in H. exists g'.
  pose proof (f_equal (fun z => fst (fst z)) H) as H1. pose proof (f_equal (fun z => snd (fst z)) H) as H2.
  pose proof (f_equal snd H) as H3. cbn [fst snd] in H1, H2, H3. subst. split; [reflexivity|]. split; [|reflexivity].
  apply Qc_is_canon. rewrite H2. reflexivity.
Qed.
Lemma step_c51 : seen_y (step_q uq 1 (q 1 / q 1000000)%Qc WhenAbsResidual (q 1) (q 1)) = (Ok tt, this (q 2 / q 3)%Qc, Some RMaxIters).
Proof. vm_compute. reflexivity. Qed.
Lemma c51_witness : exists g',
  implicit_step QcS (policy_std QcS (self_v QcS) (self_v QcS) (q 1) uq) (newton_q 1 (q 1 / q 1000000)%Qc WhenAbsResidual) BDF1 (q 0) 1 (q 1) (stepper_q (q 1))
    = (Ok tt, g') /\ t_y g' = (q 2 / q 3)%Qc /\
  bdf1_R QcS (self_v QcS) (q 1) (q 1) (- (t_y g' * t_y g'))%Qc (t_y g') = (q 1 / q 9)%Qc.
Proof.
  destruct (seen_inv _ _ _ _ step_c51) as [g' [H1 [H2 H3]]]. exists g'. split; [exact H1|]. split; [exact H2|].
  rewrite H2. apply Qc_is_canon. vm_compute. reflexivity.
Qed.

(** ** C56: y' = 1 with the default settings and step size 10^-7: the step is accepted
    and the state does not move *)
Definition uone : isys (S:=Qc) (V:=Qc) (J:=Qc) (W:=unit) :=
  mk_isys (fun y t R Jo w => (Ok tt, (q 1, match Jo with Some _ => Some (q 0) | None => None end, w)))
          (fun y t M f Jo w => (Ok tt, (M, f, Jo, w))).
Definition newton_default : reg Qc Qc Qc Qc Qc Qc -> Qc -> sol Qc Qc Qc (reg Qc Qc Qc Qc Qc Qc) :=
  as_solver (root_solve QcS (n1 QcS) (x1 QcS) (default_config QcS)).
Definition small_dt : Qc := (q 1 / q 10000000)%Qc.
Lemma step_c56 : seen_y (implicit_step QcS (policy_std QcS (self_v QcS) (self_v QcS) (q 1) uone) newton_default BDF1 (q 0) 1 small_dt (stepper_q (q 0)))
  = (Ok tt, this (q 0), None).
Proof. vm_compute. reflexivity. Qed.
Lemma c56_witness : exists g',
  implicit_step QcS (policy_std QcS (self_v QcS) (self_v QcS) (q 1) uone) newton_default BDF1 (q 0) 1 small_dt (stepper_q (q 0))
    = (Ok tt, g') /\ t_y g' = q 0.
Proof. destruct (seen_inv _ _ _ _ step_c56) as [g' [H1 [H2 _]]]. exists g'. auto. Qed.

(** ** C52: a residual failure at a trial state of the line search *)
Definition sys_trial : Qc -> Qc -> option Qc -> unit -> outcome unit * (Qc * option Qc * unit) :=
  fun y r j w => if Qc_eq_bool y (q 0) then (Ok tt, (q 1, match j with Some _ => Some (q 1) | None => None end, w))
                 else (Throw EResidualEvaluation, (r, j, w)).
Lemma sys_trial_fails : fails_with_residual sys_trial.
Proof.
  intros y r j w e z H Hn. unfold sys_trial in H. destruct (Qc_eq_bool y (q 0)).
  - injection H as <- _. congruence.
  - injection H as <- _. exists EResidualEvaluation. split; [left; reflexivity|reflexivity].
Qed.
Notation run_trial := (exec sys_trial (root_solve QcS (n1 QcS) (x1 QcS) (cfq UBacktrack 5)) (reg1 QcS root_diags (q 0), tt)) (only parsing).
Notation run_trial_ls := (exec sys_trial (ls_solve QcS (n1 QcS) (x1 QcS) GaussNewton (cfq UBacktrack 5)) (reg1 QcS ls_diags (q 0), tt)) (only parsing).
Lemma run_trial_value : fst run_trial = Throw EResidualEvaluation /\ fst run_trial_ls = Throw EResidualEvaluation.
Proof. split; vm_compute; reflexivity. Qed.

(** Failures in implicit steps (C17, C46) and implicit steppers under the
    advancers (C48). *)
From Coq Require Import ZArith List Bool Lia Field.
From Verif Require Import Base Laws AdvanceModel AdvanceSpec AdvanceProofs TargetProofs Track
  ExplicitModel ImplicitModel ImplicitSpec ImplicitProofs ImplicitRefine ImplicitExtra.
Import ListNotations.
Local Open Scope Z_scope.

Section SolverFacts.
  Context {V R J Ws G : Type}.
  Variable rj : V -> R -> option J -> G -> outcome unit * (R * option J * G).
  Lemma ends_run (P : outcome unit -> Prop) : forall (s : sol V R J Ws) y0 ws0 g r x,
    ends P s -> run_solver rj s y0 ws0 g = (r, x) ->
    P r \/ (exists b, r = Undef b) \/ r = NoFuel.
  Proof.
    induction s as [e y ws|y r0 j k IH]; intros y0 ws0 g r x H E.
    - cbn in *. injection E as -> <-. left. exact H.
    - cbn in E, H. destruct (rj y r0 j g) as [e [[r' j'] g']].
      destruct e as [v|v|v|].
      + eapply IH; [apply H|exact E].
      + eapply IH; [apply H|exact E].
      + injection E as <- _. right. left. eauto.
      + injection E as <- _. right. right. reflexivity.
  Qed.
  Lemma certified_run (Acc : R -> Prop) (rho : V -> R -> Prop)
    (Hrho : forall y r j g r' j' g', rj y r j g = (Ok tt, (r', j', g')) -> rho y r') :
    forall (s : sol V R J Ws) ok y0 ws0 g y1 ws1 g1,
    certified Acc ok s -> run_solver rj s y0 ws0 g = (Ok tt, (y1, ws1, g1)) ->
    ok y1 \/ exists r, rho y1 r /\ Acc r.
  Proof.
    induction s as [e y ws|y r0 j k IH]; intros ok y0 ws0 g y1 ws1 g1 H E.
    - cbn in *. injection E as -> -> _ _. left. exact H.
    - cbn in E, H. destruct (rj y r0 j g) as [e [[r' j'] g']] eqn:EJ.
      destruct e as [[]|v|v|].
      + destruct (IH (Ok tt) r' j' _ _ _ _ _ _ _ (H (Ok tt) r' j') E) as [[[-> A]|K]|K].
        * right. exists r'. split; [eapply Hrho; exact EJ|exact A].
        * left. exact K.
        * right. exact K.
      + exact (IH (Throw v) r' j' _ _ _ _ _ _ _ (H (Throw v) r' j') E).
      + discriminate.
      + discriminate.
  Qed.
  (** A failure noted in the memory ends a forwarding solver's work. *)
  Lemma forwards_run (hit : G -> bool)
    (Hhit : forall y r j g e r' j' g', rj y r j g = (e, (r', j', g')) -> hit g = false -> hit g' = true ->
            e = Throw EResidualEvaluation) :
    forall (s : sol V R J Ws) y0 ws0 g r y1 ws1 g1,
    forwards s -> run_solver rj s y0 ws0 g = (r, (y1, ws1, g1)) -> hit g = false -> hit g1 = true ->
    r = Throw ENonlinearSolve.
  Proof.
    induction s as [e y ws|y r0 j k IH]; intros y0 ws0 g r y1 ws1 g1 H E H0 H1.
    - cbn in E. injection E as _ _ _ <-. congruence.
    - cbn in E, H. destruct (rj y r0 j g) as [e [[r' j'] g']] eqn:EJ.
      destruct (hit g') eqn:Hg'.
      + assert (e = Throw EResidualEvaluation) by (eapply Hhit; eassumption). subst e.
        destruct (H (Throw EResidualEvaluation) r' j') as (y2 & ws2 & K). rewrite K in E. cbn in E.
        injection E as <- _ _ _. reflexivity.
      + specialize (H e r' j'). destruct e as [v|v|v|].
        * exact (IH _ _ _ _ _ _ _ _ _ _ H E Hg' H1).
        * destruct v; destruct H as (y2 & ws2 & K); rewrite K in E; cbn in E; injection E as <- _ _ <-; congruence.
        * injection E as _ _ _ <-. congruence.
        * injection E as _ _ _ <-. congruence.
  Qed.
End SolverFacts.

(** * Strong guarantee *)
Section Strong.
  Context {S V R J P Ws : Type} (o : sops S).
  Variable pol : policy S V R J P.
  Variable solver : Ws -> V -> sol V R J Ws.
  Lemma std_sizes name n m t k dt (g : @sst S V R P Ws) r g1 :
    implicit_sizes name = Ok (n, m) -> length (t_st g) = n ->
    implicit_step o pol solver name t k dt g = (r, g1) -> length (t_st g1) = n.
  Proof.
    intros HN HL E. destruct name; try discriminate HN; injection HN as <- _; cbv [implicit_step] in E.
    - destruct (t_st g) as [|a st] eqn:Es; [discriminate HL|].
      rewrite (step_one_state_eq o pol solver BDF1 t k dt g a st Es) in E.
      destruct (run_solver _ _ _ _ _) as [r0 [[y' ws'] [fs' p']]].
      destruct r0 as [|e| |]; [|destruct e| |]; injection E as <- <-; exact HL.
    - destruct (t_st g) as [|a [|b st]] eqn:Es; try discriminate HL.
      rewrite (step_two_states_eq o pol solver BDF2 t k dt g a b st Es) in E. cbv zeta in E.
      destruct (run_solver _ _ _ _ _) as [r0 [[y' ws'] [fs' p']]].
      destruct r0 as [|e| |]; [|destruct e| |]; injection E as <- <-; cbn [t_st];
        destruct (k =? 1); exact HL.
    - destruct (t_st g) as [|a st] eqn:Es; [discriminate HL|].
      rewrite (step_one_state_eq o pol solver CrankNicolson t k dt g a st Es) in E.
      destruct (run_solver _ _ _ _ _) as [r0 [[y' ws'] [fs' p']]].
      destruct r0 as [|e| |]; [|destruct e| |]; injection E as <- <-; exact HL.
  Qed.

  Hypothesis HE : forall ws y, ends (fun r => r <> Throw ETimeStep) (solver ws y).
  Lemma std_strong name n m t k dt (g : @sst S V R P Ws) g1 :
    implicit_sizes name = Ok (n, m) -> length (t_st g) = n ->
    implicit_step o pol solver name t k dt g = (Throw ETimeStep, g1) ->
    t_y g1 = t_y g /\
    forall t' dt' tm d sp,
    implicit_step o pol solver name t' k dt' g1 =
    implicit_step o pol solver name t' k dt'
      (mk_sst (t_y g) (t_st g) (t_fs g1) tm d sp (t_p g1) (t_ws g1)).
  Proof.
    intros HN HL E. destruct name; try discriminate HN; injection HN as <- _; cbv [implicit_step] in E |- *.
    - destruct (t_st g) as [|a st] eqn:Es; [discriminate HL|].
      rewrite (step_one_state_eq o pol solver BDF1 t k dt g a st Es) in E.
      destruct (run_solver _ _ _ _ _) as [r0 [[y' ws'] [fs' p']]] eqn:ER.
      destruct (ends_run _ _ _ _ _ _ _ _ (HE _ _) ER) as [N|[[b ->]| ->]]; [|discriminate|discriminate].
      assert (F : g1 = mk_sst (t_y g) (t_y g :: st) fs' (sadd o t dt) dt k p' ws').
      { destruct r0 as [|e| |]; [discriminate|destruct e| |]; congruence. }
      subst g1. cbn [t_y t_fs t_p t_ws]. split; [reflexivity|]. intros t' dt' tm d sp.
      rewrite (step_one_state_eq o pol solver BDF1 t' k dt' _ (t_y g) st) by reflexivity.
      rewrite (step_one_state_eq o pol solver BDF1 t' k dt' _ a st) by reflexivity. reflexivity.
    - destruct (t_st g) as [|a [|b st]] eqn:Es; try discriminate HL.
      rewrite (step_two_states_eq o pol solver BDF2 t k dt g a b st Es) in E. cbv zeta in E.
      destruct (run_solver _ _ _ _ _) as [r0 [[y' ws'] [fs' p']]] eqn:ER.
      destruct (ends_run _ _ _ _ _ _ _ _ (HE _ _) ER) as [N|[[c ->]| ->]]; [|discriminate|discriminate].
      assert (F : g1 = mk_sst (t_y g) (if k =? 1 then t_y g :: b :: st else a :: a :: st)
                              fs' (sadd o t dt) dt k p' ws').
      { destruct r0 as [|e| |]; [discriminate|destruct e| |]; congruence. }
      subst g1. cbn [t_y t_fs t_p t_ws]. split; [reflexivity|]. intros t' dt' tm d sp.
      destruct (k =? 1) eqn:Ek.
      + rewrite (step_two_states_eq o pol solver BDF2 t' k dt' _ (t_y g) b st) by reflexivity.
        rewrite (step_two_states_eq o pol solver BDF2 t' k dt' _ a b st) by reflexivity.
        rewrite Ek. reflexivity.
      + rewrite (step_two_states_eq o pol solver BDF2 t' k dt' _ a a st) by reflexivity.
        rewrite (step_two_states_eq o pol solver BDF2 t' k dt' _ a b st) by reflexivity.
        rewrite Ek. reflexivity.
    - destruct (t_st g) as [|a st] eqn:Es; [discriminate HL|].
      rewrite (step_one_state_eq o pol solver CrankNicolson t k dt g a st Es) in E.
      destruct (run_solver _ _ _ _ _) as [r0 [[y' ws'] [fs' p']]] eqn:ER.
      destruct (ends_run _ _ _ _ _ _ _ _ (HE _ _) ER) as [N|[[b ->]| ->]]; [|discriminate|discriminate].
      assert (F : g1 = mk_sst (t_y g) (t_y g :: st) fs' (sadd o t dt) dt k p' ws').
      { destruct r0 as [|e| |]; [discriminate|destruct e| |]; congruence. }
      subst g1. cbn [t_y t_fs t_p t_ws]. split; [reflexivity|]. intros t' dt' tm d sp.
      rewrite (step_one_state_eq o pol solver CrankNicolson t' k dt' _ (t_y g) st) by reflexivity.
      rewrite (step_one_state_eq o pol solver CrankNicolson t' k dt' _ a st) by reflexivity. reflexivity.
  Qed.
  (** NonlinearSolveFailure never leaves a step. *)
  Lemma std_translates name t k dt (g : @sst S V R P Ws) :
    fst (implicit_step o pol solver name t k dt g) <> Throw ENonlinearSolve.
  Proof.
    destruct g as [y st fs tm d sp p ws].
    destruct name; try (cbn; discriminate); cbv [implicit_step].
    - destruct st as [|a st]; [cbn; discriminate|].
      rewrite (step_one_state_eq o pol solver BDF1 t k dt (mk_sst y (a :: st) fs tm d sp p ws) a st eq_refl).
      destruct (run_solver _ _ _ _ _) as [r0 [[y' ws'] [fs' p']]].
      destruct r0 as [|e| |]; [|destruct e| |]; cbn; discriminate.
    - destruct st as [|a [|b st]].
      + cbn. destruct (k =? 1); cbn; discriminate.
      + cbv [step_two_states bind set_info get_ode set_st get_st ImplicitModel.t_st ImplicitModel.t_y].
        destruct (k =? 1) eqn:Ek; cbn; [|discriminate].
        cbv [catch do_solve]. cbn.
        destruct (run_solver _ _ _ _ _) as [r0 [[y' ws'] [fs' p']]].
        destruct r0 as [|e| |]; [|destruct e| |]; cbn; discriminate.
      + rewrite (step_two_states_eq o pol solver BDF2 t k dt (mk_sst y (a :: b :: st) fs tm d sp p ws) a b st eq_refl). cbv zeta.
        destruct (run_solver _ _ _ _ _) as [r0 [[y' ws'] [fs' p']]].
        destruct r0 as [|e| |]; [|destruct e| |]; cbn; discriminate.
    - destruct st as [|a st]; [cbn; discriminate|].
      rewrite (step_one_state_eq o pol solver CrankNicolson t k dt (mk_sst y (a :: st) fs tm d sp p ws) a st eq_refl).
      destruct (run_solver _ _ _ _ _) as [r0 [[y' ws'] [fs' p']]].
      destruct r0 as [|e| |]; [|destruct e| |]; cbn; discriminate.
  Qed.
End Strong.

Section StrongArb.
  Context {S V R J W Ws : Type} (o : sops S).
  Variable du : Z -> S -> S -> R -> option J -> V -> list V -> W -> outcome unit * (R * option J * W).
  Variable solver : Ws -> V -> sol V R J Ws.
  Lemma arb_step_all n t k dt (g : @ast S V W Ws) : (n = 1 \/ n = 2 \/ n = 3)%nat -> length (a_st g) = n ->
    exists rc, forall r y1 ws1 w1,
    run_solver (arb_rj du (firstn n (a_y g :: a_st g)) (sadd o t dt) k dt) (solver (a_ws g) (a_y g)) (a_y g) (a_ws g) (a_w g)
      = (r, (y1, ws1, w1)) ->
    arb_step o du solver n t k dt g =
    match r with
    | Throw ENonlinearSolve =>
        (Throw ETimeStep, mk_ast (a_y g) (a_st g) rc (sadd o t dt) dt k w1 ws1)
    | _ => (r, mk_ast y1 (firstn n (a_y g :: a_st g)) rc (sadd o t dt) dt k w1 ws1)
    end.
  Proof.
    intros Hn HL. assert (Hf : a_st g = firstn n (a_st g)) by (rewrite <- HL; symmetry; apply firstn_all).
    destruct (arb_step_eq o du solver n t k dt g (a_st g) Hn Hf) as [rc H]; [rewrite HL; apply le_n|].
    exists rc. intros r y1 ws1 w1 E. rewrite (H r y1 ws1 w1 E). rewrite <- Hf. reflexivity.
  Qed.
  Hypothesis HE : forall ws y, ends (fun r => r <> Throw ETimeStep) (solver ws y).
  Lemma arb_strong n t k dt (g : @ast S V W Ws) g1 : (n = 1 \/ n = 2 \/ n = 3)%nat ->
    length (a_st g) = n ->
    arb_step o du solver n t k dt g = (Throw ETimeStep, g1) ->
    a_y g1 = a_y g /\ a_st g1 = a_st g /\
    forall t' dt' rc tm d sp,
    arb_step o du solver n t' k dt' g1 =
    arb_step o du solver n t' k dt' (mk_ast (a_y g) (a_st g) rc tm d sp (a_w g1) (a_ws g1)).
  Proof.
    intros Hn HL E. destruct (arb_step_all n t k dt g Hn HL) as [rc H].
    destruct (run_solver (arb_rj du (firstn n (a_y g :: a_st g)) (sadd o t dt) k dt)
                (solver (a_ws g) (a_y g)) (a_y g) (a_ws g) (a_w g)) as [r0 [[y1 ws1] w1]] eqn:ER.
    rewrite (H _ _ _ _ eq_refl) in E.
    destruct (ends_run _ _ _ _ _ _ _ _ (HE _ _) ER) as [N|[[b ->]| ->]]; [|discriminate|discriminate].
    assert (F : g1 = mk_ast (a_y g) (a_st g) rc (sadd o t dt) dt k w1 ws1).
    { destruct r0 as [|e| |]; [discriminate|destruct e| |]; congruence. }
    subst g1. cbn [a_y a_w a_ws a_st]. split; [reflexivity|]. split; [reflexivity|]. intros t' dt' rc' tm d sp.
    destruct Hn as [->|[->| ->]]; destruct (a_st g) as [|a [|b [|c st]]]; try discriminate HL; reflexivity.
  Qed.
End StrongArb.

(** * Velocity failures *)
Section Velocity.
  Context {S V J W Ws : Type} (o : sops S) (vo : vops S V) (jo : vops S J).
  Variable jid : J.
  Variable japp : J -> V -> V.
  Variable u : isys (S:=S) (V:=V) (J:=J) (W:=W).
  Variable solver : Ws -> V -> sol V V J Ws.
  Variable hit : W -> bool.
  Hypothesis Hu : forall y t R Jo w r f j w', is_eval u y t R Jo w = (r, (f, j, w')) ->
    hit w' = match r with Throw EVelocity => true | _ => hit w end.
  Hypothesis Hum : forall y t M f0 Jo w r M' f j w', is_mmeval u y t M f0 Jo w = (r, (M', f, j, w')) ->
    hit w' = match r with Throw EVelocity => true | _ => hit w end.
  Hypothesis Hs : forall ws y, forwards (solver ws y).

  Lemma pol_bdf1_hit y st fs t k dt R Jo (p : @ppol W) r fs' R' Jo' p' :
    pol_bdf1 o vo jo jid u y st fs t k dt R Jo p = (r, (fs', R', Jo', p')) ->
    hit (pp_w p) = false -> hit (pp_w p') = true -> r = Throw EResidualEvaluation.
  Proof.
    cbv [pol_bdf1]. intros E H0 H1.
    destruct (is_eval u y t R Jo (pp_w p)) as [e [[f j] w']] eqn:EU.
    pose proof (Hu _ _ _ _ _ _ _ _ _ EU) as Hh.
    destruct e as [x|x|x|].
    - destruct st; injection E as _ _ _ _ <-; cbn in H1; congruence.
    - injection E as <- _ _ _ <-. cbn in H1. destruct x; cbn; congruence.
    - injection E as <- _ _ _ <-. cbn in H1. congruence.
    - injection E as <- _ _ _ <-. cbn in H1. congruence.
  Qed.
  Lemma pol_bdf2_hit y st fs t k dt R Jo (p : @ppol W) r fs' R' Jo' p' :
    pol_bdf2 o vo jo jid u y st fs t k dt R Jo p = (r, (fs', R', Jo', p')) ->
    hit (pp_w p) = false -> hit (pp_w p') = true -> r = Throw EResidualEvaluation.
  Proof.
    cbv [pol_bdf2]. intros E H0 H1. destruct (k =? 1); [eapply pol_bdf1_hit; eassumption|].
    destruct (is_eval u y t R Jo (pp_w p)) as [e [[f j] w']] eqn:EU.
    pose proof (Hu _ _ _ _ _ _ _ _ _ EU) as Hh.
    destruct e as [x|x|x|].
    - destruct st as [|? [|? ?]]; injection E as _ _ _ _ <-; cbn in H1; congruence.
    - injection E as <- _ _ _ <-. cbn in H1. destruct x; cbn; congruence.
    - injection E as <- _ _ _ <-. cbn in H1. congruence.
    - injection E as <- _ _ _ <-. cbn in H1. congruence.
  Qed.
  Lemma mpol_bdf1_hit y st fs t k dt R Jo (p : @mpol V J W) r fs' R' Jo' p' :
    mpol_bdf1 o vo jo japp u y st fs t k dt R Jo p = (r, (fs', R', Jo', p')) ->
    hit (mp_w p) = false -> hit (mp_w p') = true -> r = Throw EResidualEvaluation.
  Proof.
    cbv [mpol_bdf1]. intros E H0 H1.
    destruct (is_mmeval u y t (mp_M p) (mp_f p) Jo (mp_w p)) as [e [[[M f] j] w']] eqn:EU.
    pose proof (Hum _ _ _ _ _ _ _ _ _ _ _ EU) as Hh.
    destruct e as [x|x|x|].
    - destruct st; injection E as _ _ _ _ <-; cbn in H1; congruence.
    - injection E as <- _ _ _ <-. cbn in H1. destruct x; cbn; congruence.
    - injection E as <- _ _ _ <-. cbn in H1. congruence.
    - injection E as <- _ _ _ <-. cbn in H1. congruence.
  Qed.
  Lemma mpol_bdf2_hit y st fs t k dt R Jo (p : @mpol V J W) r fs' R' Jo' p' :
    mpol_bdf2 o vo jo japp u y st fs t k dt R Jo p = (r, (fs', R', Jo', p')) ->
    hit (mp_w p) = false -> hit (mp_w p') = true -> r = Throw EResidualEvaluation.
  Proof.
    cbv [mpol_bdf2]. intros E H0 H1. destruct (k =? 1); [eapply mpol_bdf1_hit; eassumption|].
    destruct (is_mmeval u y t (mp_M p) (mp_f p) Jo (mp_w p)) as [e [[[M f] j] w']] eqn:EU.
    pose proof (Hum _ _ _ _ _ _ _ _ _ _ _ EU) as Hh.
    destruct e as [x|x|x|].
    - destruct st as [|? [|? ?]]; injection E as _ _ _ _ <-; cbn in H1; congruence.
    - injection E as <- _ _ _ <-. cbn in H1. destruct x; cbn; congruence.
    - injection E as <- _ _ _ <-. cbn in H1. congruence.
    - injection E as <- _ _ _ <-. cbn in H1. congruence.
  Qed.

  Lemma step_hit {P} (pol : policy S V V J P) (world : P -> W) name n m t k dt (g : @sst S V V P Ws) r g1 :
    name = BDF1 \/ name = BDF2 ->
    (forall y st fs t dt R Jo p r fs' R' Jo' p', pol name y st fs t k dt R Jo p = (r, (fs', R', Jo', p')) ->
       hit (world p) = false -> hit (world p') = true -> r = Throw EResidualEvaluation) ->
    implicit_sizes name = Ok (n, m) -> length (t_st g) = n ->
    implicit_step o pol solver name t k dt g = (r, g1) ->
    hit (world (t_p g)) = false -> hit (world (t_p g1)) = true ->
    r = Throw ETimeStep /\ t_y g1 = t_y g.
  Proof.
    intros HB HP HN HL E H0 H1.
    assert (Hcall : forall st t dt y R j gp e R' j' gp',
      std_rj pol name st t k dt y R j gp = (e, (R', j', gp')) ->
      hit (world (snd gp)) = false -> hit (world (snd gp')) = true -> e = Throw EResidualEvaluation).
    { intros st t' dt' y R j [fs p] e R' j' [fs' p'] Ej Ha Hb. cbv [std_rj] in Ej. cbn [fst snd] in *.
      destruct (pol name y st fs t' k dt' R j p) as [e0 [[[fs0 R0] j0] p0]] eqn:Ep.
      injection Ej as -> -> -> -> ->. eapply HP; eassumption. }
    destruct HB as [-> | ->]; injection HN as <- _; cbv [implicit_step] in E.
    - destruct (t_st g) as [|a st] eqn:Es; [discriminate HL|].
      rewrite (step_one_state_eq o pol solver BDF1 t k dt g a st Es) in E.
      destruct (run_solver _ _ _ _ _) as [r0 [[y' ws'] [fs' p']]] eqn:ER.
      assert (G1 : t_p g1 = p')
        by (destruct r0 as [|e| |]; [|destruct e| |]; injection E as _ <-; reflexivity).
      rewrite G1 in H1.
      assert (r0 = Throw ENonlinearSolve).
      { refine (forwards_run _ (fun gp => hit (world (snd gp))) _ _ _ _ _ _ _ _ _ (Hs _ _) ER _ _).
        - intros. eapply Hcall; eassumption.
        - exact H0.
        - exact H1. }
      subst r0. injection E as <- <-. split; reflexivity.
    - destruct (t_st g) as [|a [|b st]] eqn:Es; try discriminate HL.
      rewrite (step_two_states_eq o pol solver BDF2 t k dt g a b st Es) in E. cbv zeta in E.
      destruct (run_solver _ _ _ _ _) as [r0 [[y' ws'] [fs' p']]] eqn:ER.
      assert (G1 : t_p g1 = p')
        by (destruct r0 as [|e| |]; [|destruct e| |]; injection E as _ <-; reflexivity).
      rewrite G1 in H1.
      assert (r0 = Throw ENonlinearSolve).
      { refine (forwards_run _ (fun gp => hit (world (snd gp))) _ _ _ _ _ _ _ _ _ (Hs _ _) ER _ _).
        - intros. eapply Hcall; eassumption.
        - exact H0.
        - exact H1. }
      subst r0. injection E as <- <-. split; reflexivity.
  Qed.
  Lemma std_hit name n m t k dt (g : @sst S V V (@ppol W) Ws) r g1 : name = BDF1 \/ name = BDF2 ->
    implicit_sizes name = Ok (n, m) -> length (t_st g) = n ->
    implicit_step o (policy_std o vo jo jid u) solver name t k dt g = (r, g1) ->
    hit (pp_w (t_p g)) = false -> hit (pp_w (t_p g1)) = true ->
    r = Throw ETimeStep /\ t_y g1 = t_y g.
  Proof.
    intros HB. apply step_hit; [exact HB|]. destruct HB as [-> | ->]; intros.
    - eapply pol_bdf1_hit; eassumption.
    - eapply pol_bdf2_hit; eassumption.
  Qed.
  Lemma mm_hit name n m t k dt (g : @sst S V V (@mpol V J W) Ws) r g1 : name = BDF1 \/ name = BDF2 ->
    implicit_sizes name = Ok (n, m) -> length (t_st g) = n ->
    implicit_step o (policy_mm o vo jo japp u) solver name t k dt g = (r, g1) ->
    hit (mp_w (t_p g)) = false -> hit (mp_w (t_p g1)) = true ->
    r = Throw ETimeStep /\ t_y g1 = t_y g.
  Proof.
    intros HB. apply step_hit; [exact HB|]. destruct HB as [-> | ->]; intros.
    - eapply mpol_bdf1_hit; eassumption.
    - eapply mpol_bdf2_hit; eassumption.
  Qed.
End Velocity.

(** * Under the advancers *)
Section Linked.
  Context {S V R J Ws Q G U : Type} (o : sops S).
  Variable solver : Ws -> V -> sol V R J Ws.
  Variable problem : list V -> prun S V -> S -> V -> R -> option J -> Q ->
                     outcome unit * (R * option J * Q).
  Variable step : S -> Z -> S -> cmd G unit.
  Variable put : V -> G -> G.
  Variable get : G -> V.
  Variable Inv : option (prun S V) -> list V -> G -> Ws -> Q -> Prop.
  Hypothesis put_get : forall g, put (get g) g = g.
  Hypothesis H_step : step_refines o solver problem step get Inv.
  Hypothesis HE : forall ws y, ends (fun r => r <> Throw ETimeStep) (solver ws y).
  Variable P : list V -> S -> S -> V -> Prop.
  Hypothesis HP : forall tape t y hist dt ws q y1 ws1 q1,
    run_solver (problem (y :: tape) (mk_prun t (y :: hist)) dt) (solver ws y) y ws q
      = (Ok tt, (y1, ws1, q1)) -> P (y :: hist) t dt y1.
  Variables (start : S) (y0 : V).
  Notation sf := (fun y t k dt g => let '(r, g') := step t k dt (put y g) in (r, (get g', g'))).
  Definition lrel (l : accepted S V) (g : G) : Prop :=
    match l with
    | (t, d, y) :: l' => (exists tape ws q, Inv (Some (mk_prun t (map snd l))) tape (put y g) ws q) /\
                         linked_from (sadd o) P start y0 l
    | [] => False
    end.
  Lemma lrel_ok : forall t d y l g dt y' g', lrel ((t, d, y) :: l) g ->
    sf y t (Z.of_nat (length ((t, d, y) :: l))) dt g = (Ok tt, (y', g')) ->
    lrel ((sadd o t dt, dt, y') :: (t, d, y) :: l) g'.
  Proof.
    intros t d y l g dt y' g' ((tape & ws & q & HI) & HL) E. cbv beta in E.
    destruct (H_step t y (map snd l) tape (put y g) ws q dt HI) as (r & y1 & ws1 & q1 & g2 & E1 & E2 & E3).
    replace (length ((t, d, y) :: l)) with (length (y :: map snd l)) in E
      by (cbn [length]; rewrite map_length; reflexivity).
    rewrite E2 in E. injection E as Er Ey Eg. subst g2.
    destruct r as [[]|e|b|]; [|destruct e; discriminate|discriminate|discriminate].
    destruct E3 as [Hg HI1]. rewrite Hg in Ey. subst y'.
    split.
    - exists (y :: tape), ws1, q1. cbn [map snd]. rewrite <- Hg, put_get, Hg. exact HI1.
    - destruct HL as [HL (d0 & l0 & Hs)]. split.
      + split; [reflexivity|]. split; [|exact HL]. cbn [map snd]. eapply HP. exact E1.
      + exists d0, ((sadd o t dt, dt, y1) :: l0). cbn [app]. rewrite Hs. reflexivity.
  Qed.
  Lemma lrel_fail : forall t d y l g dt y' g', lrel ((t, d, y) :: l) g ->
    sf y t (Z.of_nat (length ((t, d, y) :: l))) dt g = (Throw ETimeStep, (y', g')) ->
    y' = y /\ lrel ((t, d, y) :: l) g'.
  Proof.
    intros t d y l g dt y' g' ((tape & ws & q & HI) & HL) E. cbv beta in E.
    destruct (H_step t y (map snd l) tape (put y g) ws q dt HI) as (r & y1 & ws1 & q1 & g2 & E1 & E2 & E3).
    replace (length ((t, d, y) :: l)) with (length (y :: map snd l)) in E
      by (cbn [length]; rewrite map_length; reflexivity).
    rewrite E2 in E. injection E as Er Ey Eg. subst g2.
    destruct (ends_run _ _ _ _ _ _ _ _ (HE _ _) E1) as [N|[[b ->]| ->]]; [|discriminate|discriminate].
    assert (r = Throw ENonlinearSolve) by (destruct r as [[]|e|b|]; [discriminate|destruct e| |]; congruence).
    subst r. destruct E3 as [Hg HI1]. split; [congruence|]. split; [|exact HL].
    exists tape, ws1, q1. cbn [map snd]. rewrite <- Hg at 2. rewrite put_get. exact HI1.
  Qed.

  Variable obs : Z -> S -> V -> U -> outcome unit * U.
  Variable g0 : G.
  Hypothesis HI0 : exists tape ws q, Inv (Some (mk_prun start [y0])) tape (put y0 g0) ws q.
  Lemma lrel_start : lrel [(start, start, y0)] g0.
  Proof. split; [exact HI0|]. split; [exact I|]. exists start, []. reflexivity. Qed.

  Lemma linked_target pol recovery fuel final w y' g' w' tr :
    to_target o (mk_user (split_obs obs) (split_pol pol) noop_guess (split_step sf)) recovery fuel
      start final (y0, (g0, w), []) = (Ok tt, (y', (g', w'), tr)) ->
    seqb o final start = false ->
    exists t' d' l, linked_from (sadd o) P start y0 ((t', d', y') :: l) /\ reports tr = numbered ((t', d', y') :: l).
  Proof.
    intros E Hne.
    destruct (target_track o sf obs lrel lrel_ok lrel_fail pol recovery fuel start final _ _ _ _ _ _ _ E Hne
                start lrel_start) as (t' & d' & l & [_ HL] & HR). eauto.
  Qed.
  Lemma linked_n_steps pol num w y' g' w' tr : Z.of_nat num < int32_max ->
    advance_n_steps o (mk_user (split_obs obs) (pol3 (split_pol pol)) noop_guess (split_step sf))
      (Z.of_nat num) start (y0, (g0, w), []) = (Ok tt, (y', (g', w'), tr)) ->
    exists t' d' l, length l = num /\ linked_from (sadd o) P start y0 ((t', d', y') :: l) /\
      reports tr = numbered ((t', d', y') :: l).
  Proof.
    intros Hn E.
    destruct (n_steps_track o sf obs lrel lrel_ok pol num start _ _ _ _ _ _ _ Hn E
                start lrel_start) as (t' & d' & l & Hl & [_ HL] & HR). eauto 6.
  Qed.
End Linked.

Lemma put_ode_get {S V R P Ws} (g : @sst S V R P Ws) : put_ode (t_y g) g = g.
Proof. destruct g. reflexivity. Qed.
Lemma put_arb_get {S V W Ws} (g : @ast S V W Ws) : put_arb (a_y g) g = g.
Proof. destruct g. reflexivity. Qed.

Section Under.
  Context {S V J W Ws U : Type} (o : sops S) (vo : vops S V) (jo : vops S J).
  Variable jid : J.
  Variable japp : J -> V -> V.
  Variable u : isys (S:=S) (V:=V) (J:=J) (W:=W).
  Variable solver : Ws -> V -> sol V V J Ws.
  Hypotheses (HF : sfield o) (HC : schar0 o) (HV : vspace o vo) (HJ : vspace o jo).
  Variable Acc : V -> Prop.
  Hypothesis HE : forall ws y, ends (fun r => r <> Throw ETimeStep) (solver ws y).
  Hypothesis HA : forall ws y, certified Acc (fun _ => False) (solver ws y).

  Lemma certified_run' {G} (Ac : V -> Prop) (rho : V -> V -> Prop)
    (rj : V -> V -> option J -> G -> outcome unit * (V * option J * G)) (s : sol V V J Ws) y ws q y1 ws1 q1 :
    certified Ac (fun _ => False) s -> run_solver rj s y ws q = (Ok tt, (y1, ws1, q1)) ->
    (forall z r j g r' j' g', rj z r j g = (Ok tt, (r', j', g')) -> rho z r') ->
    exists r, rho y1 r /\ Ac r.
  Proof.
    intros H E Hr. destruct (certified_run rj Ac rho Hr s _ _ _ _ _ _ _ H E) as [[]|K]. exact K.
  Qed.

  Section NoMass.
    Variable f : V -> S -> V.
    Hypothesis Hf : rhs_is u f.
    Lemma seen_rho res jac t y r j w r' j' w' : seen u res jac t y r j w = (Ok tt, (r', j', w')) ->
      r' = res (f y t) y.
    Proof.
      cbv [seen]. destruct (is_eval u y t r j w) as [e [[f1 j1] w1]] eqn:E.
      destruct e as [[]|e|b|]; [|destruct e; discriminate|discriminate|discriminate].
      intros H. injection H as <- _ _. rewrite (Hf _ _ _ _ _ _ _ _ E). reflexivity.
    Qed.
    Lemma bdf1_accepts tape t y hist dt ws q y1 ws1 q1 :
      run_solver (problem_bdf1 o vo jo jid u (y :: tape) (mk_prun t (y :: hist)) dt) (solver ws y) y ws q
        = (Ok tt, (y1, ws1, q1)) -> accepted_bdf1 o vo Acc f (y :: hist) t dt y1.
    Proof.
      intros E. cbn [accepted_bdf1].
      destruct (certified_run' Acc (fun z r => r = bdf1_R o vo y dt (f z (sadd o t dt)) z) _ (solver ws y) y ws q y1 ws1 q1 (HA ws y) E) as (r & -> & A); [|exact A].
      intros z r j g r' j' g' Ej; cbv [problem_bdf1 r_hist r_t] in Ej; apply (seen_rho _ _ _ _ _ _ _ _ _ _ Ej).
    Qed.
    Lemma bdf2_accepts tape t y hist dt ws q y1 ws1 q1 :
      run_solver (problem_bdf2 o vo jo jid u (y :: tape) (mk_prun t (y :: hist)) dt) (solver ws y) y ws q
        = (Ok tt, (y1, ws1, q1)) -> accepted_bdf2 o vo Acc f (y :: hist) t dt y1.
    Proof.
      intros E. destruct hist as [|y_nm1 hist]; [exact (bdf1_accepts tape t y [] dt ws q y1 ws1 q1 E)|].
      cbn [accepted_bdf2].
      destruct (certified_run' Acc (fun z r => r = bdf2_R o vo y y_nm1 dt (f z (sadd o t dt)) z) _ (solver ws y) y ws q y1 ws1 q1 (HA ws y) E) as (r & -> & A); [|exact A].
      intros z r j g r' j' g' Ej; cbv [problem_bdf2 r_hist r_t] in Ej; apply (seen_rho _ _ _ _ _ _ _ _ _ _ Ej).
    Qed.
    Lemma cn_accepts (w0 : W) F fj (Hp : repeatable u F fj) tape t y hist dt ws (q : unit) y1 ws1 q1 :
      run_solver (problem_cn o vo jo jid F fj (y :: tape) (mk_prun t (y :: hist)) dt) (solver ws y) y ws q
        = (Ok tt, (y1, ws1, q1)) -> accepted_cn o vo Acc f (y :: hist) t dt y1.
    Proof.
      assert (HFf : forall z s v j, F z s = Ok (v, j) -> v = f z s).
      { intros z s v j EF. pose proof (Hp z s z None w0) as H. rewrite EF in H. destruct H as (j' & w' & H & _). exact (Hf _ _ _ _ _ _ _ _ H). }
      intros E. cbn [accepted_cn].
      destruct (certified_run' Acc (fun z r => r = cn_R o vo y (f y t) dt (f z (sadd o t dt)) z) _ (solver ws y) y ws q y1 ws1 q1 (HA ws y) E) as (r & -> & A); [|exact A].
      intros z r j g r' j' g' Ej; cbv [problem_cn r_hist r_t seen_cn] in Ej;
          destruct (F y t) as [[v1 j1]|e|b|] eqn:E1; try discriminate;
          destruct (F z (sadd o t dt)) as [[v2 j2]|e|b|] eqn:E2; try discriminate;
          injection Ej as <- _ _; rewrite (HFf _ _ _ _ E1), (HFf _ _ _ _ E2); reflexivity.
    Qed.
  End NoMass.

  Section Mass.
    Variables (M : V -> S -> J) (f : V -> S -> V).
    Hypothesis Hf : rhs_mass_is u M f.
    Lemma seen_mm_rho res jac t y r j q r' j' q' : seen_mm u res jac t y r j q = (Ok tt, (r', j', q')) ->
      r' = res (M y t) (f y t) y.
    Proof.
      destruct q as [[M0 f0] w]. cbv [seen_mm].
      destruct (is_mmeval u y t M0 f0 j w) as [e [[[M1 f1] j1] w1]] eqn:E.
      destruct e as [[]|e|b|]; [|destruct e; discriminate|discriminate|discriminate].
      intros H. injection H as <- _ _. destruct (Hf _ _ _ _ _ _ _ _ _ _ E) as [-> ->]. reflexivity.
    Qed.
    Lemma bdf1_mm_accepts tape t y hist dt ws q y1 ws1 q1 :
      run_solver (problem_bdf1_mm o vo jo japp u (y :: tape) (mk_prun t (y :: hist)) dt) (solver ws y) y ws q
        = (Ok tt, (y1, ws1, q1)) -> accepted_bdf1_mm o vo japp Acc M f (y :: hist) t dt y1.
    Proof.
      intros E. cbn [accepted_bdf1_mm].
      destruct (certified_run' Acc (fun z r => r = bdf1_R_mm o vo japp y dt (M z (sadd o t dt)) (f z (sadd o t dt)) z) _ (solver ws y) y ws q y1 ws1 q1 (HA ws y) E) as (r & -> & A); [|exact A].
      intros z r j g r' j' g' Ej; cbv [problem_bdf1_mm r_hist r_t] in Ej; exact (seen_mm_rho _ _ _ _ _ _ _ _ _ _ Ej).
    Qed.
    Lemma bdf2_mm_accepts tape t y hist dt ws q y1 ws1 q1 :
      run_solver (problem_bdf2_mm o vo jo japp u (y :: tape) (mk_prun t (y :: hist)) dt) (solver ws y) y ws q
        = (Ok tt, (y1, ws1, q1)) -> accepted_bdf2_mm o vo japp Acc M f (y :: hist) t dt y1.
    Proof.
      intros E. destruct hist as [|y_nm1 hist]; [exact (bdf1_mm_accepts tape t y [] dt ws q y1 ws1 q1 E)|].
      cbn [accepted_bdf2_mm].
      destruct (certified_run' Acc (fun z r => r = bdf2_R_mm o vo japp y y_nm1 dt (M z (sadd o t dt)) (f z (sadd o t dt)) z) _ (solver ws y) y ws q y1 ws1 q1 (HA ws y) E) as (r & -> & A); [|exact A].
      intros z r j g r' j' g' Ej; cbv [problem_bdf2_mm r_hist r_t] in Ej; exact (seen_mm_rho _ _ _ _ _ _ _ _ _ _ Ej).
    Qed.
  End Mass.

  Variable obs : Z -> S -> V -> U -> outcome unit * U.
  Lemma bdf1_target f (Hf : rhs_is u f) (g0 : @sst S V V (@ppol W) Ws) (HL : length (t_st g0) = 1%nat) :
    forall pol recovery fuel start final y0 w y' g' w' tr,
    to_target o (mk_user (split_obs obs) (split_pol pol) noop_guess
        (split_step (implicit_fn (implicit_step o (policy_std o vo jo jid u) solver BDF1)))) recovery fuel
      start final (y0, (g0, w), []) = (Ok tt, (y', (g', w'), tr)) ->
    seqb o final start = false ->
    exists t' d' l, linked_from (sadd o) (accepted_bdf1 o vo Acc f) start y0 ((t', d', y') :: l) /\
      reports tr = numbered ((t', d', y') :: l).
  Proof.
    intros pol recovery fuel start final y0 w y' g' w' tr E Hne.
    eapply (linked_target o solver _ (implicit_step o (policy_std o vo jo jid u) solver BDF1) put_ode t_y inv1 put_ode_get);
      [apply bdf1_refines; assumption|exact HE|intros; eapply bdf1_accepts; eassumption|exists [], (t_ws g0), (pp_w (t_p g0)); split; [reflexivity|]; split; [reflexivity|]; split; [destruct (t_st g0) as [|a st] eqn:Es; [discriminate HL|]; cbn; rewrite Es; eauto|cbn; eauto]|exact E|exact Hne].
  Qed.
  Lemma bdf1_n_steps f (Hf : rhs_is u f) (g0 : @sst S V V (@ppol W) Ws) (HL : length (t_st g0) = 1%nat) :
    forall pol num start y0 w y' g' w' tr, Z.of_nat num < int32_max ->
    advance_n_steps o (mk_user (split_obs obs) (pol3 (split_pol pol)) noop_guess
        (split_step (implicit_fn (implicit_step o (policy_std o vo jo jid u) solver BDF1))))
      (Z.of_nat num) start (y0, (g0, w), []) = (Ok tt, (y', (g', w'), tr)) ->
    exists t' d' l, length l = num /\ linked_from (sadd o) (accepted_bdf1 o vo Acc f) start y0 ((t', d', y') :: l) /\
      reports tr = numbered ((t', d', y') :: l).
  Proof.
    intros pol num start y0 w y' g' w' tr Hn E.
    eapply (linked_n_steps o solver _ (implicit_step o (policy_std o vo jo jid u) solver BDF1) put_ode t_y inv1 put_ode_get);
      [apply bdf1_refines; assumption|intros; eapply bdf1_accepts; eassumption|exists [], (t_ws g0), (pp_w (t_p g0)); split; [reflexivity|]; split; [reflexivity|]; split; [destruct (t_st g0) as [|a st] eqn:Es; [discriminate HL|]; cbn; rewrite Es; eauto|cbn; eauto]|exact Hn|exact E].
  Qed.
  Lemma bdf2_target f (Hf : rhs_is u f) (g0 : @sst S V V (@ppol W) Ws) (HL : length (t_st g0) = 2%nat) :
    forall pol recovery fuel start final y0 w y' g' w' tr,
    to_target o (mk_user (split_obs obs) (split_pol pol) noop_guess
        (split_step (implicit_fn (implicit_step o (policy_std o vo jo jid u) solver BDF2)))) recovery fuel
      start final (y0, (g0, w), []) = (Ok tt, (y', (g', w'), tr)) ->
    seqb o final start = false ->
    exists t' d' l, linked_from (sadd o) (accepted_bdf2 o vo Acc f) start y0 ((t', d', y') :: l) /\
      reports tr = numbered ((t', d', y') :: l).
  Proof.
    intros pol recovery fuel start final y0 w y' g' w' tr E Hne.
    eapply (linked_target o solver _ (implicit_step o (policy_std o vo jo jid u) solver BDF2) put_ode t_y inv2 put_ode_get);
      [apply bdf2_refines; assumption|exact HE|intros; eapply bdf2_accepts; eassumption|exists [], (t_ws g0), (pp_w (t_p g0)); split; [reflexivity|]; split; [reflexivity|]; split; [destruct (t_st g0) as [|a [|b st]] eqn:Es; try discriminate HL; cbn; rewrite Es; do 3 eexists; split; [reflexivity|exact I]|cbn; eauto]|exact E|exact Hne].
  Qed.
  Lemma bdf2_n_steps f (Hf : rhs_is u f) (g0 : @sst S V V (@ppol W) Ws) (HL : length (t_st g0) = 2%nat) :
    forall pol num start y0 w y' g' w' tr, Z.of_nat num < int32_max ->
    advance_n_steps o (mk_user (split_obs obs) (pol3 (split_pol pol)) noop_guess
        (split_step (implicit_fn (implicit_step o (policy_std o vo jo jid u) solver BDF2))))
      (Z.of_nat num) start (y0, (g0, w), []) = (Ok tt, (y', (g', w'), tr)) ->
    exists t' d' l, length l = num /\ linked_from (sadd o) (accepted_bdf2 o vo Acc f) start y0 ((t', d', y') :: l) /\
      reports tr = numbered ((t', d', y') :: l).
  Proof.
    intros pol num start y0 w y' g' w' tr Hn E.
    eapply (linked_n_steps o solver _ (implicit_step o (policy_std o vo jo jid u) solver BDF2) put_ode t_y inv2 put_ode_get);
      [apply bdf2_refines; assumption|intros; eapply bdf2_accepts; eassumption|exists [], (t_ws g0), (pp_w (t_p g0)); split; [reflexivity|]; split; [reflexivity|]; split; [destruct (t_st g0) as [|a [|b st]] eqn:Es; try discriminate HL; cbn; rewrite Es; do 3 eexists; split; [reflexivity|exact I]|cbn; eauto]|exact Hn|exact E].
  Qed.
  Lemma cn_target F fj f (Hp : repeatable u F fj) (Hf : rhs_is u f) cs cr w0 yc ws (g0 : @sst S V V (@ppol W) Ws)
    (HG : implicit_create o CrankNicolson cs cr (mk_ppol (-1) w0) yc ws = Ok g0) :
    forall pol recovery fuel start final y0 w y' g' w' tr,
    to_target o (mk_user (split_obs obs) (split_pol pol) noop_guess
        (split_step (implicit_fn (implicit_step o (policy_std o vo jo jid u) solver CrankNicolson)))) recovery fuel
      start final (y0, (g0, w), []) = (Ok tt, (y', (g', w'), tr)) ->
    seqb o final start = false ->
    exists t' d' l, linked_from (sadd o) (accepted_cn o vo Acc f) start y0 ((t', d', y') :: l) /\
      reports tr = numbered ((t', d', y') :: l).
  Proof.
    intros pol recovery fuel start final y0 w y' g' w' tr E Hne.
    injection HG as HG.
    assert (HI0 : forall t y, exists tape ws w, invcn F (fun _ : W => tt) (Some (mk_prun t [y])) tape (put_ode y g0) ws w).
    { intros t y. exists [], ws, tt. rewrite <- HG. split; [reflexivity|]. split; [reflexivity|].
      split; [cbn; eauto|]. split; [cbn; eauto|]. cbn. split; [lia|]. exists cr, cr, [].
      split; [reflexivity|cbn; lia]. }
    eapply (linked_target o solver _ (implicit_step o (policy_std o vo jo jid u) solver CrankNicolson) put_ode t_y (invcn F (fun _ : W => tt)) put_ode_get);
      [apply cn_refines; eassumption|exact HE|intros; eapply (cn_accepts f Hf w0); eassumption|exact (HI0 start y0)|exact E|exact Hne].
  Qed.
  Lemma cn_n_steps F fj f (Hp : repeatable u F fj) (Hf : rhs_is u f) cs cr w0 yc ws (g0 : @sst S V V (@ppol W) Ws)
    (HG : implicit_create o CrankNicolson cs cr (mk_ppol (-1) w0) yc ws = Ok g0) :
    forall pol num start y0 w y' g' w' tr, Z.of_nat num < int32_max ->
    advance_n_steps o (mk_user (split_obs obs) (pol3 (split_pol pol)) noop_guess
        (split_step (implicit_fn (implicit_step o (policy_std o vo jo jid u) solver CrankNicolson))))
      (Z.of_nat num) start (y0, (g0, w), []) = (Ok tt, (y', (g', w'), tr)) ->
    exists t' d' l, length l = num /\ linked_from (sadd o) (accepted_cn o vo Acc f) start y0 ((t', d', y') :: l) /\
      reports tr = numbered ((t', d', y') :: l).
  Proof.
    intros pol num start y0 w y' g' w' tr Hn E.
    injection HG as HG.
    assert (HI0 : forall t y, exists tape ws w, invcn F (fun _ : W => tt) (Some (mk_prun t [y])) tape (put_ode y g0) ws w).
    { intros t y. exists [], ws, tt. rewrite <- HG. split; [reflexivity|]. split; [reflexivity|].
      split; [cbn; eauto|]. split; [cbn; eauto|]. cbn. split; [lia|]. exists cr, cr, [].
      split; [reflexivity|cbn; lia]. }
    eapply (linked_n_steps o solver _ (implicit_step o (policy_std o vo jo jid u) solver CrankNicolson) put_ode t_y (invcn F (fun _ : W => tt)) put_ode_get);
      [apply cn_refines; eassumption|intros; eapply (cn_accepts f Hf w0); eassumption|exact (HI0 start y0)|exact Hn|exact E].
  Qed.
  Lemma bdf1_mm_target M f (Hf : rhs_mass_is u M f) (g0 : @sst S V V (@mpol V J W) Ws) (HL : length (t_st g0) = 1%nat) :
    forall pol recovery fuel start final y0 w y' g' w' tr,
    to_target o (mk_user (split_obs obs) (split_pol pol) noop_guess
        (split_step (implicit_fn (implicit_step o (policy_mm o vo jo japp u) solver BDF1)))) recovery fuel
      start final (y0, (g0, w), []) = (Ok tt, (y', (g', w'), tr)) ->
    seqb o final start = false ->
    exists t' d' l, linked_from (sadd o) (accepted_bdf1_mm o vo japp Acc M f) start y0 ((t', d', y') :: l) /\
      reports tr = numbered ((t', d', y') :: l).
  Proof.
    intros pol recovery fuel start final y0 w y' g' w' tr E Hne.
    eapply (linked_target o solver _ (implicit_step o (policy_mm o vo jo japp u) solver BDF1) put_ode t_y inv1m put_ode_get);
      [apply bdf1_mm_refines; assumption|exact HE|intros; eapply bdf1_mm_accepts; eassumption|exists [], (t_ws g0), (mp_M (t_p g0), mp_f (t_p g0), mp_w (t_p g0)); split; [reflexivity|]; split; [reflexivity|]; split; [destruct (t_st g0) as [|a st] eqn:Es; [discriminate HL|]; cbn; rewrite Es; eauto|cbn; eauto]|exact E|exact Hne].
  Qed.
  Lemma bdf1_mm_n_steps M f (Hf : rhs_mass_is u M f) (g0 : @sst S V V (@mpol V J W) Ws) (HL : length (t_st g0) = 1%nat) :
    forall pol num start y0 w y' g' w' tr, Z.of_nat num < int32_max ->
    advance_n_steps o (mk_user (split_obs obs) (pol3 (split_pol pol)) noop_guess
        (split_step (implicit_fn (implicit_step o (policy_mm o vo jo japp u) solver BDF1))))
      (Z.of_nat num) start (y0, (g0, w), []) = (Ok tt, (y', (g', w'), tr)) ->
    exists t' d' l, length l = num /\ linked_from (sadd o) (accepted_bdf1_mm o vo japp Acc M f) start y0 ((t', d', y') :: l) /\
      reports tr = numbered ((t', d', y') :: l).
  Proof.
    intros pol num start y0 w y' g' w' tr Hn E.
    eapply (linked_n_steps o solver _ (implicit_step o (policy_mm o vo jo japp u) solver BDF1) put_ode t_y inv1m put_ode_get);
      [apply bdf1_mm_refines; assumption|intros; eapply bdf1_mm_accepts; eassumption|exists [], (t_ws g0), (mp_M (t_p g0), mp_f (t_p g0), mp_w (t_p g0)); split; [reflexivity|]; split; [reflexivity|]; split; [destruct (t_st g0) as [|a st] eqn:Es; [discriminate HL|]; cbn; rewrite Es; eauto|cbn; eauto]|exact Hn|exact E].
  Qed.
  Lemma bdf2_mm_target M f (Hf : rhs_mass_is u M f) (g0 : @sst S V V (@mpol V J W) Ws) (HL : length (t_st g0) = 2%nat) :
    forall pol recovery fuel start final y0 w y' g' w' tr,
    to_target o (mk_user (split_obs obs) (split_pol pol) noop_guess
        (split_step (implicit_fn (implicit_step o (policy_mm o vo jo japp u) solver BDF2)))) recovery fuel
      start final (y0, (g0, w), []) = (Ok tt, (y', (g', w'), tr)) ->
    seqb o final start = false ->
    exists t' d' l, linked_from (sadd o) (accepted_bdf2_mm o vo japp Acc M f) start y0 ((t', d', y') :: l) /\
      reports tr = numbered ((t', d', y') :: l).
  Proof.
    intros pol recovery fuel start final y0 w y' g' w' tr E Hne.
    eapply (linked_target o solver _ (implicit_step o (policy_mm o vo jo japp u) solver BDF2) put_ode t_y inv2m put_ode_get);
      [apply bdf2_mm_refines; assumption|exact HE|intros; eapply bdf2_mm_accepts; eassumption|exists [], (t_ws g0), (mp_M (t_p g0), mp_f (t_p g0), mp_w (t_p g0)); split; [reflexivity|]; split; [reflexivity|]; split; [destruct (t_st g0) as [|a [|b st]] eqn:Es; try discriminate HL; cbn; rewrite Es; do 3 eexists; split; [reflexivity|exact I]|cbn; eauto]|exact E|exact Hne].
  Qed.
  Lemma bdf2_mm_n_steps M f (Hf : rhs_mass_is u M f) (g0 : @sst S V V (@mpol V J W) Ws) (HL : length (t_st g0) = 2%nat) :
    forall pol num start y0 w y' g' w' tr, Z.of_nat num < int32_max ->
    advance_n_steps o (mk_user (split_obs obs) (pol3 (split_pol pol)) noop_guess
        (split_step (implicit_fn (implicit_step o (policy_mm o vo jo japp u) solver BDF2))))
      (Z.of_nat num) start (y0, (g0, w), []) = (Ok tt, (y', (g', w'), tr)) ->
    exists t' d' l, length l = num /\ linked_from (sadd o) (accepted_bdf2_mm o vo japp Acc M f) start y0 ((t', d', y') :: l) /\
      reports tr = numbered ((t', d', y') :: l).
  Proof.
    intros pol num start y0 w y' g' w' tr Hn E.
    eapply (linked_n_steps o solver _ (implicit_step o (policy_mm o vo jo japp u) solver BDF2) put_ode t_y inv2m put_ode_get);
      [apply bdf2_mm_refines; assumption|intros; eapply bdf2_mm_accepts; eassumption|exists [], (t_ws g0), (mp_M (t_p g0), mp_f (t_p g0), mp_w (t_p g0)); split; [reflexivity|]; split; [reflexivity|]; split; [destruct (t_st g0) as [|a [|b st]] eqn:Es; try discriminate HL; cbn; rewrite Es; do 3 eexists; split; [reflexivity|exact I]|cbn; eauto]|exact Hn|exact E].
  Qed.
End Under.

(** Lemmas behind C79 and C80. *)
From Coq Require Import ZArith List Bool Lia Reals.
From Verif Require Import Base RInst Laws LawInst ExplicitModel ExplicitExtra AdvanceModel AdvanceSpec AdvanceProofs TargetProofs Track ImplicitModel ImplicitSpec ImplicitProofs
  ImplicitRefine ImplicitMore LspgModel RomSpec RomDeriv LspgSpec LspgProofs LspgInst LspgClaims LspgMore GalerkinModel GalerkinSpec GalerkinProofs GalerkinClaims RomRunSpec.
Import ListNotations.
Local Open Scope Z_scope.

(** * One evaluation *)
Section Once.
  Context {S X Y Rf Jf R J B W Q : Type}.
  Variable recon : X -> Y.
  (** What the system hands on when it returns *)
  Lemma fd_inv n (ev : Z -> S -> S -> R -> option J -> Y -> list Y -> Q -> outcome unit * (R * option J * Q))
    step t dt r Jo x st p r' j' p' :
    fd_system recon n ev step t dt r Jo x st p = (Ok tt, (r', j', p')) ->
    exists older, fh_data (fst p') = recon x :: older /\ (n - 1 <= length older)%nat /\
      ev step t dt r Jo (recon x) (firstn (n - 1) older) (snd p) = (Ok tt, (r', j', snd p')).
  Proof.
    cbv [fd_system]. destruct (reconstruct recon x st step (fst p)) as [r0 h] eqn:ER.
    destruct r0 as [[]|e|b|]; try discriminate.
    destruct (fh_data h) as [|np1 older] eqn:ED; [discriminate|].
    pose proof (reconstruct_head _ _ _ _ _ _ _ _ ER ED) as ->.
    destruct (length older <? n - 1)%nat eqn:EL; [discriminate|].
    destruct (ev step t dt r Jo (recon x) (firstn (n - 1) older) (snd p)) as [e [[r1 j1] q1]] eqn:EV.
    intros E. injection E as -> <- <- <-. exists older. cbn [fst snd]. split; [exact ED|].
    split; [apply Nat.ltb_ge; exact EL|exact EV].
  Qed.
  Variable dfom : Z -> S -> S -> Rf -> B -> option Jf -> Y -> list Y -> W -> outcome unit * (Rf * option Jf * W).
  Variable phi : B.
  Variables (Rd : Z -> S -> S -> Y -> list Y -> Rf) (Jd : Z -> S -> S -> Y -> list Y -> Jf).
  Hypothesis Hd : dfom_is dfom phi Rd Jd.

  Lemma lspg_discrete_values step t dt r Jo y older w r' j' w' :
    lspg_discrete dfom phi step t dt r Jo y older w = (Ok tt, (r', j', w')) ->
    r' = Rd step t dt y older /\ j' = option_map (fun _ => Jd step t dt y older) Jo.
  Proof.
    cbv [lspg_discrete]. destruct (dfom step t dt r phi Jo y older w) as [e [[r1 j1] w1]] eqn:E.
    intros H. injection H as He <- <- <-.
    destruct e as [[]|x|b|]; [|destruct x; discriminate He|discriminate He|discriminate He].
    destruct (Hd _ _ _ _ _ _ _ _ _ _ _ E) as [-> HJ]. split; [reflexivity|].
    destruct Jo as [j|]; [|reflexivity]. rewrite (HJ j eq_refl). reflexivity.
  Qed.
  Variables (proj_R : S -> Rf -> R -> W -> outcome unit * (R * W)) (proj_J : S -> Jf -> J -> W -> outcome unit * (J * W)).
  Variables (P : S -> Rf -> R) (PJ : S -> Jf -> J).
  Hypotheses (HP : proj_is proj_R P) (HPJ : proj_is proj_J PJ).
  Lemma galerkin_discrete_values step t dt r Jo y older q r' j' q' :
    galerkin_discrete dfom phi proj_R proj_J step t dt r Jo y older q = (Ok tt, (r', j', q')) ->
    r' = P t (Rd step t dt y older) /\ j' = option_map (fun _ => PJ t (Jd step t dt y older)) Jo.
  Proof.
    destruct q as [[fr fj] w]. cbv [galerkin_discrete].
    destruct (dfom step t dt fr phi (match Jo with Some _ => Some fj | None => None end) y older w)
      as [e [[fr1 fjo] w1]] eqn:E.
    destruct e as [[]|x|b|]; [|destruct x; discriminate|discriminate|discriminate].
    destruct (Hd _ _ _ _ _ _ _ _ _ _ _ E) as [-> HJ].
    destruct (proj_R t (Rd step t dt y older) r w1) as [e1 [r1 w2]] eqn:E1.
    destruct e1 as [[]|x|b|]; try (destruct Jo; discriminate).
    pose proof (HP _ _ _ _ _ _ E1) as ->.
    destruct Jo as [j|]; cbn [option_map].
    - rewrite (HJ fj eq_refl). cbn [mask].
      destruct (proj_J t (Jd step t dt y older) j w2) as [e2 [j2 w3]] eqn:E2.
      intros H. injection H as -> <- <- _. rewrite (HPJ _ _ _ _ _ _ E2). split; reflexivity.
    - intros H. injection H as <- <- _. split; reflexivity.
  Qed.
End Once.

Lemma projections_are {S X J B Rf Jf W} (o : sops S) (xo : vops S X) (jo : vops S J) (phi : B)
  (HX : vspace o xo) (HJ : vspace o jo)
  (proj_R : S -> Rf -> X -> W -> outcome unit * (X * W)) (proj_J : S -> Jf -> J -> W -> outcome unit * (J * W)) P PJ :
  projections o xo jo phi proj_R proj_J P PJ -> proj_is proj_R P /\ proj_is proj_J PJ.
Proof.
  intros H. destruct H as [prodv prodj T TJ HT HTJ|h H HJ' H1 H2]; [|split; assumption]. split.
  - intros t a x w x' w' E. injection E as <- _. apply (prod_1_0 o phi xo prodv T); assumption.
  - intros t a x w x' w' E. injection E as <- _. apply (prod_1_0 o phi jo prodj TJ); assumption.
Qed.

(** * When the FOM fails *)
Section Failures.
  Context {S X Y Rf Jf R J B W : Type}.
  Lemma lspg_discrete_fails (dfom : Z -> S -> S -> R -> B -> option J -> Y -> list Y -> W -> outcome unit * (R * option J * W))
    phi step t dt r Jo y older w e r1 j1 w1 :
    dfom step t dt r phi Jo y older w = (e, (r1, j1, w1)) ->
    fst (lspg_discrete dfom phi step t dt r Jo y older w) = as_residual_failure e /\
    snd (snd (lspg_discrete dfom phi step t dt r Jo y older w)) = w1.
  Proof. intros E. cbv [lspg_discrete]. rewrite E. split; reflexivity. Qed.
  Lemma galerkin_discrete_fails
    (dfom : Z -> S -> S -> Rf -> B -> option Jf -> Y -> list Y -> W -> outcome unit * (Rf * option Jf * W)) phi
    proj_R proj_J step t dt (r : R) (Jo : option J) y older fr fj w e fr1 j1 w1 :
    dfom step t dt fr phi (option_map (fun _ => fj) Jo) y older w = (e, (fr1, j1, w1)) -> e <> Ok tt ->
    exists fj1, galerkin_discrete dfom phi proj_R proj_J step t dt r Jo y older (fr, fj, w)
      = (as_residual_failure e, (r, Jo, (fr1, fj1, w1))).
  Proof.
    intros E He. cbv [galerkin_discrete].
    replace (match Jo with Some _ => Some fj | None => None end) with (option_map (fun _ => fj) Jo) by (destruct Jo; reflexivity).
    rewrite E. destruct e as [[]|x|b|]; [congruence| | |]; eexists; reflexivity.
  Qed.
  Variable recon : X -> Y.
  Lemma fd_fails {Q} n (ev : Z -> S -> S -> R -> option J -> Y -> list Y -> Q -> outcome unit * (R * option J * Q))
    step t dt r Jo x st h q h' older e r' j' q' :
    reconstruct recon x st step h = (Ok tt, h') -> fh_data h' = recon x :: older -> (n - 1 <= length older)%nat ->
    ev step t dt r Jo (recon x) (firstn (n - 1) older) q = (e, (r', j', q')) ->
    fd_system recon n ev step t dt r Jo x st (h, q) = (e, (r', j', (h', q'))).
  Proof.
    intros E ED EL EV. cbv [fd_system]. cbn [fst snd]. rewrite E, ED.
    replace (length older <? n - 1)%nat with false by (symmetry; apply Nat.ltb_ge; exact EL). rewrite EV. reflexivity.
  Qed.
End Failures.

(** * Trajectories *)
Lemma certified_rj_run {V R J Ws G} (rj : V -> R -> option J -> G -> outcome unit * (R * option J * G))
  (Acc : R -> option J -> Prop) (rho : V -> R -> option J -> Prop)
  (Hrho : forall y r j g r' j' g', rj y r j g = (Ok tt, (r', j', g')) -> rho y r' j') :
  forall (s : sol V R J Ws) ok y0 ws0 g y1 ws1 g1,
  certified_rj Acc ok s -> run_solver rj s y0 ws0 g = (Ok tt, (y1, ws1, g1)) ->
  ok y1 \/ exists r j, rho y1 r j /\ Acc r j.
Proof.
  induction s as [e y ws|y r0 j k IH]; intros ok y0 ws0 g y1 ws1 g1 H E.
  - cbn in *. injection E as -> -> _ _. left. exact H.
  - cbn in E, H. destruct (rj y r0 j g) as [e [[r' j'] g']] eqn:EJ.
    destruct e as [[]|v|v|].
    + destruct (IH (Ok tt) r' j' _ _ _ _ _ _ _ (H (Ok tt) r' j') E) as [[[-> A]|K]|K].
      * right. exists r', j'. split; [eapply Hrho; exact EJ|exact A].
      * left. exact K.
      * right. exact K.
    + exact (IH (Throw v) r' j' _ _ _ _ _ _ _ (H (Throw v) r' j') E).
    + discriminate.
    + discriminate.
Qed.

(** The problem's values *)
Definition gives {S X R J Q} (problem : list X -> prun S X -> S -> X -> R -> option J -> Q -> outcome unit * (R * option J * Q))
  (res : list X -> S -> S -> X -> R) (jac : list X -> S -> S -> X -> J) : Prop :=
  forall tape t x_n hist dt x r Jo q r' j' q',
  problem tape (mk_prun t (x_n :: hist)) dt x r Jo q = (Ok tt, (r', j', q')) ->
  r' = res (x_n :: hist) t dt x /\ j' = option_map (fun _ => jac (x_n :: hist) t dt x) Jo.

Section Gives.
  Context {S X Y W : Type} (o : sops S) (recon : X -> Y).
  Section Fom.
    Context {R J B : Type}.
    Variable fom : sfom (S:=S) (Y:=Y) (R:=R) (J:=J) (B:=B) (W:=W).
    Variables (f : Y -> S -> R) (df : Y -> B -> S -> J) (phi : B).
    Hypothesis Hf : fom_is fom f df.
    Lemma seen_fom_gives (res : R -> W -> outcome unit * (R * W)) (jac : J -> W -> outcome unit * (J * W)) (Rs : R -> R) (Js : J -> J)
      y t r Jo w r' j' w' :
      seen_fom fom phi res jac y t r Jo w = (Ok tt, (r', j', w')) ->
      (forall a w r' w', res a w = (Ok tt, (r', w')) -> r' = Rs a) ->
      (forall a w j' w', jac a w = (Ok tt, (j', w')) -> j' = Js a) ->
      r' = Rs (f y t) /\ j' = option_map (fun _ => Js (df y phi t)) Jo.
    Proof.
      intros H HR HJ. revert H. cbv [seen_fom]. destruct Hf as [Hf1 Hf2].
      destruct (fo_rhs fom y t r w) as [e [f1 w1]] eqn:E. destruct e as [[]|x|b|]; try discriminate.
      rewrite (Hf1 _ _ _ _ _ _ E). clear E f1. destruct (res (f y t) w1) as [e2 [r2 w2]] eqn:E2.
      destruct e2 as [[]|x|b|]; try discriminate. pose proof (HR _ _ _ _ E2) as ->.
      destruct Jo as [j|]; cbn [option_map].
      - destruct (fo_jac fom y phi t j w2) as [e3 [j3 w3]] eqn:E3. destruct e3 as [[]|x|b|]; try discriminate.
        rewrite (Hf2 _ _ _ _ _ _ _ E3). destruct (jac (df y phi t) w3) as [e4 [j4 w4]] eqn:E4.
        intros H. injection H as -> <- <- _. rewrite (HJ _ _ _ _ E4). split; reflexivity.
      - intros H. injection H as <- <- _. split; reflexivity.
    Qed.
  End Fom.
  Section Default.
    Context {J : Type} (yo : vops S Y) (jo : vops S J).
    Variable fom : sfom (S:=S) (Y:=Y) (R:=Y) (J:=J) (B:=J) (W:=W).
    Variables (f : Y -> S -> Y) (df : Y -> J -> S -> J) (phi : J).
    Hypothesis Hf : fom_is fom f df.
    Lemma default_gives1 :
      gives (problem_one o recon (lspg_one o yo jo fom phi)) (lspg_res o yo recon f BDF1) (lspg_jacobian o jo recon df phi BDF1).
    Proof.
      intros tape t x_n hist dt x r Jo q r' j' q'. cbv [problem_one lspg_one]. cbn [r_hist r_t]. intros E.
      destruct (seen_fom_gives fom f df phi Hf _ _ (fun v => bdf1_R o yo (recon x_n) dt v (recon x))
                  (scheme_J o jo phi (s1 o) dt) _ _ _ _ _ _ _ _ E
                  ltac:(intros a w r1 w1 H; injection H as <- _; reflexivity)
                  ltac:(intros a w r1 w1 H; injection H as <- _; reflexivity)) as [-> ->].
      split; reflexivity.
    Qed.
    Lemma default_gives2 :
      gives (problem_two o recon (lspg_one o yo jo fom phi) (lspg_two o yo jo fom phi)) (lspg_res o yo recon f BDF2)
            (lspg_jacobian o jo recon df phi BDF2).
    Proof.
      intros tape t x_n hist dt x r Jo q r' j' q'. destruct hist as [|x_nm1 hist].
      - intros E. exact (default_gives1 tape t x_n [] dt x r Jo q r' j' q' E).
      - cbv [problem_two lspg_two]. cbn [r_hist r_t]. intros E.
        destruct (seen_fom_gives fom f df phi Hf _ _ (fun v => bdf2_R o yo (recon x_n) (recon x_nm1) dt v (recon x))
                    (scheme_J o jo phi (frac o 2 3) dt) _ _ _ _ _ _ _ _ E
                    ltac:(intros a w r1 w1 H; injection H as <- _; reflexivity)
                    ltac:(intros a w r1 w1 H; injection H as <- _; reflexivity)) as [-> ->].
        split; reflexivity.
    Qed.
  End Default.
  Section HypRed.
    Context {R J B : Type} (yo : vops S Y).
    Variable fom : sfom (S:=S) (Y:=Y) (R:=R) (J:=J) (B:=B) (W:=W).
    Variables (f : Y -> S -> R) (df : Y -> B -> S -> J) (phi : B).
    Variable up : updater (S:=S) (Y:=Y) (R:=R) (J:=J) (B:=B) (W:=W).
    Variables (U : R -> S -> Y -> S -> R) (UJ : J -> S -> B -> S -> J).
    Hypotheses (Hf : fom_is fom f df) (Hu : updater_is up U UJ).
    Lemma hypred_gives1 :
      gives (problem_one o recon (hypred_one o yo fom phi up)) (hypred_res o yo recon f U BDF1) (hypred_jacobian o recon df phi UJ BDF1).
    Proof.
      intros tape t x_n hist dt x r Jo q r' j' q'. cbv [problem_one hypred_one]. cbn [r_hist r_t]. intros E.
      destruct Hu as [Hu1 Hu2].
      destruct (seen_fom_gives fom f df phi Hf _ _ (fun v => U v (sopp o dt) (vminus o yo (recon x) (recon x_n)) (s1 o))
                  (fun j => UJ j (sopp o dt) phi (s1 o)) _ _ _ _ _ _ _ _ E
                  ltac:(intros a w r1 w1 H; exact (Hu1 _ _ _ _ _ _ _ H))
                  ltac:(intros a w r1 w1 H; exact (Hu2 _ _ _ _ _ _ _ H))) as [-> ->].
      split; reflexivity.
    Qed.
    Lemma hypred_gives2 :
      gives (problem_two o recon (hypred_one o yo fom phi up) (hypred_two o yo fom phi up)) (hypred_res o yo recon f U BDF2)
            (hypred_jacobian o recon df phi UJ BDF2).
    Proof.
      intros tape t x_n hist dt x r Jo q r' j' q'. destruct hist as [|x_nm1 hist].
      - intros E. exact (hypred_gives1 tape t x_n [] dt x r Jo q r' j' q' E).
      - cbv [problem_two hypred_two]. cbn [r_hist r_t]. intros E. destruct Hu as [Hu1 Hu2].
        destruct (seen_fom_gives fom f df phi Hf _ _
                    (fun v => U v (sopp o (smul o (frac o 2 3) dt))
         (vadd yo (vminus o yo (recon x) (vscale yo (frac o 4 3) (recon x_n))) (vscale yo (frac o 1 3) (recon x_nm1))) (s1 o))
                    (fun j => UJ j (sopp o (smul o (frac o 2 3) dt)) phi (s1 o)) _ _ _ _ _ _ _ _ E
                    ltac:(intros a w r1 w1 H; exact (Hu1 _ _ _ _ _ _ _ H))
                    ltac:(intros a w r1 w1 H; exact (Hu2 _ _ _ _ _ _ _ H))) as [-> ->].
        split; reflexivity.
    Qed.
  End HypRed.
  Lemma masked_gives {Ru Ju R J} problem res jac (m : masker (Ru:=Ru) (Ju:=Ju) (R:=R) (J:=J) (W:=W)) K KJ :
    mask_is m K KJ -> gives problem res jac ->
    gives (S:=S) (X:=X) (masked_problem problem m) (masked_at K res) (masked_at KJ jac).
  Proof.
    intros [HK HKJ] HG tape t x_n hist dt x r Jo [[ru ju] w] r' j' q'. cbv [masked_problem then_mask masked_at].
    destruct (problem tape (mk_prun t (x_n :: hist)) dt x ru (Some ju) w) as [e [[ru1 jo1] w1]] eqn:E.
    destruct e as [[]|v|b|]; try discriminate. destruct (HG _ _ _ _ _ _ _ _ _ _ _ _ E) as [-> ->]. cbn [option_map].
    destruct (mk_R m (res (x_n :: hist) t dt x) r w1) as [e2 [r2 w2]] eqn:E2.
    destruct e2 as [[]|v|b|]; try (destruct Jo; discriminate). pose proof (HK _ _ _ _ _ E2) as ->.
    destruct Jo as [j|]; cbn [option_map].
    - destruct (mk_J m (jac (x_n :: hist) t dt x) j w2) as [e3 [j3 w3]] eqn:E3.
      intros H. injection H as -> <- <- _. rewrite (HKJ _ _ _ _ _ E3). split; reflexivity.
    - intros H. injection H as <- <- _. split; reflexivity.
  Qed.
  Lemma scaled_gives {R J} problem res jac (scaler : Y -> S -> R -> option J -> W -> outcome unit * (R * option J * W)) Sc ScJ :
    scaler_is scaler Sc ScJ -> gives problem res jac ->
    gives (S:=S) (X:=X) (scaled_problem o recon problem scaler) (scaled_at o recon Sc res) (scaled_at o recon ScJ jac).
  Proof.
    intros HS HG tape t x_n hist dt x r Jo w r' j' q'. cbv [scaled_problem then_scale scaled_at]. cbn [r_t].
    destruct (problem tape (mk_prun t (x_n :: hist)) dt x r Jo w) as [e [[r1 j1] w1]] eqn:E.
    destruct e as [[]|v|b|]; try discriminate. destruct (HG _ _ _ _ _ _ _ _ _ _ _ _ E) as [-> ->].
    destruct (scaler (recon x) (sadd o t dt) (res (x_n :: hist) t dt x) (option_map (fun _ => jac (x_n :: hist) t dt x) Jo) w1)
      as [e2 [[r2 j2] w2]] eqn:E2.
    intros H. injection H as -> <- <- _. destruct (HS _ _ _ _ _ _ _ _ E2) as [-> HJ]. split; [reflexivity|].
    destruct Jo as [j|]; cbn [option_map mask]; [|reflexivity]. rewrite (HJ _ eq_refl). reflexivity.
  Qed.
  Section Discrete.
    Context {Rf Jf R J B : Type} (z : Y) (three : bool).
    Lemma discrete_gives {Q} (ev : Z -> S -> S -> R -> option J -> Y -> list Y -> Q -> outcome unit * (R * option J * Q)) F FJ :
      (forall step t dt r Jo y older q r' j' q', ev step t dt r Jo y older q = (Ok tt, (r', j', q')) ->
         r' = F step t dt y older /\ j' = option_map (fun _ => FJ step t dt y older) Jo) ->
      gives (problem_discrete o recon ev z three) (discrete_at o recon z three F) (discrete_at o recon z three FJ).
    Proof.
      intros HE tape t x_n hist dt x r Jo q r' j' q'. cbv [problem_discrete]. cbn [r_hist r_t].
      destruct (ev (Z.of_nat (length (x_n :: hist))) (sadd o t dt) dt r Jo (recon x)
                  (fom_stencil recon z three (x_n :: hist)) q) as [e [[r1 j1] q1]] eqn:E.
      destruct e as [[]|v|b|]; [|destruct v; discriminate|discriminate|discriminate].
      intros H. injection H as <- <- _. destruct (HE _ _ _ _ _ _ _ _ _ _ _ E) as [-> ->]. split; [reflexivity|].
      destruct Jo; reflexivity.
    Qed.
  End Discrete.
End Gives.

Lemma run_accepts {S X R J Q Ws} (problem : list X -> prun S X -> S -> X -> R -> option J -> Q -> outcome unit * (R * option J * Q))
  res jac (Acc : R -> option J -> Prop) (s : sol X R J Ws) tape t y hist dt y0 ws q y1 ws1 q1 :
  gives problem res jac -> certified_rj Acc (fun _ => False) s ->
  run_solver (problem tape (mk_prun t (y :: hist)) dt) s y0 ws q = (Ok tt, (y1, ws1, q1)) ->
  accepted_rj Acc res jac (y :: hist) t dt y1.
Proof.
  intros HG HC E.
  assert (Hrho : forall x r j g r' j' g', problem tape (mk_prun t (y :: hist)) dt x r j g = (Ok tt, (r', j', g')) ->
    r' = res (y :: hist) t dt x /\ (j' = None \/ j' = Some (jac (y :: hist) t dt x))).
  { intros z r j g r' j' g' H. destruct (HG _ _ _ _ _ _ _ _ _ _ _ _ H) as [-> ->]. split; [reflexivity|].
    destruct j; [right|left]; reflexivity. }
  destruct (certified_rj_run _ Acc (fun x r j => r = res (y :: hist) t dt x /\
      (j = None \/ j = Some (jac (y :: hist) t dt x))) Hrho s _ _ _ _ _ _ _ HC E) as [[]|(r & j & [-> Hj] & A)].
  cbv [accepted_rj]. destruct Hj as [-> | ->]; [left|right]; exact A.
Qed.

Lemma refines_some {S V R J Ws Q G} (o : sops S) (solver : Ws -> V -> sol V R J Ws)
  (problem : list V -> prun S V -> S -> V -> R -> option J -> Q -> outcome unit * (R * option J * Q))
  (step : S -> Z -> S -> cmd G unit) (get : G -> V) Inv :
  step_refines_last o solver problem step get Inv ->
  step_refines o solver problem step get (fun rn tape g ws q => exists last, Inv last rn tape g ws q).
Proof.
  intros H t y hist tape g ws q dt (last & HI). destruct (H last t y hist tape g ws q dt HI) as (r & y1 & ws1 & q1 & g' & E1 & E2 & E3).
  exists r, y1, ws1, q1, g'. split; [exact E1|]. split; [exact E2|].
  destruct r as [[]|e|b|]; [|destruct e| |]; destruct E3 as [E3 E4]; (split; [exact E3|eexists; exact E4]).
Qed.

(** ** LSPG under the advancers *)
Section Semi.
  Context {S X Y R J Ws U Pp Q : Type} (o : sops S).
  Variable recon : X -> Y.
  Variable solver : Ws -> X -> sol X R J Ws.
  Hypothesis Hasks : asks solver.
  Variable hist_of : Pp -> fomhist (Y:=Y).
  Variable rest : Pp -> Q.
  Variable pol : policy S X R J Pp.
  Variables pr1 pr2 : list X -> prun S X -> S -> X -> R -> option J -> Q -> outcome unit * (R * option J * Q).
  Variable mkp : list Y -> Pp.
  Variable q0 : Q.
  Hypothesis Hmk : forall d, hist_of (mkp d) = mk_fomhist d (-1) /\ rest (mkp d) = q0.
  Hypothesis T1 : through o recon any false (fun a : list R * Pp => hist_of (snd a)) (fun a => rest (snd a))
                          (std_rj pol BDF1) pr1.
  Hypothesis T2 : through o recon any true (fun a : list R * Pp => hist_of (snd a)) (fun a => rest (snd a))
                          (std_rj pol BDF2) pr2.
  Variables (res : scheme -> list X -> S -> S -> X -> R) (jac : scheme -> list X -> S -> S -> X -> J).
  Hypotheses (G1 : gives pr1 (res BDF1) (jac BDF1)) (G2 : gives pr2 (res BDF2) (jac BDF2)).
  Variable Acc : R -> option J -> Prop.
  Hypothesis HA : forall ws y, certified_rj Acc (fun _ => False) (solver ws y).
  Variable obs : Z -> S -> X -> U -> outcome unit * U.
  Variables (name : scheme) (cs : X) (cr : R) (zero : Y) (x0 : X) (ws : Ws) (g0 : @sst S X R Pp Ws).
  Hypothesis E : lspg_create o name cs cr zero mkp x0 ws = Ok g0.

  Lemma semi_case (C : scheme -> Prop) : C BDF1 -> C BDF2 -> C name.
  Proof. destruct name; intros; try discriminate E; assumption. Qed.
  Lemma semi_inv_ws start y0 :
    exists last,
       inv_lspg recon any hist_of rest (match name with BDF1 => false | _ => true end) last
      (Some (mk_prun start [y0])) [] (put_ode y0 g0) ws q0.
  Proof.
    exists (-1).
    destruct (Hmk [zero; zero]) as [A1 A2]. destruct (Hmk [zero; zero; zero]) as [B1 B2].
    destruct name; try discriminate E; injection E as <-; cbv [inv_lspg put_ode]; cbn [t_ws t_p t_st t_y repeat r_hist].
    - rewrite A1, A2. split; [reflexivity|]. split; [reflexivity|]. split; [eexists _, _; reflexivity|].
      split; [exists []; reflexivity|]. split; [reflexivity|].
      apply hinv_start; [eexists _, _; reflexivity|cbn; lia|intros; exact I].
    - rewrite B1, B2. split; [reflexivity|]. split; [reflexivity|]. split; [eexists _, _, _; reflexivity|].
      split; [exists []; reflexivity|]. split; [reflexivity|].
      apply hinv_start; [eexists _, _, _; reflexivity|cbn; lia|intros; exact I].
  Qed.
  Lemma semi_inv start y0 :
    exists tape ws q, (fun rn tape g ws q => exists last,
       inv_lspg recon any hist_of rest (match name with BDF1 => false | _ => true end) last rn tape g ws q)
      (Some (mk_prun start [y0])) tape (put_ode y0 g0) ws q.
  Proof. exists [], ws, q0. apply semi_inv_ws. Qed.
  Lemma semi_refines :
    step_refines o solver (by_scheme name pr1 pr2) (implicit_step o pol solver name) t_y
      (fun rn tape g ws q => exists last,
         inv_lspg recon any hist_of rest (match name with BDF1 => false | _ => true end) last rn tape g ws q).
  Proof.
    apply refines_some. destruct name; try discriminate E.
    - apply one_state_refines; assumption.
    - apply two_states_refines; assumption.
  Qed.
  Lemma semi_accepts tape t y hist dt ws' q y1 ws1 q1 :
    run_solver (by_scheme name pr1 pr2 (y :: tape) (mk_prun t (y :: hist)) dt) (solver ws' y) y ws' q
      = (Ok tt, (y1, ws1, q1)) -> accepted_rj Acc (res name) (jac name) (y :: hist) t dt y1.
  Proof.
    destruct name; try discriminate E; cbn [by_scheme]; intros ER.
    - eapply run_accepts; [exact G1|apply HA|exact ER].
    - eapply run_accepts; [exact G2|apply HA|exact ER].
  Qed.
  Lemma semi_n_steps pl num start y0 w y' g' w' tr : Z.of_nat num < int32_max ->
    advance_n_steps o (mk_user (split_obs obs) (pol3 (split_pol pl)) noop_guess
        (split_step (implicit_fn (implicit_step o pol solver name))))
      (Z.of_nat num) start (y0, (g0, w), []) = (Ok tt, (y', (g', w'), tr)) ->
    exists t' d' l, length l = num /\
      linked_from (sadd o) (accepted_rj Acc (res name) (jac name)) start y0 ((t', d', y') :: l) /\
      reports tr = numbered ((t', d', y') :: l).
  Proof.
    intros Hn ER.
    eapply (linked_n_steps o solver _ (implicit_step o pol solver name) put_ode t_y _ put_ode_get semi_refines);
      [intros; eapply semi_accepts; eassumption|apply semi_inv|exact Hn|exact ER].
  Qed.
  Hypothesis HE : forall ws y, ends (fun r => r <> Throw ETimeStep) (solver ws y).
  Lemma semi_target pl recovery fuel start final y0 w y' g' w' tr :
    to_target o (mk_user (split_obs obs) (split_pol pl) noop_guess
        (split_step (implicit_fn (implicit_step o pol solver name)))) recovery fuel
      start final (y0, (g0, w), []) = (Ok tt, (y', (g', w'), tr)) ->
    seqb o final start = false ->
    exists t' d' l, linked_from (sadd o) (accepted_rj Acc (res name) (jac name)) start y0 ((t', d', y') :: l) /\
      reports tr = numbered ((t', d', y') :: l).
  Proof.
    intros ER Hne.
    eapply (linked_target o solver _ (implicit_step o pol solver name) put_ode t_y _ put_ode_get semi_refines HE);
      [intros; eapply semi_accepts; eassumption|apply semi_inv|exact ER|exact Hne].
  Qed.
End Semi.

(** ** Fully discrete problems under the advancers *)
Section Discrete.
  Context {S X Y R J Q Ws U : Type} (o : sops S).
  Variable recon : X -> Y.
  Variable ev : Z -> S -> S -> R -> option J -> Y -> list Y -> Q -> outcome unit * (R * option J * Q).
  Variable solver : Ws -> X -> sol X R J Ws.
  Hypothesis Hasks : asks solver.
  Variables (F : Z -> S -> S -> Y -> list Y -> R) (FJ : Z -> S -> S -> Y -> list Y -> J).
  Hypothesis HG : forall step t dt r Jo y older q r' j' q', ev step t dt r Jo y older q = (Ok tt, (r', j', q')) ->
    r' = F step t dt y older /\ j' = option_map (fun _ => FJ step t dt y older) Jo.
  Variable Acc : R -> option J -> Prop.
  Hypothesis HA : forall ws y, certified_rj Acc (fun _ => False) (solver ws y).
  Variable obs : Z -> S -> X -> U -> outcome unit * U.
  Variable three : bool.
  Variables (cs : X) (zero : Y) (q0 : Q) (x0 : X) (ws : Ws) (g0 : @ast S X (fomhist (Y:=Y) * Q) Ws).
  Hypothesis E : discrete_create o (total three) cs zero q0 x0 ws = Ok g0.
  Notation step := (arb_step o (fd_system recon (total three) ev) solver (total three - 1)).
  Notation inv := (fun rn tape g ws q => exists last, inv_arb recon (eq zero) three (total three - 1) last rn tape g ws q).
  Lemma discrete_inv start y0 : exists tape ws q, inv (Some (mk_prun start [y0])) tape (put_arb y0 g0) ws q.
  Proof.
    exists [], ws, q0. exists (-1).
    assert (E' : g0 = mk_ast x0 (repeat cs (total three - 1)) cs (s0 o) (s0 o) 0
                   (mk_fomhist (if three then [zero; zero; zero] else [zero; zero]) (-1), q0) ws)
      by (destruct three; injection E as E'; symmetry; exact E').
    rewrite E'. cbv [inv_arb put_arb]. cbn [a_ws a_w a_st a_y fst snd fh_trk]. rewrite repeat_length.
    split; [reflexivity|]. split; [reflexivity|]. split; [reflexivity|].
    split; [exists []; reflexivity|]. split; [reflexivity|].
    cbn [r_hist length Z.of_nat]. apply (hinv_first recon (eq zero)). reflexivity.
  Qed.
  Lemma discrete_refines : step_refines o solver (problem_discrete o recon ev zero three) step a_y inv.
  Proof.
    apply refines_some. apply arb_refines_last; [exact Hasks|destruct three; cbn; auto|].
    apply through_discrete. intros H3 t1 dt r Jo y y_n a q <-. reflexivity.
  Qed.
  Notation res := (discrete_at o recon zero three F).
  Notation jac := (discrete_at o recon zero three FJ).
  Lemma discrete_n_steps pl num start y0 w y' g' w' tr : Z.of_nat num < int32_max ->
    advance_n_steps o (mk_user (split_obs obs) (pol3 (split_pol pl)) noop_guess (split_step (arb_fn step)))
      (Z.of_nat num) start (y0, (g0, w), []) = (Ok tt, (y', (g', w'), tr)) ->
    exists t' d' l, length l = num /\
      linked_from (sadd o) (accepted_rj Acc res jac) start y0 ((t', d', y') :: l) /\
      reports tr = numbered ((t', d', y') :: l).
  Proof.
    intros Hn ER.
    eapply (linked_n_steps o solver _ step put_arb a_y _ put_arb_get discrete_refines);
      [intros; eapply run_accepts; [apply discrete_gives; exact HG|apply HA|eassumption]|apply discrete_inv|exact Hn|exact ER].
  Qed.
  Hypothesis HE : forall ws y, ends (fun r => r <> Throw ETimeStep) (solver ws y).
  Lemma discrete_target pl recovery fuel start final y0 w y' g' w' tr :
    to_target o (mk_user (split_obs obs) (split_pol pl) noop_guess (split_step (arb_fn step))) recovery fuel
      start final (y0, (g0, w), []) = (Ok tt, (y', (g', w'), tr)) ->
    seqb o final start = false ->
    exists t' d' l, linked_from (sadd o) (accepted_rj Acc res jac) start y0 ((t', d', y') :: l) /\
      reports tr = numbered ((t', d', y') :: l).
  Proof.
    intros ER Hne.
    eapply (linked_target o solver _ step put_arb a_y _ put_arb_get discrete_refines HE);
      [intros; eapply run_accepts; [apply discrete_gives; exact HG|apply HA|eassumption]|apply discrete_inv|exact ER|exact Hne].
  Qed.
End Discrete.

(** Lemmas behind C34 - C36, C60, C61. *)
From Coq Require Import ZArith List Bool Lia.
From Verif Require Import Base Laws ExplicitModel ImplicitModel ImplicitSpec ImplicitProofs ImplicitRefine
  LspgModel LspgSpec LspgProofs LspgInst.
Import ListNotations.
Local Open Scope Z_scope.

Lemma no_starts_fresh {S V} (evs : list (event S V)) :
  Forall (fun e => match e with Start _ _ => False | _ => True end) evs ->
  forall last k res, fresh_starts last k evs res.
Proof.
  intros H. induction H as [|e evs He H IH]; intros last k res; [exact I|].
  destruct e as [|dt]; [destruct He|]. destruct res as [|[r y] res]; [exact I|]. cbn. apply IH.
Qed.
Lemma once_fresh {S V} (evs : list (event S V)) res k : once evs res -> fresh_starts (-1) k evs res.
Proof.
  intros (t0 & y0 & evs' & -> & H). destruct res as [|[r y] res]; [exact I|].
  cbn. split; [lia|]. apply no_starts_fresh. exact H.
Qed.
Lemma fresh_any {S V R J Ws Q} o solver problem tape ws q (evs : list (event S V)) res rn' tape' ws' q' k k' :
  @history S V R J Ws Q o solver problem None tape ws q evs res rn' tape' ws' q' ->
  fresh_starts (-1) k evs res -> fresh_starts (-1) k' evs res.
Proof. intros H. inversion H; subst; intros HF; [exact I|exact HF]. Qed.

(** ** Semi-discrete problems *)
Section Semi.
  Context {S X Y R J Ws : Type} (o : sops S).
  Variable recon : X -> Y.
  Variable solver : Ws -> X -> sol X R J Ws.
  Hypothesis Hasks : asks solver.
  Context {Pp Q : Type}.
  Variable hist_of : Pp -> fomhist (Y:=Y).
  Variable rest : Pp -> Q.
  Variable pol : policy S X R J Pp.
  Variables pr1 pr2 : list X -> prun S X -> S -> X -> R -> option J -> Q -> outcome unit * (R * option J * Q).
  Variable mkp : list Y -> Pp.
  Variable q0 : Q.
  Hypothesis Hmk : forall d, hist_of (mkp d) = mk_fomhist d (-1) /\ rest (mkp d) = q0.
  Hypothesis T1 : through o recon any false (fun a : list R * Pp => hist_of (snd a)) (fun a => rest (snd a))
                          (std_rj pol BDF1) pr1.
  Hypothesis T2 : through o recon any true (fun a : list R * Pp => hist_of (snd a)) (fun a => rest (snd a))
                          (std_rj pol BDF2) pr2.
  Variable may : list (event S X) -> list (outcome unit * X) -> Prop.
  Hypothesis Hmay : forall evs res, may evs res -> once evs res \/ after_step_2 evs res.
  Lemma semi_reproduces name cs cr zero x0 ws g :
    lspg_create o name cs cr zero mkp x0 ws = Ok g ->
    reproduces o solver (by_scheme name pr1 pr2) (implicit_step o pol solver name) put_ode t_y t_ws
               (fun g => rest (t_p g)) may g ws q0.
  Proof.
    intros E evs res rn' tape' ws' q' t k H HS.
    apply (lspg_history o recon hist_of rest pol solver Hasks pr1 pr2 mkp q0 Hmk T1 T2 name cs cr zero x0 ws g E)
      with (1 := H).
    destruct (Hmay _ _ HS) as [HS'|HS'].
    - apply once_fresh. exact HS'.
    - eapply fresh_any; [exact H|exact HS'].
  Qed.
End Semi.


Section Kinds.
  Context {S X Y Ws W : Type} (o : sops S) (yo : vops S Y).
  Variable recon : X -> Y.
  Hypotheses (HF : sfield o) (HC : schar0 o) (HY : vspace o yo).
  Variable w0 : W.
  Variable may : list (event S X) -> list (outcome unit * X) -> Prop.
  Hypothesis Hmay : forall evs res, may evs res -> once evs res \/ after_step_2 evs res.

  Section Default.
    Context {J : Type} (jo : vops S J) (HJ : vspace o jo).
    Variable fom : sfom (S:=S) (Y:=Y) (R:=Y) (J:=J) (B:=J) (W:=W).
    Variable phi : J.
    Notation one := (problem_one o recon (lspg_one o yo jo fom phi)).
    Notation two := (problem_two o recon (lspg_one o yo jo fom phi) (lspg_two o yo jo fom phi)).
    Notation pol := (default_policy o yo jo recon fom phi).
    Lemma T_default1 : through o recon any false (fun a => lp_h (snd a)) (fun a => lp_w (snd a)) (std_rj pol BDF1) one.
    Proof. apply through_one. intros. apply default_one; assumption. Qed.
    Lemma T_default2 : through o recon any true (fun a => lp_h (snd a)) (fun a => lp_w (snd a)) (std_rj pol BDF2) two.
    Proof. apply through_two; intros; [apply default_one|apply default_two]; assumption. Qed.

    Variable solver : Ws -> X -> sol X Y J Ws.
    Hypothesis Hasks : asks solver.
    Lemma default_reproduces name cs cr zero x0 ws g :
      lspg_create o name cs cr zero (fresh_policy w0) x0 ws = Ok g ->
      let step := implicit_step o pol solver name in
      reproduces o solver (by_scheme name one two) step put_ode t_y t_ws rest_of_lspg may g ws w0.
    Proof.
      apply (semi_reproduces o recon solver Hasks lp_h lp_w pol one two (fresh_policy w0) w0);
        try exact Hmay.
      - intros d. split; reflexivity.
      - apply T_default1.
      - apply T_default2.
    Qed.
    Variable scaler : Y -> S -> Y -> option J -> W -> outcome unit * (Y * option J * W).
    Lemma scaled_reproduces name cs cr zero x0 ws g :
      lspg_create o name cs cr zero (fresh_policy w0) x0 ws = Ok g ->
      let step := implicit_step o (scaled_policy pol scaler) solver name in
      let problem := by_scheme name (scaled_problem o recon one scaler) (scaled_problem o recon two scaler) in
      reproduces o solver problem step put_ode t_y t_ws rest_of_lspg may g ws w0.
    Proof.
      apply (semi_reproduces o recon solver Hasks lp_h lp_w _ (scaled_problem o recon one scaler)
               (scaled_problem o recon two scaler) (fresh_policy w0) w0);
        try exact Hmay.
      - intros d. split; reflexivity.
      - apply through_scaled, T_default1.
      - apply through_scaled, T_default2.
    Qed.
  End Default.

  Section Masked.
    Context {J R Jm : Type} (jo : vops S J) (HJ : vspace o jo).
    Variable fom : sfom (S:=S) (Y:=Y) (R:=Y) (J:=J) (B:=J) (W:=W).
    Variable phi : J.
    Variable m : masker (Ru:=Y) (Ju:=J) (R:=R) (J:=Jm) (W:=W).
    Variable solver : Ws -> X -> sol X R Jm Ws.
    Hypothesis Hasks : asks solver.
    Notation one := (problem_one o recon (lspg_one o yo jo fom phi)).
    Notation two := (problem_two o recon (lspg_one o yo jo fom phi) (lspg_two o yo jo fom phi)).
    Notation pol := (default_policy o yo jo recon fom phi).
    Lemma masked_reproduces name cs cr zero ru ju x0 ws g :
      lspg_create o name cs cr zero (fresh_masked ru ju w0) x0 ws = Ok g ->
      let step := implicit_step o (masked_policy pol m) solver name in
      let problem := by_scheme name (masked_problem one m) (masked_problem two m) in
      reproduces o solver problem step put_ode t_y t_ws rest_of_masked may g ws (ru, ju, w0).
    Proof.
      apply (semi_reproduces o recon solver Hasks mk_hist mk_rest _ (masked_problem one m)
               (masked_problem two m) (fresh_masked ru ju w0) (ru, ju, w0));
        try exact Hmay.
      - intros d. split; reflexivity.
      - apply through_masked, T_default1; assumption.
      - apply through_masked, T_default2; assumption.
    Qed.
  End Masked.

  Section HypRed.
    Context {R J B : Type}.
    Variable fom : sfom (S:=S) (Y:=Y) (R:=R) (J:=J) (B:=B) (W:=W).
    Variable phi : B.
    Variable up : updater (S:=S) (Y:=Y) (R:=R) (J:=J) (B:=B) (W:=W).
    Notation one := (problem_one o recon (hypred_one o yo fom phi up)).
    Notation two := (problem_two o recon (hypred_one o yo fom phi up) (hypred_two o yo fom phi up)).
    Notation pol := (hypred_policy o yo recon fom phi up).
    Lemma T_hypred1 : through o recon any false (fun a => lp_h (snd a)) (fun a => lp_w (snd a)) (std_rj pol BDF1) one.
    Proof. apply through_one. intros. apply hypred_one_eq; assumption. Qed.
    Lemma T_hypred2 : through o recon any true (fun a => lp_h (snd a)) (fun a => lp_w (snd a)) (std_rj pol BDF2) two.
    Proof. apply through_two; intros; [apply hypred_one_eq|apply hypred_two_eq]; assumption. Qed.
    Variable solver : Ws -> X -> sol X R J Ws.
    Hypothesis Hasks : asks solver.
    Lemma hypred_reproduces name cs cr zero x0 ws g :
      lspg_create o name cs cr zero (fresh_policy w0) x0 ws = Ok g ->
      let step := implicit_step o pol solver name in
      reproduces o solver (by_scheme name one two) step put_ode t_y t_ws rest_of_lspg may g ws w0.
    Proof.
      apply (semi_reproduces o recon solver Hasks lp_h lp_w pol one two (fresh_policy w0) w0);
        try exact Hmay.
      - intros d. split; reflexivity.
      - apply T_hypred1.
      - apply T_hypred2.
    Qed.
    Variable scaler : Y -> S -> R -> option J -> W -> outcome unit * (R * option J * W).
    Lemma scaled_hypred_reproduces name cs cr zero x0 ws g :
      lspg_create o name cs cr zero (fresh_policy w0) x0 ws = Ok g ->
      let step := implicit_step o (scaled_policy pol scaler) solver name in
      let problem := by_scheme name (scaled_problem o recon one scaler) (scaled_problem o recon two scaler) in
      reproduces o solver problem step put_ode t_y t_ws rest_of_lspg may g ws w0.
    Proof.
      apply (semi_reproduces o recon solver Hasks lp_h lp_w _ (scaled_problem o recon one scaler)
               (scaled_problem o recon two scaler) (fresh_policy w0) w0);
        try exact Hmay.
      - intros d. split; reflexivity.
      - apply through_scaled, T_hypred1.
      - apply through_scaled, T_hypred2.
    Qed.
  End HypRed.
End Kinds.

(** ** Fully discrete problems *)
Section Discrete.
  Context {S X Y R J Q Ws : Type} (o : sops S).
  Variable recon : X -> Y.
  Variable ev : Z -> S -> S -> R -> option J -> Y -> list Y -> Q -> outcome unit * (R * option J * Q).
  Variable ev' : Z -> S -> S -> R -> option J -> Y -> list Y -> Q -> outcome unit * (R * option J * Q).
  Hypothesis Hev : forall step t dt r Jo y older q,
    looks Jo (ev step t dt r Jo y older q) = looks Jo (ev' step t dt r Jo y older q).
  Variable solver : Ws -> X -> sol X R J Ws.
  Hypothesis Hasks : asks solver.
  Variable three : bool.
  Variables (cs : X) (zero : Y) (q0 : Q) (x0 : X) (ws : Ws) (g : @ast S X (fomhist (Y:=Y) * Q) Ws).
  Hypothesis E : discrete_create o (total three) cs zero q0 x0 ws = Ok g.
  Notation step := (arb_step o (fd_system recon (total three) ev) solver (total three - 1)).
  Lemma discrete_once :
    reproduces o solver (problem_discrete o recon ev' zero three) step put_arb a_y a_ws rest_of_discrete once g ws q0.
  Proof.
    intros evs res rn' tape' ws' q' t k H HS.
    apply (discrete_history o recon ev solver Hasks ev' Hev zero three cs zero x0 q0 ws g E) with (1 := H).
    right. split; [reflexivity|exact HS].
  Qed.
  Lemma discrete_fresh z : (three = true -> ignores_older ev) ->
    reproduces o solver (problem_discrete o recon ev' z three) step put_arb a_y a_ws rest_of_discrete after_step_2 g ws q0.
  Proof.
    intros HI evs res rn' tape' ws' q' t k H HS.
    apply (discrete_history o recon ev solver Hasks ev' Hev z three cs zero x0 q0 ws g E) with (1 := H).
    left. split; [exact HI|]. eapply fresh_any; [exact H|exact HS].
  Qed.
End Discrete.
Lemma lspg_discrete_looks {S Y R J B W}
  (dfom : Z -> S -> S -> R -> B -> option J -> Y -> list Y -> W -> outcome unit * (R * option J * W)) phi step t dt r Jo y older w :
  looks Jo (lspg_discrete dfom phi step t dt r Jo y older w) = looks Jo (fom_asked dfom phi step t dt r Jo y older w).
Proof.
  cbv [lspg_discrete fom_asked looks]. destruct (dfom step t dt r phi Jo y older w) as [e [[r' j'] w']]. cbv [discrete_to_residual].
  f_equal; [destruct e as [|x| |]; [|destruct x| |]; reflexivity|].
  do 2 f_equal. destruct Jo as [j|]; [|reflexivity]. destruct j'; reflexivity.
Qed.
Lemma galerkin_discrete_looks {S Y Rf Jf R J B W}
  (dfom : Z -> S -> S -> Rf -> B -> option Jf -> Y -> list Y -> W -> outcome unit * (Rf * option Jf * W)) phi
  (proj_R : S -> Rf -> R -> W -> outcome unit * (R * W)) (proj_J : S -> Jf -> J -> W -> outcome unit * (J * W))
  step t dt r Jo y older q :
  looks Jo (galerkin_discrete dfom phi proj_R proj_J step t dt r Jo y older q)
  = looks Jo (then_project proj_R proj_J (fom_asked dfom phi) step t dt r Jo y older q).
Proof.
  destruct q as [[fr fj] w]. cbv [galerkin_discrete then_project fom_asked].
  replace (option_map (fun _ => fj) Jo) with (match Jo with Some _ => Some fj | None => None end) by (destruct Jo; reflexivity).
  destruct (dfom step t dt fr phi (match Jo with Some _ => Some fj | None => None end) y older w) as [e [[fr1 jo1] w1]].
  assert (EJ : match mask (match Jo with Some _ => Some fj | None => None end) jo1 with Some j => j | None => fj end
             = match Jo, jo1 with Some _, Some j => j | _, _ => fj end)
    by (destruct Jo; [destruct jo1|]; reflexivity).
  rewrite EJ. destruct e as [|x| |]; [reflexivity|destruct x; reflexivity|reflexivity|reflexivity].
Qed.
Lemma lspg_ignores {S Y R J B W}
  (dfom : Z -> S -> S -> R -> B -> option J -> Y -> list Y -> W -> outcome unit * (R * option J * W)) phi :
  ignores_older (fom_asked dfom phi) -> ignores_older (lspg_discrete dfom phi).
Proof. intros H t dt r Jo y y_n a b w. cbv [lspg_discrete]. pose proof (H t dt r Jo y y_n a b w) as E. cbv [fom_asked] in E. rewrite E. reflexivity. Qed.
Lemma galerkin_ignores {S Y Rf Jf R J B W}
  (dfom : Z -> S -> S -> Rf -> B -> option Jf -> Y -> list Y -> W -> outcome unit * (Rf * option Jf * W)) phi
  (proj_R : S -> Rf -> R -> W -> outcome unit * (R * W)) (proj_J : S -> Jf -> J -> W -> outcome unit * (J * W)) :
  ignores_older (fom_asked dfom phi) -> ignores_older (galerkin_discrete dfom phi proj_R proj_J).
Proof.
  intros H t dt r Jo y y_n a b [[fr fj] w]. cbv [galerkin_discrete].
  pose proof (H t dt fr (match Jo with Some _ => Some fj | None => None end) y y_n a b w) as E. cbv [fom_asked] in E. rewrite E. reflexivity.
Qed.

(** Each unsteady problem with a FOM history refines the machine (C34, C35). *)
From Coq Require Import ZArith List Bool Lia Field.
From Verif Require Import Base Laws ExplicitModel ImplicitModel ImplicitSpec ImplicitProofs ImplicitRefine
  LspgModel LspgSpec LspgProofs.
Import ListNotations.
Local Open Scope Z_scope.

Definition any {Y : Type} : Y -> Prop := fun _ => True.

(** * Policies and decorators *)
Section Base.
  Context {S X Y R J W : Type} (o : sops S).
  Variable recon : X -> Y.
  Notation hof := (fun a : list R * lpol (Y:=Y) (W:=W) => lp_h (snd a)).
  Notation wof := (fun a : list R * lpol (Y:=Y) (W:=W) => lp_w (snd a)).
  Variable ev : evaluation (S:=S) (Y:=Y) (R:=R) (J:=J) W.
  Variable one : Y -> S -> S -> Y -> R -> option J -> W -> outcome unit * (R * option J * W).
  Variable two : Y -> Y -> S -> S -> Y -> R -> option J -> W -> outcome unit * (R * option J * W).

  Lemma through_one :
    (forall y y_n t dt r Jo w, ev false y [y_n] t dt r Jo w = one y_n t dt y r Jo w) ->
    through o recon any false hof wof (std_rj (lspg_policy recon ev) BDF1) (problem_one o recon one).
  Proof.
    intros H1 tape t x r st dt y res Jo [fs p] h' older k Er Ed Ho. cbn [snd] in *. cbn [older_ok] in Ho. subst older.
    cbv [std_rj lspg_policy lspg_bdf problem_one r_hist r_t]. cbn [fst snd]. rewrite Er, Ed, H1.
    destruct (one (recon x) (sadd o t dt) dt (recon y) res Jo (lp_w p)) as [e [[r' j'] w']].
    do 4 eexists. split; [reflexivity|]. split; reflexivity.
  Qed.
  Lemma through_two :
    (forall y y_n c t dt r Jo w, ev false y [y_n; c] t dt r Jo w = one y_n t dt y r Jo w) ->
    (forall y y_n c t dt r Jo w, ev true y [y_n; c] t dt r Jo w = two y_n c t dt y r Jo w) ->
    through o recon any true hof wof (std_rj (lspg_policy recon ev) BDF2) (problem_two o recon one two).
  Proof.
    intros H1 H2 tape t x r st dt y res Jo [fs p] h' older k Er Ed Ho. cbn [snd] in *.
    destruct Ho as (c & -> & Hc). subst k.
    cbv [std_rj lspg_policy lspg_bdf problem_two problem_one r_hist r_t]. cbn [fst snd]. rewrite Er, Ed.
    destruct r as [|x' r].
    - change (negb (Z.of_nat (length [x]) =? 1)) with false. rewrite H1.
      destruct (one (recon x) (sadd o t dt) dt (recon y) res Jo (lp_w p)) as [e [[r' j'] w']].
      do 4 eexists. split; [reflexivity|]. split; reflexivity.
    - rewrite (proj2 (Z.eqb_neq _ 1)) by (cbn [length]; lia). cbn [negb second_ok] in *. subst c. rewrite H2.
      destruct (two (recon x) (recon x') (sadd o t dt) dt (recon y) res Jo (lp_w p)) as [e [[r' j'] w']].
      do 4 eexists. split; [reflexivity|]. split; reflexivity.
  Qed.

  (** Scaling *)
  Variable base : policy S X R J (lpol (Y:=Y) (W:=W)).
  Variable problem : list X -> prun S X -> S -> X -> R -> option J -> W -> outcome unit * (R * option J * W).
  Variable scaler : Y -> S -> R -> option J -> W -> outcome unit * (R * option J * W).
  Lemma through_scaled three name :
    through o recon any three hof wof (std_rj base name) problem ->
    through o recon any three hof wof (std_rj (scaled_policy base scaler) name) (scaled_problem o recon problem scaler).
  Proof.
    intros HB tape t x r st dt y res Jo [fs p] h' older k Er Ed Ho. cbn [snd] in *.
    destruct (HB tape t x r st dt y res Jo (fs, p) h' older Er Ed Ho) as (e & res' & j' & [fs' p'] & E1 & E2 & E3).
    cbv [std_rj] in E1. cbn [fst snd] in *. subst k.
    cbv [std_rj scaled_policy scaled_problem then_scale]. cbn [fst snd r_t].
    destruct (base name y (x :: st) fs (sadd o t dt) (Z.of_nat (length (x :: r))) dt res Jo p)
      as [e0 [[[fs0 r0] j0] p0]]. injection E1 as -> -> -> -> ->. rewrite E2.
    destruct e as [u|u|u|].
    - rewrite E3, Ed. cbv [fom_at read_index nth_error].
      destruct (scaler (recon y) (sadd o t dt) res' j' (lp_w p')) as [e2 [[r2 j2] w2]].
      do 4 eexists. split; [reflexivity|]. split; [reflexivity|]. exact E3.
    - do 4 eexists. split; [reflexivity|]. split; [reflexivity|]. exact E3.
    - do 4 eexists. split; [reflexivity|]. split; [reflexivity|]. exact E3.
    - do 4 eexists. split; [reflexivity|]. split; [reflexivity|]. exact E3.
  Qed.
End Base.

Section MaskedBase.
  Context {S X Y Ru Ju R J W : Type} (o : sops S).
  Variable recon : X -> Y.
  Variable base : policy S X Ru Ju (lpol (Y:=Y) (W:=W)).
  Variable problem : list X -> prun S X -> S -> X -> Ru -> option Ju -> W -> outcome unit * (Ru * option Ju * W).
  Variable m : masker (Ru:=Ru) (Ju:=Ju) (R:=R) (J:=J) (W:=W).
  Notation hof := (fun a : list Ru * lpol (Y:=Y) (W:=W) => lp_h (snd a)).
  Notation wof := (fun a : list Ru * lpol (Y:=Y) (W:=W) => lp_w (snd a)).
  Definition mk_hist (p : mkpol (Y:=Y) (Ru:=Ru) (Ju:=Ju) (W:=W)) : fomhist (Y:=Y) := lp_h (mk_base p).
  Definition mk_rest (p : mkpol (Y:=Y) (Ru:=Ru) (Ju:=Ju) (W:=W)) : Ru * Ju * W :=
    (mk_r p, mk_j p, lp_w (mk_base p)).
  Lemma through_masked three name :
    through o recon any three hof wof (std_rj base name) problem ->
    through o recon any three (fun a : list R * mkpol => mk_hist (snd a)) (fun a => mk_rest (snd a))
            (std_rj (masked_policy base m) name) (masked_problem problem m).
  Proof.
    intros HB tape t x r st dt y res Jo [fs p] h' older k Er Ed Ho. cbn [snd] in *. cbv [mk_hist] in Er.
    destruct (HB tape t x r st dt y (mk_r p) (Some (mk_j p)) ([], mk_base p) h' older Er Ed Ho)
      as (e & res' & j' & [fs' b'] & E1 & E2 & E3).
    cbv [std_rj] in E1. cbn [fst snd] in *. subst k.
    cbv [std_rj masked_policy masked_problem then_mask mk_rest]. cbn [fst snd].
    destruct (base name y (x :: st) [] (sadd o t dt) (Z.of_nat (length (x :: r))) dt (mk_r p) (Some (mk_j p)) (mk_base p))
      as [e0 [[[fs0 r0] j0] p0]]. injection E1 as -> -> -> -> ->. rewrite E2.
    destruct e as [u|u|u|].
    - destruct (mk_R m res' res (lp_w b')) as [e1 [r1 w1]].
      destruct e1 as [u1|u1|u1|].
      + destruct Jo as [j|].
        * destruct (mk_J m (match j' with Some a => a | None => mk_j p end) j w1) as [e2 [j2 w2]].
          do 4 eexists. split; [reflexivity|]. split; [reflexivity|]. exact E3.
        * do 4 eexists. split; [reflexivity|]. split; [reflexivity|]. exact E3.
      + do 4 eexists. split; [reflexivity|]. split; [reflexivity|]. exact E3.
      + do 4 eexists. split; [reflexivity|]. split; [reflexivity|]. exact E3.
      + do 4 eexists. split; [reflexivity|]. split; [reflexivity|]. exact E3.
    - do 4 eexists. split; [reflexivity|]. split; [reflexivity|]. exact E3.
    - do 4 eexists. split; [reflexivity|]. split; [reflexivity|]. exact E3.
    - do 4 eexists. split; [reflexivity|]. split; [reflexivity|]. exact E3.
  Qed.
End MaskedBase.

(** * The evaluations are the textbook ones *)
Section Default.
  Context {S X Y J W : Type} (o : sops S) (yo : vops S Y) (jo : vops S J).
  Variable fom : sfom (S:=S) (Y:=Y) (R:=Y) (J:=J) (B:=J) (W:=W).
  Variable phi : J.
  Hypotheses (HF : sfield o) (HC : schar0 o) (HY : vspace o yo) (HJ : vspace o jo).

  Add Field SFdef : (sfield_th o HF).
  Ltac mat := cbv delta [upd1 scheme_J jminus] beta; vreduce o jo HF HJ;
    cbv beta iota zeta delta [lspg_factor bdf1_c_f bdf2_c_f k_negOne k_twoOvThree k_two k_three k_one neg1 frac
      sZ s_of_pos]; field; nz o HF HC.
  Lemma factor_one (dt : S) j : upd1 jo j (lspg_factor o false dt) phi (s1 o) = scheme_J o jo phi (s1 o) dt j.
  Proof. mat. Qed.
  Lemma factor_two (dt : S) j : upd1 jo j (lspg_factor o true dt) phi (s1 o) = scheme_J o jo phi (frac o 2 3) dt j.
  Proof. mat. Qed.

  Lemma default_one y y_n l t dt r Jo w :
    default_eval o yo jo fom phi false y (y_n :: l) t dt r Jo w = lspg_one o yo jo fom phi y_n t dt y r Jo w.
  Proof.
    cbv [default_eval default_residual lspg_one seen_fom lspg_jac].
    destruct (fo_rhs fom y t r w) as [e [f w1]]. destruct e as [u|u|u|]; try reflexivity.
    rewrite (res_bdf1 o yo) by assumption. destruct Jo as [j|]; [|reflexivity].
    destruct (fo_jac fom y phi t j w1) as [e2 [j1 w2]]. destruct e2; try reflexivity. rewrite factor_one. reflexivity.
  Qed.
  Lemma default_two y y_n y_nm1 l t dt r Jo w :
    default_eval o yo jo fom phi true y (y_n :: y_nm1 :: l) t dt r Jo w
    = lspg_two o yo jo fom phi y_n y_nm1 t dt y r Jo w.
  Proof.
    cbv [default_eval default_residual lspg_two seen_fom lspg_jac].
    destruct (fo_rhs fom y t r w) as [e [f w1]]. destruct e as [u|u|u|]; try reflexivity.
    rewrite (res_bdf2 o yo) by assumption. destruct Jo as [j|]; [|reflexivity].
    destruct (fo_jac fom y phi t j w1) as [e2 [j1 w2]]. destruct e2; try reflexivity. rewrite factor_two. reflexivity.
  Qed.
End Default.

Section HypRed.
  Context {S X Y R J B W : Type} (o : sops S) (yo : vops S Y).
  Variable fom : sfom (S:=S) (Y:=Y) (R:=R) (J:=J) (B:=B) (W:=W).
  Variable phi : B.
  Variable up : updater (S:=S) (Y:=Y) (R:=R) (J:=J) (B:=B) (W:=W).
  Hypotheses (HF : sfield o) (HC : schar0 o) (HY : vspace o yo).
  Add Field SFhyp : (sfield_th o HF).
  Ltac coef := cbv beta iota zeta delta [lspg_factor hypred_cf bdf1_c_np1 bdf1_c_n bdf1_c_f bdf2_c_np1 bdf2_c_n
    bdf2_c_nm1 bdf2_c_f k_one k_negOne k_two k_three k_four k_oneOvThree k_twoOvThree k_fourOvThree neg1 frac
    sZ s_of_pos]; field; nz o HF HC.

  Lemma hcf_one dt : hypred_cf o false dt = sopp o dt. Proof. coef. Qed.
  Lemma hcf_two dt : hypred_cf o true dt = sopp o (smul o (frac o 2 3) dt). Proof. coef. Qed.
  Lemma hf_one dt : lspg_factor o false dt = sopp o dt. Proof. coef. Qed.
  Lemma hf_two dt : lspg_factor o true dt = sopp o (smul o (frac o 2 3) dt). Proof. coef. Qed.
  Lemma comb_one y y_n l : hypred_combination o yo false y (y_n :: l) = Ok (vminus o yo y y_n).
  Proof. cbv [hypred_combination]. f_equal. cbv delta [upd2_0 vminus] beta. vreduce o yo HF HY; coef. Qed.
  Lemma comb_two y y_n y_nm1 l : hypred_combination o yo true y (y_n :: y_nm1 :: l)
    = Ok (vadd yo (vminus o yo y (vscale yo (frac o 4 3) y_n)) (vscale yo (frac o 1 3) y_nm1)).
  Proof. cbv [hypred_combination]. f_equal. cbv delta [upd3_0 upd2_0 vminus] beta. vreduce o yo HF HY; coef. Qed.

  Lemma hypred_one_eq y y_n l t dt r Jo w :
    hypred_eval o yo fom phi up false y (y_n :: l) t dt r Jo w = hypred_one o yo fom phi up y_n t dt y r Jo w.
  Proof.
    cbv [hypred_eval hypred_one seen_fom lspg_jac].
    destruct (fo_rhs fom y t r w) as [e [f w1]]. destruct e as [u|u|u|]; try reflexivity.
    rewrite comb_one, hcf_one, hf_one.
    destruct (up_R up f (sopp o dt) (vminus o yo y y_n) (s1 o) w1) as [e2 [r2 w2]].
    destruct e2; destruct Jo as [j|]; try reflexivity.
  Qed.
  Lemma hypred_two_eq y y_n y_nm1 l t dt r Jo w :
    hypred_eval o yo fom phi up true y (y_n :: y_nm1 :: l) t dt r Jo w
    = hypred_two o yo fom phi up y_n y_nm1 t dt y r Jo w.
  Proof.
    cbv [hypred_eval hypred_two seen_fom lspg_jac].
    destruct (fo_rhs fom y t r w) as [e [f w1]]. destruct e as [u|u|u|]; try reflexivity.
    rewrite comb_two, hcf_two, hf_two.
    destruct (up_R up f _ _ (s1 o) w1) as [e2 [r2 w2]].
    destruct e2; destruct Jo as [j|]; try reflexivity.
  Qed.
End HypRed.

(** * Histories *)
Section Histories.
  Context {S X Y R J Pp Q Ws : Type} (o : sops S).
  Variable recon : X -> Y.
  Variable hist_of : Pp -> fomhist (Y:=Y).
  Variable rest : Pp -> Q.
  Variable pol : policy S X R J Pp.
  Variable solver : Ws -> X -> sol X R J Ws.
  Hypothesis Hasks : asks solver.
  Variables pr1 pr2 : list X -> prun S X -> S -> X -> R -> option J -> Q -> outcome unit * (R * option J * Q).
  Notation hist2 := (fun a : list R * Pp => hist_of (snd a)).
  Notation rest2 := (fun a : list R * Pp => rest (snd a)).
  Variable mkp : list Y -> Pp.
  Variable q0 : Q.
  Hypothesis Hmk : forall d, hist_of (mkp d) = mk_fomhist d (-1) /\ rest (mkp d) = q0.
  Hypothesis T1 : through o recon any false hist2 rest2 (std_rj pol BDF1) pr1.
  Hypothesis T2 : through o recon any true hist2 rest2 (std_rj pol BDF2) pr2.

  Lemma lspg_history name cs cr zero x0 ws g :
    lspg_create o name cs cr zero mkp x0 ws = Ok g ->
    let problem := match name with BDF1 => pr1 | _ => pr2 end in
    forall evs res rn' tape' ws' q' t k,
    history o solver problem None [] ws q0 evs res rn' tape' ws' q' -> fresh_starts (-1) k evs res ->
    exists g', perform o (implicit_step o pol solver name) put_ode t_y evs t k g = (res, g') /\
      t_ws g' = ws' /\ rest (t_p g') = q'.
  Proof.
    intros E problem evs res rn' tape' ws' q' t k H HS.
    destruct (Hmk [zero; zero]) as [A1 A2]. destruct (Hmk [zero; zero; zero]) as [B1 B2].
    destruct name; try discriminate E; injection E as E'; subst problem; cbv beta iota in H.
    - edestruct (refine_last o solver pr1 (implicit_step o pol solver BDF1) put_ode t_y
        (inv_lspg recon any hist_of rest false) True) with (last := -1) (t := t) (k := k) (g := g)
        as (last' & g' & EP & HI).
      + intros _. apply lspg_start. intros y. exact I.
      + apply one_state_refines; assumption.
      + exact H.
      + exact I.
      + left. split; [exact I|exact HS].
      + rewrite <- E'. cbv [inv_lspg]. cbn [t_ws t_p t_st t_y repeat]. rewrite A1, A2.
        split; [reflexivity|]. split; [reflexivity|]. split; [eexists _, _; reflexivity|].
        split; [exact I|]. split; [reflexivity|]. eexists _, _. reflexivity.
      + exists g'. split; [exact EP|]. destruct HI as (I1 & I2 & _). split; assumption.
    - edestruct (refine_last o solver pr2 (implicit_step o pol solver BDF2) put_ode t_y
        (inv_lspg recon any hist_of rest true) True) with (last := -1) (t := t) (k := k) (g := g)
        as (last' & g' & EP & HI).
      + intros _. apply lspg_start. intros y. exact I.
      + apply two_states_refines; assumption.
      + exact H.
      + exact I.
      + left. split; [exact I|exact HS].
      + rewrite <- E'. cbv [inv_lspg]. cbn [t_ws t_p t_st t_y repeat]. rewrite B1, B2.
        split; [reflexivity|]. split; [reflexivity|]. split; [eexists _, _, _; reflexivity|].
        split; [exact I|]. split; [reflexivity|]. eexists _, _, _. reflexivity.
      + exists g'. split; [exact EP|]. destruct HI as (I1 & I2 & _). split; assumption.
  Qed.
End Histories.

(** * Fully discrete *)
Section Discrete.
  Context {S X Y R J Q Ws : Type} (o : sops S).
  Variable recon : X -> Y.
  Variable ev : Z -> S -> S -> R -> option J -> Y -> list Y -> Q -> outcome unit * (R * option J * Q).
  Variable solver : Ws -> X -> sol X R J Ws.
  Hypothesis Hasks : asks solver.

  Lemma through_discrete z three (P : Y -> Prop) :
    (three = true -> forall t dt r Jo y y_n a q, P a -> ev 1 t dt r Jo y [y_n; a] q = ev 1 t dt r Jo y [y_n; z] q) ->
    through o recon P three fst snd (arb_rj (fd_system recon (total three) ev))
            (problem_discrete o recon ev z three).
  Proof.
    intros HP tape t x r st dt y res Jo [h q] h' older k Er Ed Ho. cbn [fst snd] in *.
    assert (EV : length older = (total three - 1)%nat /\
      ev k (sadd o t dt) dt res Jo (recon y) older q
      = ev k (sadd o t dt) dt res Jo (recon y) (fom_stencil recon z three (x :: r)) q).
    { destruct three; cbn [older_ok total fom_stencil] in *.
      - destruct Ho as (c & -> & Hc). split; [reflexivity|]. destruct r as [|x' r]; cbn [second_ok] in Hc.
        + subst k. cbn [length Z.of_nat]. apply (HP eq_refl). exact Hc.
        + subst c. reflexivity.
      - subst older. split; reflexivity. }
    destruct EV as [EL EV].
    cbv [arb_rj fd_system problem_discrete]. cbn [fst snd r_hist r_t]. rewrite Er, Ed, EL, Nat.ltb_irrefl.
    rewrite (firstn_all2 older) by (rewrite EL; apply le_n). fold k. rewrite EV.
    destruct (ev k (sadd o t dt) dt res Jo (recon y) (fom_stencil recon z three (x :: r)) q) as [e [[r' j'] q']].
    do 4 eexists. split; [reflexivity|]. split; reflexivity.
  Qed.

  (** Another evaluation that the solver cannot tell from [ev] *)
  Definition looks (Jo : option J) (r : outcome unit * (R * option J * Q)) : outcome unit * (R * option J * Q) :=
    let '(e, (r', j', q')) := r in
    (match e with Throw EDiscreteTimeResidual => Throw EResidualEvaluation | _ => e end, (r', mask Jo j', q')).
  Variable ev' : Z -> S -> S -> R -> option J -> Y -> list Y -> Q -> outcome unit * (R * option J * Q).
  Hypothesis Hev : forall step t dt r Jo y older q,
    looks Jo (ev step t dt r Jo y older q) = looks Jo (ev' step t dt r Jo y older q).
  Lemma through_looks z three (P : Y -> Prop) :
    (three = true -> forall t dt r Jo y y_n a q, P a -> ev 1 t dt r Jo y [y_n; a] q = ev 1 t dt r Jo y [y_n; z] q) ->
    through o recon P three fst snd (arb_rj (fd_system recon (total three) ev))
            (problem_discrete o recon ev' z three).
  Proof.
    intros HP tape t x r st dt y res Jo a h' older k Er Ed Ho.
    destruct (through_discrete z three P HP tape t x r st dt y res Jo a h' older Er Ed Ho) as (e & res' & j' & a' & E1 & E2 & E3).
    exists e, res', j', a'. split; [exact E1|]. split; [|exact E3]. rewrite <- E2. symmetry. apply Hev.
  Qed.

  Lemma discrete_history z three cs zero x0 q0 ws g :
    discrete_create o (total three) cs zero q0 x0 ws = Ok g ->
    forall evs res rn' tape' ws' q' t k,
    history o solver (problem_discrete o recon ev' z three) None [] ws q0 evs res rn' tape' ws' q' ->
    (three = true -> ignores_older ev) /\ fresh_starts (-1) k evs res \/ z = zero /\ first_run evs ->
    exists g', perform o (arb_step o (fd_system recon (total three) ev) solver (total three - 1)) put_arb a_y evs t k g
        = (res, g') /\ a_ws g' = ws' /\ snd (a_w g') = q'.
  Proof.
    intros E evs res rn' tape' ws' q' t k H HS.
    assert (Hn : (total three - 1 = 1 \/ total three - 1 = 2 \/ total three - 1 = 3)%nat)
      by (destruct three; cbn; auto).
    assert (E' : g = mk_ast x0 (repeat cs (total three - 1)) cs (s0 o) (s0 o) 0
                   (mk_fomhist (if three then [zero; zero; zero] else [zero; zero]) (-1), q0) ws)
      by (destruct three; injection E as E'; symmetry; exact E').
    destruct HS as [[HI HS]|[-> HS]].
    - edestruct (refine_last o solver (problem_discrete o recon ev' z three)
        (arb_step o (fd_system recon (total three) ev) solver (total three - 1)) put_arb a_y
        (inv_arb recon any three (total three - 1)) True) with (last := -1) (t := t) (k := k) (g := g)
        as (last' & g' & EP & HInv).
      + intros _. apply arb_start. intros y. exact I.
      + apply arb_refines_last; [exact Hasks|exact Hn|]. apply through_looks.
        intros H3 t1 dt r Jo y y_n a q _. apply (HI H3).
      + exact H.
      + exact I.
      + left. split; [exact I|exact HS].
      + rewrite E'. cbv [inv_arb]. cbn [a_ws a_w a_st a_y fst snd fh_trk]. rewrite repeat_length.
        split; [reflexivity|]. split; [reflexivity|]. split; [reflexivity|]. split; [exact I|]. split; [reflexivity|].
        destruct three; cbn [shaped fh_data]; [eexists _, _, _; reflexivity|eexists _, _; reflexivity].
      + exists g'. split; [exact EP|]. destruct HInv as (I1 & I2 & _). split; assumption.
    - destruct HS as (t0 & y0 & evs' & -> & HF). inversion H as [|? ? ? ? ? ? ? res0 ? ? ? ? H0| | |]; subst.
      set (g0 := put_arb y0 (mk_ast x0 (repeat cs (total three - 1)) cs (s0 o) (s0 o) 0
                   (mk_fomhist (if three then [zero; zero; zero] else [zero; zero]) (-1), q0) ws)).
      edestruct (refine_last o solver (problem_discrete o recon ev' zero three)
        (arb_step o (fd_system recon (total three) ev) solver (total three - 1)) put_arb a_y
        (inv_arb recon (eq zero) three (total three - 1)) False) with (last := -1) (t := t0) (k := 1) (g := g0)
        as (last' & g' & EP & HInv).
      + intros [].
      + apply arb_refines_last; [exact Hasks|exact Hn|]. apply through_looks.
        intros H3 t1 dt r Jo y y_n a q <-. reflexivity.
      + exact H0.
      + split; reflexivity.
      + right. eapply Forall_impl; [|exact HF]. intros [|]; [intros []|reflexivity].
      + subst g0. cbv [inv_arb put_arb]. cbn [a_ws a_w a_st a_y fst snd fh_trk]. rewrite repeat_length.
        split; [reflexivity|]. split; [reflexivity|]. split; [reflexivity|].
        split; [exists []; reflexivity|]. split; [reflexivity|].
        cbn [r_hist length Z.of_nat]. apply (hinv_first recon (eq zero)). reflexivity.
      + exists g'. split; [cbn [perform]; fold g0; rewrite EP; reflexivity|].
        destruct HInv as (I1 & I2 & _). split; assumption.
  Qed.
End Discrete.

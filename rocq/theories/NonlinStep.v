(** Implicit steps of linear problems with Newton's method as the solver. *)
From Coq Require Import Reals ZArith List Lra Lia Bool.
From Verif Require Import Base RInst Laws LawInst ExplicitModel ImplicitModel ImplicitSpec ImplicitProofs ImplicitExtra NonlinDiag NonlinModel NonlinWp NonlinDiagProofs
  NonlinSpec NonlinRuns NonlinProofs NonlinSolve NonlinLines NonlinClaims NonlinSeq NonlinFollow NonlinLaws NonlinExact NonlinReal NonlinTheory NonlinRest
  NonlinMoreSpec NonlinMore.
Import ListNotations.
Local Open Scope R_scope.

Section Root.
  Context {eps : R} {V Rs J H L W : Type}.
  Notation o := (Rops eps).
  Variable no : nlops R V Rs J H.
  Variable ro : vops R Rs.
  Variable apJ : J -> V -> Rs.
  Variable apH : H -> V -> V.
  Hypothesis HL : nl_laws eps no ro apJ apH.
  Variable xt : exts V Rs J H L.
  Notation info := (info R V Rs J).
  Notation vo := (n_vo no).
  Variable rj : V -> Rs -> option J -> W -> outcome unit * (Rs * option J * W).
  Variable A : J.
  Variable b : Rs.
  Notation F := (affine ro apJ A b).
  Hypothesis Hc : computes rj F (fun _ => A).
  Hypothesis Hlin : linear_ok xt (if_solvable (normal_exact apH)) (if_solvable (qr_exact no apJ)) (if_solvable (newton_exact apJ)) nothing.
  Hypothesis Hf : full_rank no ro apJ A.
  Hypothesis Honto : forall r, exists d, apJ A d = r.
  Let HV := nl_v _ _ _ _ _ HL.
  Let HR := nl_r _ _ _ _ _ HL.

  (** at the first iteration a relative criterion is met at roots only *)
  Lemma first_met : forall cf (i : info), root_valid (fun y r => r = F y) (fun _ j => j = A) (if_solvable (newton_exact apJ)) i ->
    (f_stop cf = WhenRelCorrection \/ f_stop cf = WhenRelResidual) -> f_tol cf <= 1 ->
    met o cf 1 (root_meas o no i) (root_meas o no i) -> F (i_x i) = vzero ro.
  Proof.
    intros cf i [V1 [V2 V3]] Hst Ht Hm. cbv beta in V1, V2.
    assert (Hone : forall x, Rltb (x / x) (f_tol cf) = true -> x = 0).
    { intros x Hx. destruct (Req_dec x 0) as [|Hn]; [assumption|]. exfalso. apply Rltb_true in Hx.
      replace (x / x) with 1 in Hx by (field; exact Hn). lra. }
    assert (Hroot0 : forall x, 0 <= x -> sqrt x = 0 -> x = 0) by (intros x Hx Hs; apply sqrt_eq_0; assumption).
    unfold met in Hm. destruct Hst as [Hst|Hst]; rewrite Hst in Hm;
      cbn [reading root_meas m_corr m_res m_grad m_obj] in Hm; change (sltb o) with Rltb in Hm; change (sdiv o) with Rdiv in Hm; apply Hone in Hm.
    - rewrite (nl_norm _ _ _ _ _ HL) in Hm. apply Hroot0 in Hm; [|apply (in_pos _ _ HV)].
      apply (in_zero _ _ HV) in Hm. unfold i_c in Hm. change (vscale vo (- (1)) (i_d i) = vzero vo) in Hm.
      assert (Hd : i_d i = vzero vo).
      { apply (dot_ext vo _ HV). intros v. pose proof (f_equal (fun x => n_dot no x v) Hm) as K. cbv beta in K.
        rewrite (in_scale _ _ HV), (dot_0_l _ _ HV) in K. rewrite (dot_0_l _ _ HV). lra. }
      rewrite V2 in V3. apply (solved_newton _ _ _ _ HL) in V3; [|exact Hf|exact (Honto _)].
      rewrite <- V1, <- V3, Hd. apply (dot_ext ro _ HR). intros v.
      replace (vzero vo) with (vscale vo 0 (vzero vo)).
      + rewrite (lin_scale _ _ _ (nl_apJ _ _ _ _ _ HL A)), (in_scale _ _ HR), (dot_0_l _ _ HR). ring.
      + apply (dot_ext vo _ HV). intros u. rewrite (in_scale _ _ HV), (dot_0_l _ _ HV). ring.
    - rewrite (nl_rnorm _ _ _ _ _ HL) in Hm. apply Hroot0 in Hm; [|apply (in_pos _ _ HR)].
      apply (in_zero _ _ HR) in Hm. rewrite <- V1. exact Hm.
  Qed.

  Lemma newton_root : forall cf s w r s' w', root_object o s -> f_update cf = UStandard ->
    (f_stop cf = WhenRelCorrection \/ f_stop cf = WhenRelResidual) -> 0 < f_tol cf <= 1 -> (2 <= f_max cf < int32_max)%Z ->
    exec rj (root_solve o no xt cf) (s, w) = (r, (s', w')) ->
    r = Ok tt /\ root_object o s' /\ F (g_x s') = vzero ro.
  Proof.
    intros cf s w r s' w' Ho Hu Hst Ht Hmax E.
    assert (Hsup : root_supported cf).
    { unfold root_supported. rewrite Hu. destruct Hst as [-> | ->]; split; exact I. }
    destruct (newton_affine no ro apJ apH HL xt rj A b Hc Hlin Hf cf s w r s' w' Honto Ho Hsup Hu (proj1 Ht) Hmax E)
      as [ls [K2 [Hr [Hcase Hlast]]]].
    split; [exact Hr|].
    pose proof (root_solve_ok o no xt (graph rj) _ _ _ _ _ _ _ (computes_ok rj _ _ Hc) Hlin (ten_ends _ _ (ten_R eps)) none_linesearch cf s w Ho Hsup) as K.
    pose proof (tri_exec _ _ _ _ _ _ _ _ _ _ _ _ _ _ K E) as [K1 [ls' [K2' K3]]].
    split; [exact K1|].
    assert (ls' = ls) by (rewrite K2 in K2'; exact (eq_sym (app_inv_head _ _ _ K2'))). subst ls'.
    destruct Hcase as [[Hl Hx]|[_ Hg]]; [|exact Hg].
    subst r. clear K E. remember (g_file s') as fl eqn:Ef. clear Ef.
    remember (pt s') as p eqn:Ep. remember (Ok tt) as r eqn:Er.
    destruct K3 as [is i p Hn Hst' Ha Hv Hm|is i p e Hn Hst' Ha Hv Hm Hstk|is p Hn Hmx Hst'|is p Hn Hn2 Hst'|is p e Hn Hst' He Hfe
                  |is p r Hn Hst' He Hfe|is p r Hn Hst' He Hfe|is i p r Hn Hst' Ha Hv Hm He Hfe]; try discriminate; try (destruct Hfe).
    - rewrite printed_length, app_length in Hl. cbn in Hl. destruct is; [|cbn in Hl; lia].
      cbn [first hd] in Hm. unfold at_point in Ha. rewrite Ep in Ha. unfold pt in Ha.
      pose proof (f_equal (fun z => fst (fst z)) Ha) as Hx'. cbn [fst] in Hx'. rewrite Hx'.
      exact (first_met cf i Hv Hst (proj2 Ht) Hm).
    - unfold line_search_stuck in Hstk. rewrite Hu in Hstk. destruct Hstk.
    - exfalso. rewrite printed_length in Hl. lia.
    - unfold trial_failures in Hfe. rewrite Hu in Hfe. destruct Hfe.
  Qed.
End Root.

(** Residuals of linear problems are affine. *)
Section AffineRes.
  Context {S V J : Type}.
  Variable o : sops S.
  Variable vo : vops S V.
  Variable jo : vops S J.
  Variable jid : J.
  Variable ap : J -> V -> V.
  Hypotheses (HF : sfield o) (HV : vspace o vo).
  Hypothesis HM : matrices vo jo jid ap.
  Add Field SFstep : (sfield_th o HF).
  Ltac lin := repeat first [rewrite (m_add _ _ _ _ HM)|rewrite (m_scale _ _ _ _ HM)|rewrite (m_id _ _ _ _ HM)
                           |rewrite (m_linear _ _ _ _ HM)|rewrite (m_linear_scale _ _ _ _ HM)].
  Ltac vec := cbv delta [bdf1_R bdf2_R bdf1_R_mm bdf2_R_mm vminus scheme_J jminus neg1 linear_rhs] beta;
    lin; vreduce o vo HF HV; ring.

  Lemma ap_zero : forall a, ap a (vzero vo) = vzero vo.
  Proof.
    intros a. replace (vzero vo) with (vscale vo (s0 o) (vzero vo)) at 1 by (vreduce o vo HF HV; ring).
    rewrite (m_linear_scale _ _ _ _ HM). vreduce o vo HF HV; ring.
  Qed.
  Lemma lin_bdf1 : forall A b y_n h t y,
    bdf1_R o vo y_n h (linear_rhs vo ap A b y t) y
    = vadd vo (ap (scheme_J o jo jid (s1 o) h (A t)) y) (bdf1_R o vo y_n h (b t) (vzero vo)).
  Proof. intros. vec. Qed.
  Lemma lin_bdf2 : forall A b y_n y_nm1 h t y,
    bdf2_R o vo y_n y_nm1 h (linear_rhs vo ap A b y t) y
    = vadd vo (ap (scheme_J o jo jid (frac o 2 3) h (A t)) y) (bdf2_R o vo y_n y_nm1 h (b t) (vzero vo)).
  Proof. intros. vec. Qed.
  Lemma lin_bdf1_mm : forall A b M y_n h t y,
    bdf1_R_mm o vo ap y_n h M (linear_rhs vo ap A b y t) y
    = vadd vo (ap (scheme_J o jo M (s1 o) h (A t)) y) (bdf1_R_mm o vo ap y_n h M (b t) (vzero vo)).
  Proof. intros. cbv delta [bdf1_R_mm vminus] beta. lin. rewrite ap_zero. vec. Qed.
  Lemma lin_bdf2_mm : forall A b M y_n y_nm1 h t y,
    bdf2_R_mm o vo ap y_n y_nm1 h M (linear_rhs vo ap A b y t) y
    = vadd vo (ap (scheme_J o jo M (frac o 2 3) h (A t)) y) (bdf2_R_mm o vo ap y_n y_nm1 h M (b t) (vzero vo)).
  Proof. intros. cbv delta [bdf2_R_mm vminus] beta. lin. rewrite ap_zero. vec. Qed.
End AffineRes.

(** One step of a stepper whose solver is Newton's method with a relative criterion. *)
Section Step.
  Context {eps : R} {V J H L W : Type}.
  Notation o := (Rops eps).
  Variable no : nlops R V V J H.
  Notation vo := (n_vo no).
  Variable ap : J -> V -> V.
  Variable apH : H -> V -> V.
  Hypothesis HL : nl_laws eps no vo ap apH.
  Variable xt : exts V V J H L.
  Hypothesis Hlin : linear_ok xt (if_solvable (normal_exact apH)) (if_solvable (qr_exact no ap)) (if_solvable (newton_exact ap)) nothing.
  Variable jo : vops R J.
  Variable jid : J.
  Hypothesis HJ : vspace o jo.
  Hypothesis HM : matrices vo jo jid ap.
  Variable u : isys (S:=R) (V:=V) (J:=J) (W:=W).
  Variables (A : R -> J) (b : R -> V).
  Variable cf : config R.
  Hypotheses (Hu : f_update cf = UStandard) (Hst : f_stop cf = WhenRelCorrection \/ f_stop cf = WhenRelResidual)
    (Ht : 0 < f_tol cf <= 1) (Hmax : (2 <= f_max cf < int32_max)%Z).
  Notation newton := (as_solver (root_solve o no xt cf)).
  Let HV : vspace o vo := in_space _ _ (nl_v _ _ _ _ _ HL).

  Lemma step_newton : forall W' (rj : V -> V -> option J -> W' -> outcome unit * (V * option J * W')) K c ws y w,
    computes rj (affine vo ap K c) (fun _ => K) -> invertible vo ap K -> root_object o ws ->
    exists y' ws' w', run_solver rj (newton ws y) y ws w = (Ok tt, (y', ws', w')) /\ root_object o ws' /\
      affine vo ap K c y' = vzero vo.
  Proof.
    intros W' rj K c ws y w Hc [Hf Ho] Hr.
    destruct (exec rj (root_solve o no xt cf) (set_x y ws, w)) as [r [s' w']] eqn:E.
    destruct (newton_root no vo ap apH HL xt rj K c Hc Hlin Hf Ho cf (set_x y ws) w r s' w' Hr Hu Hst Ht Hmax E) as [-> [H1 H2]].
    exists (g_x s'), s', w'. split; [|split; assumption].
    exact (as_solver_run _ _ _ _ _ y ws w _ _ _ (sp_root_solve o no xt cf) E).
  Qed.

  Let HF := R_field eps.
  Let HC := R_char0 eps.
  Notation f := (fun t y => linear_rhs vo ap A b y t).
  Notation K1 dt t := (scheme_J o jo jid 1 dt (A t)).
  Notation K2 dt t := (scheme_J o jo jid (frac o 2 3) dt (A t)).

  Section Plain.
    Hypothesis HU : linear_ode vo ap u A b.
    Notation pol := (policy_std o vo jo jid u).
    Lemma computes_bdf1 : forall y_n st t k dt,
      computes (std_rj pol BDF1 (y_n :: st) t k dt) (affine vo ap (K1 dt t) (bdf1_R o vo y_n dt (b t) (vzero vo))) (fun _ => K1 dt t).
    Proof.
      intros y_n st t k dt y r j [fs p]. unfold std_rj. cbn [policy_std fst snd]. unfold pol_bdf1.
      destruct (HU y t r j (pp_w p)) as [j1 [w1 [E1 E2]]]. rewrite E1. do 2 eexists. split.
      - rewrite (res_bdf1 o vo HF HV), (lin_bdf1 o vo jo jid ap HF HV HM). reflexivity.
      - destruct j as [j|]; [|exact I]. cbn [mask]. rewrite (E2 ltac:(discriminate)). cbn [on_jac].
        rewrite (jac_bdf1 o jo jid HF HJ). reflexivity.
    Qed.
    Lemma bdf2_first : forall st t dt, std_rj pol BDF2 st t 1 dt = std_rj pol BDF1 st t 1 dt.
    Proof. reflexivity. Qed.
    Lemma computes_bdf2 : forall y_n y_nm1 st t k dt, k <> 1%Z ->
      computes (std_rj pol BDF2 (y_n :: y_nm1 :: st) t k dt)
        (affine vo ap (K2 dt t) (bdf2_R o vo y_n y_nm1 dt (b t) (vzero vo))) (fun _ => K2 dt t).
    Proof.
      intros y_n y_nm1 st t k dt Hk y r j [fs p]. unfold std_rj. cbn [policy_std fst snd]. unfold pol_bdf2.
      rewrite (proj2 (Z.eqb_neq k 1) Hk).
      destruct (HU y t r j (pp_w p)) as [j1 [w1 [E1 E2]]]. rewrite E1. do 2 eexists. split.
      - rewrite (res_bdf2 o vo HF HC HV), (lin_bdf2 o vo jo jid ap HF HV HM). reflexivity.
      - destruct j as [j|]; [|exact I]. cbn [mask]. rewrite (E2 ltac:(discriminate)). cbn [on_jac].
        rewrite (jac_bdf2 o jo jid HF HC HJ). reflexivity.
    Qed.

    Lemma step_bdf1 : forall t k dt g a st, t_st g = a :: st -> root_object o (t_ws g) ->
      invertible vo ap (K1 dt (t + dt)) ->
      exists g', implicit_step o pol newton BDF1 t k dt g = (Ok tt, g') /\
        root_object o (t_ws g') /\ t_st g' = t_y g :: st /\
        bdf1_eq vo (f (t + dt)) (t_y g) dt (t_y g').
    Proof.
      intros t k dt g a st Es Hr Hi. cbn [implicit_step]. rewrite (step_one_state_eq _ _ _ _ _ _ _ _ _ _ Es).
      destruct (step_newton _ _ _ _ (t_ws g) (t_y g) (t_fs g, t_p g) (computes_bdf1 (t_y g) st (t + dt) k dt) Hi Hr)
        as [y' [ws' [[fs' p'] [E1 [E2 E3]]]]].
      change (sadd o t dt) with (t + dt).
      rewrite E1. eexists. split; [reflexivity|]. cbn [t_ws t_st t_y]. split; [exact E2|]. split; [reflexivity|].
      apply (root_bdf1 o vo HF HV). rewrite (lin_bdf1 o vo jo jid ap HF HV HM). exact E3.
    Qed.
    Lemma step_bdf2 : forall t k dt g y_nm1 old st, t_st g = y_nm1 :: old :: st -> root_object o (t_ws g) ->
      invertible vo ap (if (k =? 1)%Z then K1 dt (t + dt) else K2 dt (t + dt)) ->
      exists g', implicit_step o pol newton BDF2 t k dt g = (Ok tt, g') /\
        root_object o (t_ws g') /\ t_st g' = t_y g :: (if (k =? 1)%Z then old else y_nm1) :: st /\
        if (k =? 1)%Z then bdf1_eq vo (f (t + dt)) (t_y g) dt (t_y g')
        else bdf2_eq o vo (f (t + dt)) (t_y g) y_nm1 dt (t_y g').
    Proof.
      intros t k dt g a b0 st Es Hr Hi. cbn [implicit_step]. rewrite (step_two_states_eq _ _ _ _ _ _ _ _ _ _ _ Es).
      cbv zeta. change (sadd o t dt) with (t + dt). destruct (Z.eqb_spec k 1) as [->|Hk].
      - rewrite bdf2_first.
        destruct (step_newton _ _ _ _ (t_ws g) (t_y g) (t_fs g, t_p g) (computes_bdf1 (t_y g) (b0 :: st) (t + dt) 1 dt) Hi Hr)
          as [y' [ws' [[fs' p'] [E1 [E2 E3]]]]].
        rewrite E1. eexists. split; [reflexivity|]. cbn [t_ws t_st t_y]. split; [exact E2|]. split; [reflexivity|].
        apply (root_bdf1 o vo HF HV). rewrite (lin_bdf1 o vo jo jid ap HF HV HM). exact E3.
      - destruct (step_newton _ _ _ _ (t_ws g) (t_y g) (t_fs g, t_p g) (computes_bdf2 (t_y g) a st (t + dt) k dt Hk) Hi Hr)
          as [y' [ws' [[fs' p'] [E1 [E2 E3]]]]].
        rewrite E1. eexists. split; [reflexivity|]. cbn [t_ws t_st t_y]. split; [exact E2|]. split; [reflexivity|].
        apply (root_bdf2 o vo HF HC HV). rewrite (lin_bdf2 o vo jo jid ap HF HV HM). exact E3.
    Qed.
  End Plain.

  (** with mass matrix *)
  Section Mass.
    Variable M : R -> J.
    Hypothesis HU : linear_ode_mm vo ap u M A b.
    Notation pol := (policy_mm o vo jo ap u).
    Notation M1 dt t := (scheme_J o jo (M t) 1 dt (A t)).
    Notation M2 dt t := (scheme_J o jo (M t) (frac o 2 3) dt (A t)).
    Lemma computes_bdf1_mm : forall y_n st t k dt,
      computes (std_rj pol BDF1 (y_n :: st) t k dt) (affine vo ap (M1 dt t) (bdf1_R_mm o vo ap y_n dt (M t) (b t) (vzero vo))) (fun _ => M1 dt t).
    Proof.
      intros y_n st t k dt y r j [fs p]. unfold std_rj. cbn [policy_mm fst snd]. unfold mpol_bdf1.
      destruct (HU y t (mp_M p) (mp_f p) j (mp_w p)) as [j1 [w1 [E1 E2]]]. rewrite E1. cbv zeta. do 2 eexists. split.
      - rewrite (res_bdf1_mm o vo ap HF HV), (lin_bdf1_mm o vo jo jid ap HF HV HM). reflexivity.
      - destruct j as [j|]; [|exact I]. cbn [mask]. rewrite (E2 ltac:(discriminate)). cbn [on_jac].
        rewrite (jac_bdf1_mm o jo HF HJ). reflexivity.
    Qed.
    Lemma bdf2_mm_first : forall st t dt, std_rj pol BDF2 st t 1 dt = std_rj pol BDF1 st t 1 dt.
    Proof. reflexivity. Qed.
    Lemma computes_bdf2_mm : forall y_n y_nm1 st t k dt, k <> 1%Z ->
      computes (std_rj pol BDF2 (y_n :: y_nm1 :: st) t k dt)
        (affine vo ap (M2 dt t) (bdf2_R_mm o vo ap y_n y_nm1 dt (M t) (b t) (vzero vo))) (fun _ => M2 dt t).
    Proof.
      intros y_n y_nm1 st t k dt Hk y r j [fs p]. unfold std_rj. cbn [policy_mm fst snd]. unfold mpol_bdf2.
      rewrite (proj2 (Z.eqb_neq k 1) Hk).
      destruct (HU y t (mp_M p) (mp_f p) j (mp_w p)) as [j1 [w1 [E1 E2]]]. rewrite E1. cbv zeta. do 2 eexists. split.
      - rewrite (res_bdf2_mm o vo ap HF HC HV), (lin_bdf2_mm o vo jo jid ap HF HV HM). reflexivity.
      - destruct j as [j|]; [|exact I]. cbn [mask]. rewrite (E2 ltac:(discriminate)). cbn [on_jac].
        rewrite (jac_bdf2_mm o jo HF HC HJ). reflexivity.
    Qed.

    Lemma step_bdf1_mm : forall t k dt g a st, t_st g = a :: st -> root_object o (t_ws g) ->
      invertible vo ap (M1 dt (t + dt)) ->
      exists g', implicit_step o pol newton BDF1 t k dt g = (Ok tt, g') /\
        root_object o (t_ws g') /\ t_st g' = t_y g :: st /\
        ap (M (t + dt)) (vminus o vo (t_y g') (t_y g)) = vscale vo dt (f (t + dt) (t_y g')).
    Proof.
      intros t k dt g a st Es Hr Hi. cbn [implicit_step]. rewrite (step_one_state_eq _ _ _ _ _ _ _ _ _ _ Es).
      destruct (step_newton _ _ _ _ (t_ws g) (t_y g) (t_fs g, t_p g) (computes_bdf1_mm (t_y g) st (t + dt) k dt) Hi Hr)
        as [y' [ws' [[fs' p'] [E1 [E2 E3]]]]].
      change (sadd o t dt) with (t + dt).
      rewrite E1. eexists. split; [reflexivity|]. cbn [t_ws t_st t_y]. split; [exact E2|]. split; [reflexivity|].
      apply (root_bdf1_mm o vo ap HF HV (M (t + dt)) (f (t + dt))). cbv beta.
      rewrite (lin_bdf1_mm o vo jo jid ap HF HV HM). exact E3.
    Qed.
    Lemma step_bdf2_mm : forall t k dt g y_nm1 old st, t_st g = y_nm1 :: old :: st -> root_object o (t_ws g) ->
      invertible vo ap (if (k =? 1)%Z then M1 dt (t + dt) else M2 dt (t + dt)) ->
      exists g', implicit_step o pol newton BDF2 t k dt g = (Ok tt, g') /\
        root_object o (t_ws g') /\ t_st g' = t_y g :: (if (k =? 1)%Z then old else y_nm1) :: st /\
        if (k =? 1)%Z then ap (M (t + dt)) (vminus o vo (t_y g') (t_y g)) = vscale vo dt (f (t + dt) (t_y g'))
        else ap (M (t + dt)) (vadd vo (vminus o vo (t_y g') (vscale vo (frac o 4 3) (t_y g))) (vscale vo (frac o 1 3) y_nm1))
             = vscale vo (frac o 2 3 * dt) (f (t + dt) (t_y g')).
    Proof.
      intros t k dt g a b0 st Es Hr Hi. cbn [implicit_step]. rewrite (step_two_states_eq _ _ _ _ _ _ _ _ _ _ _ Es).
      cbv zeta. change (sadd o t dt) with (t + dt). destruct (Z.eqb_spec k 1) as [->|Hk].
      - rewrite bdf2_mm_first.
        destruct (step_newton _ _ _ _ (t_ws g) (t_y g) (t_fs g, t_p g) (computes_bdf1_mm (t_y g) (b0 :: st) (t + dt) 1 dt) Hi Hr)
          as [y' [ws' [[fs' p'] [E1 [E2 E3]]]]].
        rewrite E1. eexists. split; [reflexivity|]. cbn [t_ws t_st t_y]. split; [exact E2|]. split; [reflexivity|].
        apply (root_bdf1_mm o vo ap HF HV (M (t + dt)) (f (t + dt))). cbv beta.
        rewrite (lin_bdf1_mm o vo jo jid ap HF HV HM). exact E3.
      - destruct (step_newton _ _ _ _ (t_ws g) (t_y g) (t_fs g, t_p g) (computes_bdf2_mm (t_y g) a st (t + dt) k dt Hk) Hi Hr)
          as [y' [ws' [[fs' p'] [E1 [E2 E3]]]]].
        rewrite E1. eexists. split; [reflexivity|]. cbn [t_ws t_st t_y]. split; [exact E2|]. split; [reflexivity|].
        apply (root_bdf2_mm o vo ap HF HV (M (t + dt)) (f (t + dt))). cbv beta.
        rewrite (lin_bdf2_mm o vo jo jid ap HF HV HM). exact E3.
    Qed.
  End Mass.
End Step.

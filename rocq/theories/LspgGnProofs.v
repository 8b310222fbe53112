(** Lemmas behind C97. *)
From Coq Require Import Reals ZArith List Lra Lia Bool.
From Verif Require Import Base RInst Laws LawInst ExplicitModel AdvanceModel AdvanceSpec AdvanceProofs TargetProofs Track ImplicitModel ImplicitSpec ImplicitProofs ImplicitExtra ImplicitMore
  NonlinDiag NonlinModel NonlinWp NonlinDiagProofs NonlinSpec NonlinRuns NonlinProofs NonlinSolve NonlinLines NonlinClaims NonlinSeq NonlinFollow NonlinLaws NonlinExact
  NonlinReal NonlinTheory NonlinRest NonlinMoreSpec NonlinMore NewtonSpec GaussSpec GaussProofs GaussClaims
  LspgModel RomSpec LspgSpec LspgProofs LspgInst LspgClaims LspgMore LspgAsks RomRunSpec RomRunProofs RomLsSpec CompleteRun ExactRun RomLsProofs LspgGnSpec.
Import ListNotations.
Local Open Scope R_scope.

Section Lspg.
  Context {eps : R} {X Y J H L W U : Type}.
  Notation o := (Rops eps).
  Variable no : nlops R X Y J H.
  Variable yo : vops R Y.
  Variable jo : vops R J.
  Variable ap : J -> X -> Y.
  Variable apH : H -> X -> X.
  Notation xo := (n_vo no).
  Hypothesis HL : nl_laws eps no yo ap apH.
  Hypothesis HJ : vspace o jo.
  Let HF := R_field eps.
  Let HC := R_char0 eps.
  Let HY : vspace o yo := in_space _ _ (nl_r _ _ _ _ _ HL).
  Variables (recon : X -> Y) (phi : J).
  Variable fom : sfom (S:=R) (Y:=Y) (R:=Y) (J:=J) (B:=J) (W:=W).
  Variables (f : Y -> R -> Y) (df : Y -> J -> R -> J).
  Hypothesis Hfom : smooth_fom fom phi f df.
  Notation res := (lspg_res o yo recon f).
  Notation jac := (lspg_jacobian o jo recon df phi).
  Lemma gn_seen (rs : Y -> Y) (js : J -> J) y t r Jo w :
    exists j' w', seen_fom fom phi (fun a w => (Ok tt, (rs a, w))) (fun a w => (Ok tt, (js a, w))) y t r Jo w
      = (Ok tt, (rs (f y t), j', w')) /\ match Jo with Some _ => j' = Some (js (df y phi t)) | None => True end.
  Proof.
    destruct Hfom as (H1 & H2). cbv [seen_fom]. destruct (H1 y t r w) as [w1 E1]. rewrite E1.
    destruct Jo as [j|].
    - destruct (H2 y t j w1) as [w2 E2]. rewrite E2. eexists _, _. split; reflexivity.
    - eexists _, _. split; [reflexivity|exact I].
  Qed.
  Notation pr1 := (problem_one o recon (lspg_one o yo jo fom phi)).
  Notation pr2 := (problem_two o recon (lspg_one o yo jo fom phi) (lspg_two o yo jo fom phi)).
  Lemma gn_computes name tape t x_n hist dt : name = BDF1 \/ name = BDF2 ->
    computes (by_scheme name pr1 pr2 tape (mk_prun t (x_n :: hist)) dt) (res name (x_n :: hist) t dt) (jac name (x_n :: hist) t dt).
  Proof.
    assert (K1 : forall x r Jo w, exists j' w', pr1 tape (mk_prun t (x_n :: hist)) dt x r Jo w
        = (Ok tt, (res BDF1 (x_n :: hist) t dt x, j', w')) /\ match Jo with Some _ => j' = Some (jac BDF1 (x_n :: hist) t dt x) | None => True end).
    { intros x r Jo w. exact (gn_seen (fun a => bdf1_R o yo (recon x_n) dt a (recon x)) (scheme_J o jo phi 1 dt) (recon x) (t + dt) r Jo w). }
    intros [-> | ->]; cbn [by_scheme]; [exact K1|].
    destruct hist as [|x_nm1 hist']; [exact K1|].
    intros x r Jo w. exact (gn_seen (fun a => bdf2_R o yo (recon x_n) (recon x_nm1) dt a (recon x)) (scheme_J o jo phi (frac o 2 3) dt) (recon x) (t + dt) r Jo w).
  Qed.

  Variable xt : exts X Y J H L.
  Hypothesis Hlin : linear_ok xt (if_solvable (normal_exact apH)) (if_solvable (qr_exact no ap)) (if_solvable (newton_exact ap)) nothing.
  Variable wr : Y -> Y.
  Variable wj : J -> J.
  Hypothesis Hw : weights_ok xt wr wj nothing.
  Variables (tag : lstag) (cf : config R).
  Hypothesis Hcf : gauss_newton tag cf.
  Notation solver := (as_solver (ls_solve o no xt tag cf)).
  Notation P name := (lands_each no yo ap apH tag cf (res name) (jac name)).
  Lemma gn_sup : ls_supported tag cf.
  Proof. destruct Hcf as (_ & Hu & _). unfold ls_supported. rewrite Hu. exact I. Qed.
  Lemma gn_complete {W'} (rj : X -> Y -> option J -> W' -> outcome unit * (Y * option J * W')) F DF s w r s' w' : computes rj F DF -> ls_object o s ->
    exec rj (ls_solve o no xt tag cf) (s, w) = (r, (s', w')) -> r = Ok tt /\ ls_object o s'.
  Proof.
    destruct Hcf as (_ & Hu & Hmax). intros Hc Ho E.
    pose proof (ls_solve_ok o no xt (graph rj) wr wj _ _ _ _ _ _ _ (computes_ok rj _ _ Hc) Hw Hlin (ten_ends _ _ (ten_R eps)) none_linesearch tag cf s w Ho gn_sup) as K.
    pose proof (tri_exec _ _ _ _ _ _ _ _ _ _ _ _ _ _ K E) as [K1 [ls [K2 K3]]]. split; [|exact K1].
    remember (pt s') as p eqn:Ep. remember (g_file s') as fl eqn:Ef. clear Ep Ef K2 K E.
    destruct K3 as [is i p Hn Hst' Ha Hv Hm|is i p e Hn Hst' Ha Hv Hm Hstk|is p Hn Hmx Hst'|is p Hn Hn2 Hst'|is p e Hn Hst' He Hfe
                |is p r Hn Hst' He Hfe|is p r Hn Hst' He Hfe|is i p r Hn Hst' Ha Hv Hm He Hfe]; try reflexivity; try (destruct Hfe).
    - exfalso. lia.
    - unfold trial_failures in Hfe. rewrite Hu in Hfe. destruct Hfe.
  Qed.
  Lemma gn_lands {W'} (rj : X -> Y -> option J -> W' -> outcome unit * (Y * option J * W')) F DF (ws : reg R X Y J H L) y w : computes rj F DF -> ls_object o ws ->
    exists (y' : X) (ws' : reg R X Y J H L) (w' : W'), run_solver rj (solver ws y) y ws w = (Ok tt, (y', ws', w')) /\
      ls_object o ws' /\ lands no yo ap apH tag cf F DF y y'.
  Proof.
    intros Hc Ho. destruct (exec rj (ls_solve o no xt tag cf) (set_x y ws, w)) as [r [s' w']] eqn:E.
    assert (Ho' : ls_object o (set_x y ws)) by exact Ho.
    destruct (gn_complete rj _ _ _ _ _ _ _ Hc Ho' E) as [-> H1].
    exists (g_x s'), s', w'. split; [exact (as_solver_run _ _ _ _ _ y ws w _ _ _ (sp_ls_solve o no xt tag cf) E)|].
    split; [exact H1|]. intros xs rad beta gamma rho HG Hx0 Hs. destruct Hcf as (Htag & Hu & Hmax).
    assert (Hm0 : (0 <= f_max cf < int32_max)%Z) by lia.
    split.
    - destruct (min_converges no yo ap apH HL xt rj F DF Hc Hlin xs rad beta gamma rho HG wr wj Hw tag Hs cf _ _ _ _ _ Ho' Htag Hu Hm0 Hx0 E) as (ls & _ & _ & K & _).
      exact K.
    - intros M near far n HJ1 HM Hn Hnm.
      destruct (min_finds no yo ap apH HL xt rj F DF Hc Hlin xs rad beta gamma rho HG wr wj Hw tag Hs cf _ _ _ _ _ Ho' Htag Hu Hm0 Hx0 E M near far n HJ1 HM Hn Hnm)
        as (a & l & _ & _ & _ & _ & K). exact K.
  Qed.
  Lemma gn_asks' : asks solver.
  Proof. apply least_squares_asks; [exact gn_sup|]. destruct Hcf as (_ & _ & Hmax). lia. Qed.
  Lemma gn_finds name tape t y hist dt (ws : reg R X Y J H L) (w : W) : name = BDF1 \/ name = BDF2 -> ls_object o ws ->
    exists (y1 : X) (ws1 : reg R X Y J H L) (w1 : W), run_solver (by_scheme name pr1 pr2 (y :: tape) (mk_prun t (y :: hist)) dt) (solver ws y) y ws w = (Ok tt, (y1, ws1, w1)) /\
      ls_object o ws1 /\ P name (y :: hist) t dt y1.
  Proof.
    intros Hn Ho. exact (gn_lands _ _ _ ws y w (gn_computes name (y :: tape) t y hist dt Hn) Ho).
  Qed.
  Variable obs : Z -> R -> X -> U -> outcome unit * U.
  Variables (w0 : W) (name : scheme) (cs : X) (cr zero : Y) (x0 : X) (ws : reg R X Y J H L) (g0 : @sst R X Y (lpol (Y:=Y) (W:=W)) (reg R X Y J H L)).
  Hypothesis Hws : ls_object o ws.
  Hypothesis HE : lspg_create o name cs cr zero (fresh_policy w0) x0 ws = Ok g0.
  Notation stepfn := (implicit_step o (default_policy o yo jo recon fom phi) solver name).
  Lemma gn_name : name = BDF1 \/ name = BDF2.
  Proof. destruct name; try discriminate HE; auto. Qed.
  Lemma gn_refines : step_refines o solver (by_scheme name pr1 pr2) stepfn t_y
      (fun rn tape g ws q => exists last,
         inv_lspg recon any lp_h lp_w (match name with BDF1 => false | _ => true end) last rn tape g ws q).
  Proof.
    eapply (semi_refines o recon solver gn_asks' lp_h lp_w (default_policy o yo jo recon fom phi) pr1 pr2 (fresh_policy w0));
      [apply T_default1; assumption|apply T_default2; assumption|exact HE].
  Qed.
  Lemma gn_begins start y0 : exists tape ws q, (exists last,
         inv_lspg recon any lp_h lp_w (match name with BDF1 => false | _ => true end) last (Some (mk_prun start [y0])) tape (put_ode y0 g0) ws q) /\
      ls_object o ws.
  Proof.
    exists [], ws, w0. split; [|exact Hws].
    eapply (semi_inv_ws o recon lp_h lp_w (fresh_policy w0) w0); [intros d; split; reflexivity|exact HE].
  Qed.
  Lemma gn_n_steps pol num start y0 w : (Z.of_nat num < int32_max)%Z ->
    (forall k t y u, fst (obs k t y u) = Ok tt) -> (forall k t d u, exists dt, fst (pol k t d u) = Ok dt) ->
    exists y' g' w' tr t' d' l,
      advance_n_steps o (mk_user (split_obs obs) (pol3 (split_pol pol)) noop_guess (split_step (implicit_fn stepfn)))
        (Z.of_nat num) start (y0, (g0, w), []) = (Ok tt, (y', (g', w'), tr)) /\
      length l = num /\ linked_from Rplus (P name) start y0 ((t', d', y') :: l) /\ reports tr = numbered ((t', d', y') :: l).
  Proof.
    exact (exact_n_steps o solver _ stepfn put_ode t_y _ put_ode_get gn_refines (ls_object o) (P name)
             (fun tape t y hist dt ws q => gn_finds name tape t y hist dt ws q gn_name) start y0 obs g0 (gn_begins start y0) pol num w).
  Qed.
  Lemma gn_target_ends pol recovery h n fuel start final y0 w :
    0 <= eps -> (forall k t y u, fst (obs k t y u) = Ok tt) ->
    (forall k t x u, exists dt m c, fst (pol k t x u) = Ok (dt, m, c) /\ h <= dt /\ m <= dt /\ (recovery = true -> 1 < c)) ->
    start < final -> final - start <= INR n * h -> (n < fuel)%nat -> (Z.of_nat n < int32_max)%Z ->
    exists y' g' w' tr t' d' l,
      to_target o (mk_user (split_obs obs) (split_pol pol) noop_guess (split_step (implicit_fn stepfn))) recovery fuel
        start final (y0, (g0, w), []) = (Ok tt, (y', (g', w'), tr)) /\
      linked_from Rplus (P name) start y0 ((t', d', y') :: l) /\ reports tr = numbered ((t', d', y') :: l).
  Proof.
    exact (exact_target_ends eps solver _ stepfn put_ode t_y _ put_ode_get gn_refines (ls_object o) (P name)
             (fun tape t y hist dt ws q => gn_finds name tape t y hist dt ws q gn_name) obs g0
             pol recovery h n fuel start final y0 w (gn_begins start y0)).
  Qed.
End Lspg.
Section FomStep.
  Context {eps : R} {X Y J H : Type}.
  Notation o := (Rops eps).
  Variable no : nlops R X Y J H.
  Variable yo : vops R Y.
  Variable jo : vops R J.
  Variable ap : J -> X -> Y.
  Variable apH : H -> X -> X.
  Hypothesis HL : nl_laws eps no yo ap apH.
  Let HF := R_field eps.
  Let HC := R_char0 eps.
  Let HY : vspace o yo := in_space _ _ (nl_r _ _ _ _ _ HL).
  Variables (recon : X -> Y) (phi : J) (f : Y -> R -> Y).
  Lemma gn_root nm past t dt z : nm = BDF1 \/ nm = BDF2 -> fom_step o yo f nm (map recon past) t dt (recon z) ->
    lspg_res o yo recon f nm past t dt z = vzero yo.
  Proof.
    intros [-> | ->] Hz; (destruct past as [|x_n past]; [contradiction|]).
    - apply (root_bdf1 o yo HF HY (fun y => f y (t + dt))). exact Hz.
    - destruct past as [|x_nm1 past].
      + apply (root_bdf1 o yo HF HY (fun y => f y (t + dt))). exact Hz.
      + apply (root_bdf2 o yo HF HC HY (fun y => f y (t + dt))). exact Hz.
  Qed.
  Lemma gn_fom_minimum nm past t dt z DF rad beta gamma : nm = BDF1 \/ nm = BDF2 -> fom_step o yo f nm (map recon past) t dt (recon z) ->
    0 <= beta -> 0 <= gamma -> 0 <= rad ->
    (forall x, apart no x z <= rad -> forall v, n_norm no v <= beta * n_rnorm no (ap (DF x) v)) ->
    derivative_near no ap (lspg_res o yo recon f nm past t dt) DF z rad -> lipschitz_near no yo ap DF z rad gamma ->
    beta * (gamma / 2) * rad < 1 ->
    regular_minimum no yo ap (lspg_res o yo recon f nm past t dt) DF z rad beta gamma 0.
  Proof.
    intros Hn Hz Hb Hg Hr Hi HD Hl Hs. pose proof (gn_root _ _ _ _ _ Hn Hz) as E. pose proof (nl_r _ _ _ _ _ HL) as HR.
    eapply (lipschitz_minimum no yo ap apH HL); try assumption.
    - intros v. rewrite E. apply (dot_0_l _ _ HR).
    - rewrite E, (nl_rnorm _ _ _ _ _ HL), (dot_0_l _ _ HR), sqrt_0. lra.
    - lra.
  Qed.
End FomStep.

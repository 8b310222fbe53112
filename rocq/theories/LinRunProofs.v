(** Lemmas behind C82. *)
From Coq Require Import Reals ZArith List Lra Lia Bool.
From Verif Require Import Base RInst Laws LawInst ExplicitModel AdvanceModel AdvanceSpec AdvanceProofs TargetProofs Track ImplicitModel ImplicitSpec ImplicitProofs ImplicitRefine ImplicitExtra ImplicitMore
  NonlinDiag NonlinModel NonlinWp NonlinDiagProofs NonlinSpec NonlinRuns NonlinProofs NonlinSolve NonlinLines NonlinClaims NonlinSeq NonlinFollow NonlinLaws NonlinExact
  NonlinReal NonlinTheory NonlinRest NonlinMoreSpec NonlinMore NonlinStep RomLsSpec RomLsProofs CompleteRun ExactRun GalerkinSpec ImplicitSim RefineSim LinRunSpec.
Import ListNotations.
Local Open Scope R_scope.

(** * Newton on affine residuals *)
Section Newton.
  Context {eps : R} {V J H L : Type}.
  Notation o := (Rops eps).
  Variable no : nlops R V V J H.
  Variable ap : J -> V -> V.
  Variable apH : H -> V -> V.
  Notation vo := (n_vo no).
  Hypothesis HL : nl_laws eps no vo ap apH.
  Variable xt : exts V V J H L.
  Hypothesis Hlin : linear_ok xt (if_solvable (normal_exact apH)) (if_solvable (qr_exact no ap)) (if_solvable (newton_exact ap)) nothing.
  Variable cf : config R.
  Hypothesis Hcf : newton_settings cf.
  Lemma newton_supported : root_supported cf.
  Proof. destruct Hcf as (Hu & Hst & _). unfold root_supported. rewrite Hu. destruct Hst as [-> | ->]; split; exact I. Qed.
  Lemma newton_ends {W} (rj : V -> V -> option J -> W -> outcome unit * (V * option J * W)) F DF s w r s' w' : computes rj F DF -> root_object o s ->
    exec rj (root_solve o no xt cf) (s, w) = (r, (s', w')) -> r = Ok tt /\ root_object o s'.
  Proof.
    intros Hc Ho E. destruct Hcf as (Hu & Hst0 & Ht & Hmax).
    pose proof (root_solve_ok o no xt (graph rj) _ _ _ _ _ _ _ (computes_ok rj _ _ Hc) Hlin (ten_ends _ _ (ten_R eps)) none_linesearch cf s w Ho newton_supported) as K.
    pose proof (tri_exec _ _ _ _ _ _ _ _ _ _ _ _ _ _ K E) as [K1 [ls [K2 K3]]]. split; [|exact K1].
    remember (pt s') as p eqn:Ep. remember (g_file s') as fl eqn:Ef. clear Ep Ef K2 K E.
    destruct K3 as [is i p Hn Hst' Ha Hv Hm|is i p e Hn Hst' Ha Hv Hm Hstk|is p Hn Hmx Hst'|is p Hn Hn2 Hst'|is p e Hn Hst' He Hfe
                |is p r Hn Hst' He Hfe|is p r Hn Hst' He Hfe|is i p r Hn Hst' Ha Hv Hm He Hfe]; try reflexivity; try (destruct Hfe).
    - exfalso. lia.
    - unfold trial_failures in Hfe. rewrite Hu in Hfe. destruct Hfe.
  Qed.
  Lemma newton_run {W} (rj : V -> V -> option J -> W -> outcome unit * (V * option J * W)) K c ws y w :
    computes rj (affine vo ap K c) (fun _ => K) -> root_object o ws ->
    exists y' ws' w', run_solver rj (as_solver (root_solve o no xt cf) ws y) y ws w = (Ok tt, (y', ws', w')) /\
      root_object o ws' /\ (invertible vo ap K -> affine vo ap K c y' = vzero vo).
  Proof.
    intros Hc Ho. destruct (exec rj (root_solve o no xt cf) (set_x y ws, w)) as [r [s' w']] eqn:E.
    assert (Ho' : root_object o (set_x y ws)) by exact Ho.
    destruct (newton_ends rj _ _ _ _ _ _ _ Hc Ho' E) as [-> H1].
    exists (g_x s'), s', w'. split; [exact (as_solver_run _ _ _ _ _ y ws w _ _ _ (sp_root_solve o no xt cf) E)|].
    split; [exact H1|]. intros [Hi Hs]. destruct Hcf as (Hu & Hst0 & Ht & Hmax).
    exact (proj2 (proj2 (newton_root no vo ap apH HL xt rj K c Hc Hlin Hi Hs cf _ _ _ _ _ Ho' Hu Hst0 Ht Hmax E))).
  Qed.
  Lemma affine_inj K c x z : (forall v, ap K v = vzero vo -> v = vzero vo) ->
    affine vo ap K c x = vzero vo -> affine vo ap K c z = vzero vo -> z = x.
  Proof.
    intros Hi Hx Hz. apply (veq_sub vo _ (nl_v _ _ _ _ _ HL)). apply Hi.
    rewrite (apJ_add _ _ _ _ HL), (apJ_scale _ _ _ _ HL). pose proof (nl_r _ _ _ _ _ HL) as HR.
    apply (dot_ext vo _ HR). intros v. unfold affine in *.
    pose proof (f_equal (fun a => n_rdot no a v) Hx) as K1. pose proof (f_equal (fun a => n_rdot no a v) Hz) as K2. cbv beta in K1, K2.
    rewrite !(in_add _ _ HR) in K1, K2. rewrite !(in_add _ _ HR), (in_scale _ _ HR), (dot_0_l _ _ HR) in *. lra.
  Qed.
End Newton.

Section CnAffine.
  Context {S V J : Type} (o : sops S) (vo : vops S V) (jo : vops S J) (jid : J) (ap : J -> V -> V).
  Hypotheses (HF : sfield o) (HC : schar0 o) (HV : vspace o vo) (HM : matrices vo jo jid ap).
  Add Field SFcn : (sfield_th o HF).
  Lemma lin_cn A b y_n f_n h t y :
    cn_R o vo y_n f_n h (linear_rhs vo ap A b y t) y
    = vadd vo (ap (scheme_J o jo jid (frac o 1 2) h (A t)) y) (cn_R o vo y_n f_n h (b t) (vzero vo)).
  Proof.
    cbv delta [cn_R vminus scheme_J jminus neg1 linear_rhs] beta.
    repeat first [rewrite (m_add _ _ _ _ HM)|rewrite (m_scale _ _ _ _ HM)|rewrite (m_id _ _ _ _ HM)].
    vreduce o vo HF HV; ring.
  Qed.
End CnAffine.

(** * Runs *)
Section Runs.
  Context {eps : R} {V J H L W U : Type}.
  Notation o := (Rops eps).
  Variable no : nlops R V V J H.
  Variable ap : J -> V -> V.
  Variable apH : H -> V -> V.
  Notation vo := (n_vo no).
  Hypothesis HL : nl_laws eps no vo ap apH.
  Variable xt : exts V V J H L.
  Hypothesis Hlin : linear_ok xt (if_solvable (normal_exact apH)) (if_solvable (qr_exact no ap)) (if_solvable (newton_exact ap)) nothing.
  Variable cf : config R.
  Hypothesis Hcf : newton_settings cf.
  Variables (jo : vops R J) (jid : J).
  Hypotheses (HJ : vspace o jo) (HM : matrices vo jo jid ap).
  Variable u : isys (S:=R) (V:=V) (J:=J) (W:=W).
  Variables (A : R -> J) (b : R -> V).
  Notation newton := (as_solver (root_solve o no xt cf)).
  Notation f := (linear_rhs vo ap A b).
  Let HF := R_field eps.
  Let HC := R_char0 eps.
  Let HV : vspace o vo := in_space _ _ (nl_v _ _ _ _ _ HL).

  Section Plain.
    Variable name : scheme.
    Hypothesis HU : linear_user vo ap u A b.
    Notation K := (step_matrix o jo (fun _ => jid) A name).
    Definition wanted past t dt y := invertible vo ap (K past t dt) -> scheme_step o vo f name past t dt y.
    Definition pure_f (y : V) (t : R) : outcome (V * J) := Ok (f y t, A t).
    Definition no_jac (_ : V) (_ : R) (_ : option J) : option J := None.
    (** the same equation without a world *)
    Definition plain : isys (S:=R) (V:=V) (J:=J) (W:=unit) := ode_system f (fun _ t => A t).
    Lemma plain_sim : ssim u plain (fun _ _ => True).
    Proof.
      intros y t r Jo w [] _. destruct (HU y t r Jo w) as (w' & E). do 4 eexists. exists tt. split; [exact E|]. split; [reflexivity|exact I].
    Qed.
    Lemma plain_ode : linear_ode vo ap plain A b.
    Proof. intros y t r Jo w. eexists _, _. split; [reflexivity|]. destruct Jo; [reflexivity|congruence]. Qed.
    Definition the_problem : list V -> ImplicitSpec.prun R V -> R -> V -> V -> option J -> unit -> outcome unit * (V * option J * unit) :=
      match name with
      | BDF1 => problem_bdf1 o vo jo jid plain
      | BDF2 => problem_bdf2 o vo jo jid plain
      | _ => problem_cn o vo jo jid pure_f no_jac
      end.
    Definition plain_inv : option (ImplicitSpec.prun R V) -> list V -> @sst R V V (@ppol unit) (reg R V V J H L) -> reg R V V J H L -> unit -> Prop :=
      match name with BDF1 => inv1 | BDF2 => inv2 | _ => invcn pure_f (fun w => w) end.
    Definition the_inv : option (ImplicitSpec.prun R V) -> list V -> @sst R V V (@ppol W) (reg R V V J H L) -> reg R V V J H L -> unit -> Prop :=
      inv_sim (alike (fun _ _ => True)) plain_inv.
    Notation stepfn := (implicit_step o (policy_std o vo jo jid u) newton name).
    Lemma lin_refines : name = BDF1 \/ name = BDF2 \/ name = CrankNicolson -> step_refines o newton the_problem stepfn t_y the_inv.
    Proof.
      intros Hn. apply (refines_sim o newton the_problem stepfn (implicit_step o (policy_std o vo jo jid plain) newton name) t_y t_y).
      - intros t k dt. apply alike_step. exact plain_sim.
      - apply alike_state.
      - unfold the_problem, plain_inv. destruct Hn as [E|[E|E]]; rewrite E in *.
        + apply bdf1_refines; assumption.
        + apply bdf2_refines; assumption.
        + apply cn_refines; try assumption.
          intros y t f0 Jo w. eexists _, _. split; [reflexivity|]. split; [reflexivity|]. destruct Jo; [reflexivity|congruence].
    Qed.
    Lemma lin_begins cs cr p w1 y1 ws g0 start y0 : p = mk_ppol (-1) w1 -> implicit_create o name cs cr p y1 ws = Ok g0 -> root_object o ws ->
      exists tape ws q, the_inv (Some (mk_prun start [y0])) tape (put_ode y0 g0) ws q /\ root_object o ws.
    Proof.
      intros -> HE Ho. exists [], ws, tt. split; [|exact Ho].
      destruct (alike_created (WB:=unit) o (fun _ _ => True) name cs cr (-1) w1 tt y1 ws g0 y0 I HE) as (gb & HE' & HS).
      exists (put_ode y0 gb). split; [exact HS|]. clear HS HE g0. rename HE' into HE. unfold plain_inv.
      destruct name; try discriminate HE; cbn in HE; injection HE as <-.
      - split; [reflexivity|]. split; [reflexivity|]. split; [eexists _, _; reflexivity|cbn; eauto].
      - split; [reflexivity|]. split; [reflexivity|]. split; [do 3 eexists; split; [reflexivity|exact I]|cbn; eauto].
      - split; [reflexivity|]. split; [reflexivity|]. split; [cbn; eauto|]. split; [cbn; eauto|]. cbn. split; [lia|].
        exists cr, cr, []. split; [reflexivity|cbn; lia].
    Qed.
    Lemma lin_name (cs cr : V) (p : @ppol W) (y1 : V) (ws : reg R V V J H L) g0 : implicit_create o name cs cr p y1 ws = Ok g0 -> name = BDF1 \/ name = BDF2 \/ name = CrankNicolson.
    Proof. destruct name; try discriminate; auto. Qed.
    Lemma seen_linear (res : V -> V -> V) (js : J -> J) k c t :
      (forall y, res (f y t) y = affine vo ap k c y) -> js (A t) = k ->
      computes (seen plain res js t) (affine vo ap k c) (fun _ => k).
    Proof.
      intros H1 H2 y r Jo w. cbv [seen]. destruct (plain_ode y t r Jo w) as (j & w' & E & Ej). rewrite E. rewrite H1.
      eexists _, _. split; [reflexivity|]. destruct Jo as [j0|]; [|exact I]. rewrite (Ej ltac:(discriminate)). cbn. rewrite H2. reflexivity.
    Qed.
    (** the problem of a step, and what its solutions are *)
    Lemma lin_problem tape t y hist dt : name = BDF1 \/ name = BDF2 \/ name = CrankNicolson ->
      exists c, computes (the_problem (y :: tape) (mk_prun t (y :: hist)) dt) (affine vo ap (K (y :: hist) t dt) c) (fun _ => K (y :: hist) t dt) /\
        (forall z, affine vo ap (K (y :: hist) t dt) c z = vzero vo <-> scheme_step o vo f name (y :: hist) t dt z).
    Proof.
      unfold the_problem. intros Hn. 
      assert (K1 : forall nm, (nm = BDF1 \/ nm = BDF2 /\ hist = []) ->
        exists c, computes (problem_bdf1 o vo jo jid plain (y :: tape) (mk_prun t (y :: hist)) dt)
            (affine vo ap (step_matrix o jo (fun _ => jid) A nm (y :: hist) t dt) c) (fun _ => step_matrix o jo (fun _ => jid) A nm (y :: hist) t dt) /\
          (forall z, affine vo ap (step_matrix o jo (fun _ => jid) A nm (y :: hist) t dt) c z = vzero vo <-> scheme_step o vo f nm (y :: hist) t dt z)).
      { intros nm Hnm.
        assert (EK : step_matrix o jo (fun _ => jid) A nm (y :: hist) t dt = scheme_J o jo jid (s1 o) dt (A (t + dt)))
          by (destruct Hnm as [-> |[-> ->]]; reflexivity).
        rewrite EK. exists (bdf1_R o vo y dt (b (t + dt)) (vzero vo)). split.
        - cbv [problem_bdf1 r_hist r_t]. apply seen_linear; [|reflexivity].
          intros z. exact (lin_bdf1 o vo jo jid ap HF HV HM A b y dt (t + dt) z).
        - intros z. unfold affine. rewrite <- (lin_bdf1 o vo jo jid ap HF HV HM A b y dt (t + dt) z).
          rewrite (root_bdf1 o vo HF HV (fun x => f x (t + dt)) y dt z). destruct Hnm as [-> |[-> ->]]; reflexivity. }
      destruct Hn as [E|[E|E]]; rewrite E in *.
      - apply K1; left; reflexivity.
      - destruct hist as [|y_nm1 hist']; [apply (K1 BDF2); right; split; reflexivity|].
        exists (bdf2_R o vo y y_nm1 dt (b (t + dt)) (vzero vo)). split.
        + cbv [problem_bdf2 r_hist r_t]. apply seen_linear; [|reflexivity].
          intros z. exact (lin_bdf2 o vo jo jid ap HF HV HM A b y y_nm1 dt (t + dt) z).
        + intros z. unfold affine, step_matrix, weight_of. cbn [sadd Rops].
          rewrite <- (lin_bdf2 o vo jo jid ap HF HV HM A b y y_nm1 dt (t + dt) z).
          exact (root_bdf2 o vo HF HC HV (fun x => f x (t + dt)) y y_nm1 dt z).
      - exists (cn_R o vo y (f y t) dt (b (t + dt)) (vzero vo)). split.
        + cbv [problem_cn r_hist r_t]. intros z r Jo w. cbv [seen_cn pure_f]. eexists _, _. split.
          * unfold affine, step_matrix, weight_of. cbn [sadd Rops]. rewrite <- (lin_cn o vo jo jid ap HF HV HM A b y (f y t) dt (t + dt) z). reflexivity.
          * destruct Jo as [j|]; [reflexivity|exact I].
        + intros z. unfold affine, step_matrix, weight_of. cbn [sadd Rops]. rewrite <- (lin_cn o vo jo jid ap HF HV HM A b y (f y t) dt (t + dt) z).
          exact (root_cn o vo HF HV (fun x => f x (t + dt)) (f y t) y dt z).
    Qed.
    Lemma lin_finds : name = BDF1 \/ name = BDF2 \/ name = CrankNicolson ->
      forall tape t y hist dt (ws : reg R V V J H L) (q : unit), root_object o ws ->
      exists (y1 : V) (ws1 : reg R V V J H L) (q1 : unit), run_solver (the_problem (y :: tape) (mk_prun t (y :: hist)) dt) (newton ws y) y ws q = (Ok tt, (y1, ws1, q1)) /\
        root_object o ws1 /\ wanted (y :: hist) t dt y1.
    Proof.
      intros Hn tape t y hist dt ws q Ho. destruct (lin_problem tape t y hist dt Hn) as (c & Hc & HE).
      destruct (newton_run no ap apH HL xt Hlin cf Hcf _ _ _ ws y q Hc Ho) as (y1 & ws1 & w1 & E1 & E2 & E3).
      exists y1, ws1, w1. split; [exact E1|]. split; [exact E2|]. intros Hi. apply HE. apply E3. exact Hi.
    Qed.
    Lemma lin_unique past t dt x z : name = BDF1 \/ name = BDF2 \/ name = CrankNicolson -> wanted past t dt x ->
      invertible vo ap (K past t dt) /\ scheme_step o vo f name past t dt z -> z = x.
    Proof.
      intros Hn Hx [Hi Hz]. specialize (Hx Hi). destruct past as [|y hist]; [destruct Hn as [E|[E|E]]; rewrite E in Hz; contradiction|].
      destruct (lin_problem [] t y hist dt Hn) as (c & _ & HE).
      apply (affine_inj no ap apH HL (K (y :: hist) t dt) c); [exact (proj1 Hi)| |]; apply HE; assumption.
    Qed.
    Lemma lin_reproduces start y0 l m : name = BDF1 \/ name = BDF2 \/ name = CrankNicolson -> linked_from Rplus wanted start y0 l ->
      linked_from Rplus (fun past t dt y => invertible vo ap (K past t dt) /\ scheme_step o vo f name past t dt y) start y0 m ->
      map fst (numbered m) = map fst (numbered l) -> numbered m = numbered l.
    Proof.
      intros Hn. apply (linked_unique Rplus); [intros t d d' E; exact (Rplus_eq_reg_l _ _ _ E)|].
      intros past t dt x z. apply lin_unique. exact Hn.
    Qed.
    Variable obs : Z -> R -> V -> U -> outcome unit * U.
    Variables (w0 : W) (cs cr x0 : V) (ws : reg R V V J H L) (g0 : @sst R V V (@ppol W) (reg R V V J H L)).
    Hypothesis Hws : root_object o ws.
    Hypothesis HE : implicit_create o name cs cr (mk_ppol (-1) w0) x0 ws = Ok g0.
    Lemma lin_n_steps pol num start y0 w : (Z.of_nat num < int32_max)%Z ->
      (forall k t y u, fst (obs k t y u) = Ok tt) -> (forall k t d u, exists dt, fst (pol k t d u) = Ok dt) ->
      exists y' g' w' tr t' d' l,
        advance_n_steps o (mk_user (split_obs obs) (pol3 (split_pol pol)) noop_guess (split_step (implicit_fn stepfn)))
          (Z.of_nat num) start (y0, (g0, w), []) = (Ok tt, (y', (g', w'), tr)) /\
        length l = num /\ linked_from Rplus wanted start y0 ((t', d', y') :: l) /\ reports tr = numbered ((t', d', y') :: l).
    Proof.
      exact (exact_n_steps o newton _ stepfn put_ode t_y _ put_ode_get (lin_refines (lin_name _ _ _ _ _ _ HE)) (root_object o) wanted
               (lin_finds (lin_name _ _ _ _ _ _ HE)) start y0 obs g0 (lin_begins cs cr _ w0 x0 ws g0 start y0 eq_refl HE Hws) pol num w).
    Qed.
    Lemma lin_target pol recovery fuel start final y0 w y' g' w' tr :
      to_target o (mk_user (split_obs obs) (split_pol pol) noop_guess (split_step (implicit_fn stepfn))) recovery fuel
        start final (y0, (g0, w), []) = (Ok tt, (y', (g', w'), tr)) ->
      seqb o final start = false ->
      exists t' d' l, linked_from Rplus wanted start y0 ((t', d', y') :: l) /\ reports tr = numbered ((t', d', y') :: l).
    Proof.
      exact (exact_target o newton _ stepfn put_ode t_y _ put_ode_get (lin_refines (lin_name _ _ _ _ _ _ HE)) (root_object o) wanted
               (lin_finds (lin_name _ _ _ _ _ _ HE)) start y0 obs g0 (lin_begins cs cr _ w0 x0 ws g0 start y0 eq_refl HE Hws) pol recovery fuel final w y' g' w' tr).
    Qed.
    Lemma lin_n_steps_ok pol num start y0 w y' g' w' tr : (Z.of_nat num < int32_max)%Z ->
      advance_n_steps o (mk_user (split_obs obs) (pol3 (split_pol pol)) noop_guess (split_step (implicit_fn stepfn)))
          (Z.of_nat num) start (y0, (g0, w), []) = (Ok tt, (y', (g', w'), tr)) ->
      exists t' d' l, linked_from Rplus wanted start y0 ((t', d', y') :: l) /\ reports tr = numbered ((t', d', y') :: l).
    Proof.
      intros Hn E.
      pose proof (erel_step o newton _ stepfn put_ode t_y _ put_ode_get (lin_refines (lin_name _ _ _ _ _ _ HE)) (root_object o) wanted
               (lin_finds (lin_name _ _ _ _ _ _ HE)) start y0) as HS.
      destruct (n_steps_track o _ obs _ (complete_ok o _ _ HS) pol num start _ _ _ _ _ _ _ Hn E
                start (erel_start o put_ode the_inv (root_object o) wanted start y0 g0 (lin_begins cs cr _ w0 x0 ws g0 start y0 eq_refl HE Hws)))
        as (t' & d' & l & Hl & [_ HK] & HR). eauto.
    Qed.
    Lemma lin_target_ends pol recovery h n fuel start final y0 w :
      0 <= eps -> (forall k t y u, fst (obs k t y u) = Ok tt) ->
      (forall k t x u, exists dt m c, fst (pol k t x u) = Ok (dt, m, c) /\ h <= dt /\ m <= dt /\ (recovery = true -> 1 < c)) ->
      start < final -> final - start <= INR n * h -> (n < fuel)%nat -> (Z.of_nat n < int32_max)%Z ->
      exists y' g' w' tr t' d' l,
        to_target o (mk_user (split_obs obs) (split_pol pol) noop_guess (split_step (implicit_fn stepfn))) recovery fuel
          start final (y0, (g0, w), []) = (Ok tt, (y', (g', w'), tr)) /\
        linked_from Rplus wanted start y0 ((t', d', y') :: l) /\ reports tr = numbered ((t', d', y') :: l).
    Proof.
      exact (exact_target_ends eps newton _ stepfn put_ode t_y _ put_ode_get (lin_refines (lin_name _ _ _ _ _ _ HE)) (root_object o) wanted
               (lin_finds (lin_name _ _ _ _ _ _ HE)) obs g0 pol recovery h n fuel start final y0 w
               (lin_begins cs cr _ w0 x0 ws g0 start y0 eq_refl HE Hws)).
    Qed.
  End Plain.

  Section Mass.
    Variable M : R -> J.
    Hypothesis HU : linear_ode_mm vo ap u M A b.
    Variable name : scheme.
    Hypothesis Hn : name = BDF1 \/ name = BDF2.
    Notation K := (step_matrix o jo M A name).
    Definition wanted_mm past t dt y := invertible vo ap (K past t dt) -> scheme_step_mm o vo ap M f name past t dt y.
    Definition mm_problem : list V -> ImplicitSpec.prun R V -> R -> V -> V -> option J -> J * V * W -> outcome unit * (V * option J * (J * V * W)) :=
      match name with BDF1 => problem_bdf1_mm o vo jo ap u | _ => problem_bdf2_mm o vo jo ap u end.
    Definition mm_inv : option (ImplicitSpec.prun R V) -> list V -> @sst R V V (@mpol V J W) (reg R V V J H L) -> reg R V V J H L -> J * V * W -> Prop :=
      match name with BDF1 => inv1m | _ => inv2m end.
    Notation stepfn := (implicit_step o (policy_mm o vo jo ap u) newton name).
    Lemma mm_refines : step_refines o newton mm_problem stepfn t_y mm_inv.
    Proof.
      unfold mm_problem, mm_inv. destruct Hn as [-> | ->]; [apply bdf1_mm_refines|apply bdf2_mm_refines]; assumption.
    Qed.
    Lemma mm_begins cs cr p y1 ws g0 start y0 : implicit_create o name cs cr p y1 ws = Ok g0 -> root_object o ws ->
      exists tape ws q, mm_inv (Some (mk_prun start [y0])) tape (put_ode y0 g0) ws q /\ root_object o ws.
    Proof.
      intros HE Ho. exists [], ws, (mp_M p, mp_f p, mp_w p). split; [|exact Ho]. unfold mm_inv.
      destruct Hn as [E | E]; rewrite E in *; cbn in HE; injection HE as <-.
      - split; [reflexivity|]. split; [reflexivity|]. split; [eexists _, _; reflexivity|cbn; eauto].
      - split; [reflexivity|]. split; [reflexivity|]. split; [do 3 eexists; split; [reflexivity|exact I]|cbn; eauto].
    Qed.
    Lemma seen_linear_mm (res : J -> V -> V -> V) (js : J -> J -> J) k c t :
      (forall y, res (M t) (f y t) y = affine vo ap k c y) -> js (M t) (A t) = k ->
      computes (seen_mm u res js t) (affine vo ap k c) (fun _ => k).
    Proof.
      intros H1 H2 y r Jo [[M0 f0] w]. cbv [seen_mm]. destruct (HU y t M0 f0 Jo w) as (j & w' & E & Ej). rewrite E. rewrite H1.
      eexists _, _. split; [reflexivity|]. destruct Jo as [j0|]; [|exact I]. rewrite (Ej ltac:(discriminate)). cbn. rewrite H2. reflexivity.
    Qed.
    Lemma mm_lin_problem tape t y hist dt :
      exists c, computes (mm_problem (y :: tape) (mk_prun t (y :: hist)) dt) (affine vo ap (K (y :: hist) t dt) c) (fun _ => K (y :: hist) t dt) /\
        (forall z, affine vo ap (K (y :: hist) t dt) c z = vzero vo <-> scheme_step_mm o vo ap M f name (y :: hist) t dt z).
    Proof.
      unfold mm_problem.
      assert (K1 : forall nm, (nm = BDF1 \/ nm = BDF2 /\ hist = []) ->
        exists c, computes (problem_bdf1_mm o vo jo ap u (y :: tape) (mk_prun t (y :: hist)) dt)
            (affine vo ap (step_matrix o jo M A nm (y :: hist) t dt) c) (fun _ => step_matrix o jo M A nm (y :: hist) t dt) /\
          (forall z, affine vo ap (step_matrix o jo M A nm (y :: hist) t dt) c z = vzero vo <-> scheme_step_mm o vo ap M f nm (y :: hist) t dt z)).
      { intros nm Hnm.
        assert (EK : step_matrix o jo M A nm (y :: hist) t dt = scheme_J o jo (M (t + dt)) (s1 o) dt (A (t + dt)))
          by (destruct Hnm as [-> |[-> ->]]; reflexivity).
        rewrite EK. exists (bdf1_R_mm o vo ap y dt (M (t + dt)) (b (t + dt)) (vzero vo)). split.
        - cbv [problem_bdf1_mm r_hist r_t]. apply seen_linear_mm; [|reflexivity].
          intros z. exact (lin_bdf1_mm o vo jo jid ap HF HV HM A b (M (t + dt)) y dt (t + dt) z).
        - intros z. unfold affine. rewrite <- (lin_bdf1_mm o vo jo jid ap HF HV HM A b (M (t + dt)) y dt (t + dt) z).
          rewrite (root_bdf1_mm o vo ap HF HV (M (t + dt)) (fun x => f x (t + dt)) y dt z). destruct Hnm as [-> |[-> ->]]; reflexivity. }
      destruct Hn as [E|E]; rewrite E in *.
      - apply K1; left; reflexivity.
      - destruct hist as [|y_nm1 hist']; [apply (K1 BDF2); right; split; reflexivity|].
        exists (bdf2_R_mm o vo ap y y_nm1 dt (M (t + dt)) (b (t + dt)) (vzero vo)). split.
        + cbv [problem_bdf2_mm r_hist r_t]. apply seen_linear_mm; [|reflexivity].
          intros z. exact (lin_bdf2_mm o vo jo jid ap HF HV HM A b (M (t + dt)) y y_nm1 dt (t + dt) z).
        + intros z. unfold affine, step_matrix, weight_of. cbn [sadd Rops].
          rewrite <- (lin_bdf2_mm o vo jo jid ap HF HV HM A b (M (t + dt)) y y_nm1 dt (t + dt) z).
          exact (root_bdf2_mm o vo ap HF HV (M (t + dt)) (fun x => f x (t + dt)) y y_nm1 dt z).
    Qed.
    Lemma mm_finds : forall tape t y hist dt (ws : reg R V V J H L) (q : J * V * W), root_object o ws ->
      exists (y1 : V) (ws1 : reg R V V J H L) (q1 : J * V * W), run_solver (mm_problem (y :: tape) (mk_prun t (y :: hist)) dt) (newton ws y) y ws q = (Ok tt, (y1, ws1, q1)) /\
        root_object o ws1 /\ wanted_mm (y :: hist) t dt y1.
    Proof.
      intros tape t y hist dt ws q Ho. destruct (mm_lin_problem tape t y hist dt) as (c & Hc & HE).
      destruct (newton_run no ap apH HL xt Hlin cf Hcf _ _ _ ws y q Hc Ho) as (y1 & ws1 & w1 & E1 & E2 & E3).
      exists y1, ws1, w1. split; [exact E1|]. split; [exact E2|]. intros Hi. apply HE. apply E3. exact Hi.
    Qed.
    Lemma mm_reproduces start y0 l m : linked_from Rplus wanted_mm start y0 l ->
      linked_from Rplus (fun past t dt y => invertible vo ap (K past t dt) /\ scheme_step_mm o vo ap M f name past t dt y) start y0 m ->
      map fst (numbered m) = map fst (numbered l) -> numbered m = numbered l.
    Proof.
      apply (linked_unique Rplus); [intros t d d' E; exact (Rplus_eq_reg_l _ _ _ E)|].
      intros past t dt x z Hx [Hi Hz]. specialize (Hx Hi). destruct past as [|y hist]; [destruct Hn as [E|E]; rewrite E in Hz; contradiction|].
      destruct (mm_lin_problem [] t y hist dt) as (c & _ & HE).
      apply (affine_inj no ap apH HL (K (y :: hist) t dt) c); [exact (proj1 Hi)| |]; apply HE; assumption.
    Qed.
    Variable obs : Z -> R -> V -> U -> outcome unit * U.
    Variables (p0 : @mpol V J W) (cs cr x0 : V) (ws : reg R V V J H L) (g0 : @sst R V V (@mpol V J W) (reg R V V J H L)).
    Hypothesis Hws : root_object o ws.
    Hypothesis HE : implicit_create o name cs cr p0 x0 ws = Ok g0.
    Lemma mm_n_steps pol num start y0 w : (Z.of_nat num < int32_max)%Z ->
      (forall k t y u, fst (obs k t y u) = Ok tt) -> (forall k t d u, exists dt, fst (pol k t d u) = Ok dt) ->
      exists y' g' w' tr t' d' l,
        advance_n_steps o (mk_user (split_obs obs) (pol3 (split_pol pol)) noop_guess (split_step (implicit_fn stepfn)))
          (Z.of_nat num) start (y0, (g0, w), []) = (Ok tt, (y', (g', w'), tr)) /\
        length l = num /\ linked_from Rplus wanted_mm start y0 ((t', d', y') :: l) /\ reports tr = numbered ((t', d', y') :: l).
    Proof.
      exact (exact_n_steps o newton _ stepfn put_ode t_y _ put_ode_get mm_refines (root_object o) wanted_mm
               mm_finds start y0 obs g0 (mm_begins cs cr p0 x0 ws g0 start y0 HE Hws) pol num w).
    Qed.
    Lemma mm_target_ends pol recovery h n fuel start final y0 w :
      0 <= eps -> (forall k t y u, fst (obs k t y u) = Ok tt) ->
      (forall k t x u, exists dt m c, fst (pol k t x u) = Ok (dt, m, c) /\ h <= dt /\ m <= dt /\ (recovery = true -> 1 < c)) ->
      start < final -> final - start <= INR n * h -> (n < fuel)%nat -> (Z.of_nat n < int32_max)%Z ->
      exists y' g' w' tr t' d' l,
        to_target o (mk_user (split_obs obs) (split_pol pol) noop_guess (split_step (implicit_fn stepfn))) recovery fuel
          start final (y0, (g0, w), []) = (Ok tt, (y', (g', w'), tr)) /\
        linked_from Rplus wanted_mm start y0 ((t', d', y') :: l) /\ reports tr = numbered ((t', d', y') :: l).
    Proof.
      exact (exact_target_ends eps newton _ stepfn put_ode t_y _ put_ode_get mm_refines (root_object o) wanted_mm
               mm_finds obs g0 pol recovery h n fuel start final y0 w (mm_begins cs cr p0 x0 ws g0 start y0 HE Hws)).
    Qed.
  End Mass.
End Runs.

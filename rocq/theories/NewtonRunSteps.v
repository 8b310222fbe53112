(** C91: integrations of nonlinear equations with Newton's method. *)
From Coq Require Import Reals ZArith List Lra Lia Bool.
From Verif Require Import Base RInst Laws LawInst ExplicitModel AdvanceModel AdvanceSpec AdvanceProofs TargetProofs Track ImplicitModel ImplicitSpec ImplicitProofs ImplicitRefine ImplicitExtra ImplicitMore
  NonlinDiag NonlinModel NonlinWp NonlinDiagProofs NonlinSpec NonlinRuns NonlinProofs NonlinSolve NonlinLines NonlinClaims NonlinSeq NonlinFollow NonlinLaws NonlinExact
  NonlinReal NonlinTheory NonlinRest NonlinMoreSpec NonlinMore NonlinStep RomLsSpec RomLsProofs CompleteRun ExactRun GalerkinSpec ImplicitSim RefineSim LinRunSpec
  NewtonSpec NewtonRunSpec NewtonRunProofs.
Import ListNotations.
Local Open Scope R_scope.

(** * Solves *)
Section Newton.
  Context {eps : R} {V J H L : Type}.
  Notation o := (Rops eps).
  Variable no : nlops R V V J H.
  Variable ap : J -> V -> V.
  Variable apH : H -> V -> V.
  Notation vo := (n_vo no).
  Hypothesis HL : nl_laws eps no vo ap apH.
  Variable xt : exts V V J H L.
  Hypothesis Hlin : linear_ok xt (if_solvable (normal_exact apH)) (if_solvable (qr_exact no ap)) (if_solvable (newton_exact ap)) nothing.
  Variable cf : config R.
  Hypothesis Hcf : newton_absolute cf.
  Lemma absolute_supported : root_supported cf.
  Proof. destruct Hcf as (Hu & Hst & _). unfold root_supported. rewrite Hu. destruct Hst as [-> | ->]; split; exact I. Qed.
  Lemma absolute_ends {W} (rj : V -> V -> option J -> W -> outcome unit * (V * option J * W)) F DF s w r s' w' : computes rj F DF -> root_object o s ->
    exec rj (root_solve o no xt cf) (s, w) = (r, (s', w')) -> r = Ok tt /\ root_object o s'.
  Proof.
    intros Hc Ho E. destruct Hcf as (Hu & Hst0 & Hmax).
    pose proof (root_solve_ok o no xt (graph rj) _ _ _ _ _ _ _ (computes_ok rj _ _ Hc) Hlin (ten_ends _ _ (ten_R eps)) none_linesearch cf s w Ho absolute_supported) as K.
    pose proof (tri_exec _ _ _ _ _ _ _ _ _ _ _ _ _ _ K E) as [K1 [ls [K2 K3]]]. split; [|exact K1].
    remember (pt s') as p eqn:Ep. remember (g_file s') as fl eqn:Ef. clear Ep Ef K2 K E.
    destruct K3 as [is i p Hn Hst' Ha Hv Hm|is i p e Hn Hst' Ha Hv Hm Hstk|is p Hn Hmx Hst'|is p Hn Hn2 Hst'|is p e Hn Hst' He Hfe
                |is p r Hn Hst' He Hfe|is p r Hn Hst' He Hfe|is i p r Hn Hst' Ha Hv Hm He Hfe]; try reflexivity; try (destruct Hfe).
    - exfalso. lia.
    - unfold trial_failures in Hfe. rewrite Hu in Hfe. destruct Hfe.
  Qed.
  Lemma absolute_run {W} (rj : V -> V -> option J -> W -> outcome unit * (V * option J * W)) F DF ws y w :
    computes rj F DF -> root_object o ws ->
    exists y' ws' w', run_solver rj (as_solver (root_solve o no xt cf) ws y) y ws w = (Ok tt, (y', ws', w')) /\
      root_object o ws' /\ (forall far, starts_well no vo ap cf F DF y far -> n_rnorm no (F y') <= far * f_tol cf).
  Proof.
    intros Hc Ho. destruct (exec rj (root_solve o no xt cf) (set_x y ws, w)) as [r [s' w']] eqn:E.
    assert (Ho' : root_object o (set_x y ws)) by exact Ho.
    destruct (absolute_ends rj _ _ _ _ _ _ _ Hc Ho' E) as [-> H1].
    exists (g_x s'), s', w'. split; [exact (as_solver_run _ _ _ _ _ y ws w _ _ _ (sp_root_solve o no xt cf) E)|].
    split; [exact H1|]. intros far (rad & beta & gamma & M & near & HG & HW & HM & n & Hn & Hlt). destruct Hcf as (Hu & Hst0 & Hmax).
    destruct (around_finds no vo ap apH HL xt rj F DF Hc Hlin cf (set_x y ws) w _ s' w' Ho' absolute_supported Hu Hmax E rad beta gamma HG M near far HW HM n Hn Hlt)
      as (a & l & _ & _ & _ & _ & K). exact K.
  Qed.
End Newton.

(** * Runs *)
Section Runs.
  Context {eps : R} {V J H L W U : Type}.
  Notation o := (Rops eps).
  Variable no : nlops R V V J H.
  Variable ap : J -> V -> V.
  Variable apH : H -> V -> V.
  Notation vo := (n_vo no).
  Hypothesis HL : nl_laws eps no vo ap apH.
  Variable xt : exts V V J H L.
  Hypothesis Hlin : linear_ok xt (if_solvable (normal_exact apH)) (if_solvable (qr_exact no ap)) (if_solvable (newton_exact ap)) nothing.
  Variable cf : config R.
  Hypothesis Hcf : newton_absolute cf.
  Variables (jo : vops R J) (jid : J).
  Hypotheses (HJ : vspace o jo) (HM : matrices vo jo jid ap).
  Variable u : isys (S:=R) (V:=V) (J:=J) (W:=W).
  Variables (f : V -> R -> V) (Df : V -> R -> J).
  Notation newton := (as_solver (root_solve o no xt cf)).
  Let HF := R_field eps.
  Let HC := R_char0 eps.
  Let HV : vspace o vo := in_space _ _ (nl_v _ _ _ _ _ HL).

  Section Plain.
    Variable name : scheme.
    Hypothesis HU : smooth_user u f Df.
    Notation res := (scheme_residual o vo f name).
    Notation jac := (scheme_jacobian o jo jid Df name).
    Definition met_step past t dt y := forall far, starts_well no vo ap cf (res past t dt) (jac past t dt) (hd (vzero vo) past) far ->
      n_rnorm no (res past t dt y) <= far * f_tol cf.
    Definition pure_f (y : V) (t : R) : outcome (V * J) := Ok (f y t, Df y t).
    Definition no_jac (_ : V) (_ : R) (_ : option J) : option J := None.
    (** the same equation without a world *)
    Definition plain : isys (S:=R) (V:=V) (J:=J) (W:=unit) := ode_system f Df.
    Lemma plain_sim : ssim u plain (fun _ _ => True).
    Proof.
      intros y t r Jo w [] _. destruct (HU y t r Jo w) as (w' & E). do 4 eexists. exists tt. split; [exact E|]. split; [reflexivity|exact I].
    Qed.
    Definition the_problem : list V -> ImplicitSpec.prun R V -> R -> V -> V -> option J -> unit -> outcome unit * (V * option J * unit) :=
      match name with
      | BDF1 => problem_bdf1 o vo jo jid plain
      | BDF2 => problem_bdf2 o vo jo jid plain
      | _ => problem_cn o vo jo jid pure_f no_jac
      end.
    Definition plain_inv : option (ImplicitSpec.prun R V) -> list V -> @sst R V V (@ppol unit) (reg R V V J H L) -> reg R V V J H L -> unit -> Prop :=
      match name with BDF1 => inv1 | BDF2 => inv2 | _ => invcn pure_f (fun w => w) end.
    Definition the_inv : option (ImplicitSpec.prun R V) -> list V -> @sst R V V (@ppol W) (reg R V V J H L) -> reg R V V J H L -> unit -> Prop :=
      inv_sim (alike (fun _ _ => True)) plain_inv.
    Notation stepfn := (implicit_step o (policy_std o vo jo jid u) newton name).
    Lemma new_refines : name = BDF1 \/ name = BDF2 \/ name = CrankNicolson -> step_refines o newton the_problem stepfn t_y the_inv.
    Proof.
      intros Hn. apply (refines_sim o newton the_problem stepfn (implicit_step o (policy_std o vo jo jid plain) newton name) t_y t_y).
      - intros t k dt. apply alike_step. exact plain_sim.
      - apply alike_state.
      - unfold the_problem, plain_inv. destruct Hn as [E|[E|E]]; rewrite E in *.
        + apply bdf1_refines; assumption.
        + apply bdf2_refines; assumption.
        + apply cn_refines; try assumption.
          intros y t f0 Jo w. eexists _, _. split; [reflexivity|]. split; [reflexivity|]. destruct Jo; [reflexivity|congruence].
    Qed.
    Lemma new_begins cs cr p w1 y1 ws g0 start y0 : p = mk_ppol (-1) w1 -> implicit_create o name cs cr p y1 ws = Ok g0 -> root_object o ws ->
      exists tape ws q, the_inv (Some (mk_prun start [y0])) tape (put_ode y0 g0) ws q /\ root_object o ws.
    Proof.
      intros -> HE Ho. exists [], ws, tt. split; [|exact Ho].
      destruct (alike_created (WB:=unit) o (fun _ _ => True) name cs cr (-1) w1 tt y1 ws g0 y0 I HE) as (gb & HE' & HS).
      exists (put_ode y0 gb). split; [exact HS|]. clear HS HE g0. rename HE' into HE. unfold plain_inv.
      destruct name; try discriminate HE; cbn in HE; injection HE as <-.
      - split; [reflexivity|]. split; [reflexivity|]. split; [eexists _, _; reflexivity|cbn; eauto].
      - split; [reflexivity|]. split; [reflexivity|]. split; [do 3 eexists; split; [reflexivity|exact I]|cbn; eauto].
      - split; [reflexivity|]. split; [reflexivity|]. split; [cbn; eauto|]. split; [cbn; eauto|]. cbn. split; [lia|].
        exists cr, cr, []. split; [reflexivity|cbn; lia].
    Qed.
    Lemma new_name (cs cr : V) (p : @ppol W) (y1 : V) (ws : reg R V V J H L) g0 : implicit_create o name cs cr p y1 ws = Ok g0 -> name = BDF1 \/ name = BDF2 \/ name = CrankNicolson.
    Proof. destruct name; try discriminate; auto. Qed.
    Lemma seen_smooth (rs : V -> V -> V) (js : J -> J) F DF t :
      (forall y, rs (f y t) y = F y) -> (forall y, js (Df y t) = DF y) -> computes (seen plain rs js t) F DF.
    Proof.
      intros H1 H2 y r Jo w. cbv [seen plain ode_system is_eval]. rewrite H1.
      eexists _, _. split; [reflexivity|]. destruct Jo as [j0|]; [|exact I]. cbn. rewrite H2. reflexivity.
    Qed.
    Lemma new_problem tape t y hist dt : name = BDF1 \/ name = BDF2 \/ name = CrankNicolson ->
      computes (the_problem (y :: tape) (mk_prun t (y :: hist)) dt) (res (y :: hist) t dt) (jac (y :: hist) t dt).
    Proof.
      unfold the_problem. intros [E|[E|E]]; rewrite E.
      - cbv [problem_bdf1 r_hist r_t]. apply seen_smooth; intros; reflexivity.
      - destruct hist as [|y_nm1 hist'].
        + cbv [problem_bdf2 problem_bdf1 r_hist r_t]. apply seen_smooth; intros; reflexivity.
        + cbv [problem_bdf2 r_hist r_t]. apply seen_smooth; intros; reflexivity.
      - cbv [problem_cn r_hist r_t]. intros z r Jo w. cbv [seen_cn pure_f]. eexists _, _. split; [reflexivity|].
        destruct Jo as [j|]; [reflexivity|exact I].
    Qed.
    Lemma new_finds : name = BDF1 \/ name = BDF2 \/ name = CrankNicolson ->
      forall tape t y hist dt (ws : reg R V V J H L) (q : unit), root_object o ws ->
      exists (y1 : V) (ws1 : reg R V V J H L) (q1 : unit), run_solver (the_problem (y :: tape) (mk_prun t (y :: hist)) dt) (newton ws y) y ws q = (Ok tt, (y1, ws1, q1)) /\
        root_object o ws1 /\ met_step (y :: hist) t dt y1.
    Proof.
      intros Hn tape t y hist dt ws q Ho. pose proof (new_problem tape t y hist dt Hn) as Hc.
      destruct (absolute_run no ap apH HL xt Hlin cf Hcf _ _ _ ws y q Hc Ho) as (y1 & ws1 & w1 & E1 & E2 & E3).
      exists y1, ws1, w1. split; [exact E1|]. split; [exact E2|exact E3].
    Qed.
    Variable obs : Z -> R -> V -> U -> outcome unit * U.
    Variables (w0 : W) (cs cr x0 : V) (ws : reg R V V J H L) (g0 : @sst R V V (@ppol W) (reg R V V J H L)).
    Hypothesis Hws : root_object o ws.
    Hypothesis HE : implicit_create o name cs cr (mk_ppol (-1) w0) x0 ws = Ok g0.
    Lemma new_n_steps pol num start y0 w : (Z.of_nat num < int32_max)%Z ->
      (forall k t y u, fst (obs k t y u) = Ok tt) -> (forall k t d u, exists dt, fst (pol k t d u) = Ok dt) ->
      exists y' g' w' tr t' d' l,
        advance_n_steps o (mk_user (split_obs obs) (pol3 (split_pol pol)) noop_guess (split_step (implicit_fn stepfn)))
          (Z.of_nat num) start (y0, (g0, w), []) = (Ok tt, (y', (g', w'), tr)) /\
        length l = num /\ linked_from Rplus met_step start y0 ((t', d', y') :: l) /\ reports tr = numbered ((t', d', y') :: l).
    Proof.
      exact (exact_n_steps o newton _ stepfn put_ode t_y _ put_ode_get (new_refines (new_name _ _ _ _ _ _ HE)) (root_object o) met_step
               (new_finds (new_name _ _ _ _ _ _ HE)) start y0 obs g0 (new_begins cs cr _ w0 x0 ws g0 start y0 eq_refl HE Hws) pol num w).
    Qed.
    Lemma new_target pol recovery fuel start final y0 w y' g' w' tr :
      to_target o (mk_user (split_obs obs) (split_pol pol) noop_guess (split_step (implicit_fn stepfn))) recovery fuel
        start final (y0, (g0, w), []) = (Ok tt, (y', (g', w'), tr)) ->
      seqb o final start = false ->
      exists t' d' l, linked_from Rplus met_step start y0 ((t', d', y') :: l) /\ reports tr = numbered ((t', d', y') :: l).
    Proof.
      exact (exact_target o newton _ stepfn put_ode t_y _ put_ode_get (new_refines (new_name _ _ _ _ _ _ HE)) (root_object o) met_step
               (new_finds (new_name _ _ _ _ _ _ HE)) start y0 obs g0 (new_begins cs cr _ w0 x0 ws g0 start y0 eq_refl HE Hws) pol recovery fuel final w y' g' w' tr).
    Qed.
    Lemma new_n_steps_ok pol num start y0 w y' g' w' tr : (Z.of_nat num < int32_max)%Z ->
      advance_n_steps o (mk_user (split_obs obs) (pol3 (split_pol pol)) noop_guess (split_step (implicit_fn stepfn)))
          (Z.of_nat num) start (y0, (g0, w), []) = (Ok tt, (y', (g', w'), tr)) ->
      exists t' d' l, linked_from Rplus met_step start y0 ((t', d', y') :: l) /\ reports tr = numbered ((t', d', y') :: l).
    Proof.
      intros Hn E.
      pose proof (erel_step o newton _ stepfn put_ode t_y _ put_ode_get (new_refines (new_name _ _ _ _ _ _ HE)) (root_object o) met_step
               (new_finds (new_name _ _ _ _ _ _ HE)) start y0) as HS.
      destruct (n_steps_track o _ obs _ (complete_ok o _ _ HS) pol num start _ _ _ _ _ _ _ Hn E
                start (erel_start o put_ode the_inv (root_object o) met_step start y0 g0 (new_begins cs cr _ w0 x0 ws g0 start y0 eq_refl HE Hws)))
        as (t' & d' & l & Hl & [_ HK] & HR). eauto.
    Qed.
    Lemma new_target_ends pol recovery h n fuel start final y0 w :
      0 <= eps -> (forall k t y u, fst (obs k t y u) = Ok tt) ->
      (forall k t x u, exists dt m c, fst (pol k t x u) = Ok (dt, m, c) /\ h <= dt /\ m <= dt /\ (recovery = true -> 1 < c)) ->
      start < final -> final - start <= INR n * h -> (n < fuel)%nat -> (Z.of_nat n < int32_max)%Z ->
      exists y' g' w' tr t' d' l,
        to_target o (mk_user (split_obs obs) (split_pol pol) noop_guess (split_step (implicit_fn stepfn))) recovery fuel
          start final (y0, (g0, w), []) = (Ok tt, (y', (g', w'), tr)) /\
        linked_from Rplus met_step start y0 ((t', d', y') :: l) /\ reports tr = numbered ((t', d', y') :: l).
    Proof.
      exact (exact_target_ends eps newton _ stepfn put_ode t_y _ put_ode_get (new_refines (new_name _ _ _ _ _ _ HE)) (root_object o) met_step
               (new_finds (new_name _ _ _ _ _ _ HE)) obs g0 pol recovery h n fuel start final y0 w
               (new_begins cs cr _ w0 x0 ws g0 start y0 eq_refl HE Hws)).
    Qed.
  End Plain.
End Runs.

(** Lemmas behind C81. *)
From Coq Require Import Reals ZArith List Lra Lia Bool.
From Verif Require Import Base RInst Laws LawInst ExplicitModel AdvanceModel AdvanceSpec AdvanceProofs TargetProofs Track ImplicitModel ImplicitSpec ImplicitProofs ImplicitExtra ImplicitMore
  NonlinDiag NonlinModel NonlinWp NonlinDiagProofs NonlinSpec NonlinRuns NonlinProofs NonlinSolve NonlinLines NonlinClaims NonlinSeq NonlinFollow NonlinLaws NonlinExact
  NonlinReal NonlinTheory NonlinRest NonlinMoreSpec NonlinMore LspgModel RomSpec LspgSpec LspgProofs LspgInst LspgClaims LspgMore LspgAsks RomRunSpec RomRunProofs RomLsSpec CompleteRun ExactRun.
Import ListNotations.
Local Open Scope R_scope.

(** * Gauss-Newton on affine residuals *)
Section GaussNewton.
  Context {eps : R} {V Rs J H L : Type}.
  Notation o := (Rops eps).
  Variable no : nlops R V Rs J H.
  Variable ro : vops R Rs.
  Variable apJ : J -> V -> Rs.
  Variable apH : H -> V -> V.
  Hypothesis HL : nl_laws eps no ro apJ apH.
  Variable xt : exts V Rs J H L.
  Notation vo := (n_vo no).
  Notation info := (info R V Rs J).
  Hypothesis Hlin : linear_ok xt (if_solvable (normal_exact apH)) (if_solvable (qr_exact no apJ)) (if_solvable (newton_exact apJ)) nothing.
  Variable wr : Rs -> Rs.
  Variable wj : J -> J.
  Hypothesis Hw : weights_ok xt wr wj nothing.
  Variables (tag : lstag) (cf : config R).
  Hypotheses (Htag : tag = GaussNewton \/ tag = GaussNewtonQr) (Hu : f_update cf = UStandard)
    (Hst : f_stop cf = WhenRelCorrection \/ f_stop cf = WhenRelGradient)
    (Ht : 0 < f_tol cf <= 1) (Hmax : (2 <= f_max cf < int32_max)%Z).
  Let HV := nl_v _ _ _ _ _ HL.
  Let HR := nl_r _ _ _ _ _ HL.

  Lemma gn_supported : ls_supported tag cf.
  Proof. unfold ls_supported. rewrite Hu. exact I. Qed.
  Section System.
    Context {W : Type}.
    Variable rj : V -> Rs -> option J -> W -> outcome unit * (Rs * option J * W).
    Lemma gn_ends F DF s w r s' w' : computes rj F DF -> ls_object o s ->
      exec rj (ls_solve o no xt tag cf) (s, w) = (r, (s', w')) -> r = Ok tt /\ ls_object o s'.
    Proof.
      intros Hc Ho E.
      pose proof (ls_solve_ok o no xt (graph rj) wr wj _ _ _ _ _ _ _ (computes_ok rj _ _ Hc) Hw Hlin (ten_ends _ _ (ten_R eps)) none_linesearch tag cf s w Ho gn_supported) as K.
      pose proof (tri_exec _ _ _ _ _ _ _ _ _ _ _ _ _ _ K E) as [K1 [ls [K2 K3]]]. split; [|exact K1].
      remember (pt s') as p eqn:Ep. remember (g_file s') as fl eqn:Ef. clear Ep Ef K2 K E.
      destruct K3 as [is i p Hn Hst' Ha Hv Hm|is i p e Hn Hst' Ha Hv Hm Hstk|is p Hn Hmx Hst'|is p Hn Hn2 Hst'|is p e Hn Hst' He Hfe
                  |is p r Hn Hst' He Hfe|is p r Hn Hst' He Hfe|is i p r Hn Hst' Ha Hv Hm He Hfe]; try reflexivity; try (destruct Hfe).
      - exfalso. lia.
      - unfold trial_failures in Hfe. rewrite Hu in Hfe. destruct Hfe.
    Qed.
    Variables (A : J) (b : Rs).
    Notation F := (affine ro apJ A b).
    Hypothesis Hc : computes rj F (fun _ => A).
    Hypothesis Hreg : regular no ro apJ apH tag A.

    Lemma gn_normal (i : info) :
      ls_valid no wr wj (fun y r => r = F y) (fun _ j => j = A) (if_solvable (normal_exact apH)) (if_solvable (qr_exact no apJ)) tag i ->
      i_r i = F (i_x i) /\ i_j i = A /\ apH (n_jtj no A A) (i_d i) = n_jtr no A (F (i_x i)).
    Proof.
      destruct Hreg as [Hf Hsolv]. intros [V1 [V2 V3]]. cbv beta in V1, V2. split; [exact V1|]. split; [exact V2|].
      rewrite <- V1. rewrite V2 in V3. destruct Htag as [E | E]; rewrite E in *.
      - exact (solved_normal _ _ _ _ HL A _ _ Hf (Hsolv _) V3).
      - apply (qr_normal _ _ _ _ HL). exact (solved_qr _ _ _ _ HL A _ _ Hf (Hsolv _) V3).
    Qed.
    Lemma at_stationary x : n_jtr no A (F x) = vzero vo -> only_minimiser (n_rnorm no) F x.
    Proof.
      intros Hg z.
      assert (K : n_rdot no (F z) (F z) = n_rdot no (F x) (F x)
                  + n_rdot no (apJ A (vadd vo z (vscale vo (-1) x))) (apJ A (vadd vo z (vscale vo (-1) x)))).
      { set (e := vadd vo z (vscale vo (-1) x)).
        assert (Ez : F z = vadd ro (F x) (apJ A e)).
        { subst e. unfold affine. rewrite (apJ_add _ _ _ _ HL), (apJ_scale _ _ _ _ HL). apply (dot_ext ro _ HR).
          intros v. rewrite !(in_add _ _ HR), (in_scale _ _ HR). ring. }
        assert (E0 : n_rdot no (F x) (apJ A e) = 0) by (rewrite <- (nl_jtr _ _ _ _ _ HL), Hg; apply (dot_0_l _ _ HV)).
        rewrite Ez, (in_add _ _ HR), (in_sym _ _ HR (F x)), (in_sym _ _ HR (apJ A e) (vadd ro _ _)), !(in_add _ _ HR),
          (in_sym _ _ HR (apJ A e) (F x)), E0. ring. }
      rewrite !(nl_rnorm _ _ _ _ _ HL). split.
      - apply sqrt_le_1_alt. rewrite K. pose proof (in_pos _ _ HR (apJ A (vadd vo z (vscale vo (-1) x)))). lra.
      - intros Hle. apply sqrt_le_0 in Hle; [|apply (in_pos _ _ HR)|apply (in_pos _ _ HR)].
        pose proof (in_pos _ _ HR (apJ A (vadd vo z (vscale vo (-1) x)))) as Hp.
        apply (veq_sub vo _ HV). apply (proj1 Hreg). apply (in_zero _ _ HR). lra.
    Qed.
    Lemma gn_min s w r s' w' : ls_object o s -> exec rj (ls_solve o no xt tag cf) (s, w) = (r, (s', w')) ->
      only_minimiser (n_rnorm no) F (g_x s').
    Proof.
      intros Ho E.
      pose proof (ls_solve_ok o no xt (graph rj) wr wj _ _ _ _ _ _ _ (computes_ok rj _ _ Hc) Hw Hlin (ten_ends _ _ (ten_R eps)) none_linesearch tag cf s w Ho gn_supported) as K.
      pose proof (tri_exec _ _ _ _ _ _ _ _ _ _ _ _ _ _ K E) as [K1 [ls [K2 K3]]].
      assert (Hone : forall x, Rltb (x / x) (f_tol cf) = true -> x = 0).
      { intros x Hx. destruct (Req_dec x 0) as [|Hn]; [assumption|]. exfalso. apply Rltb_true in Hx.
        replace (x / x) with 1 in Hx by (field; exact Hn). lra. }
      assert (Hroot0 : forall x, 0 <= x -> sqrt x = 0 -> x = 0) by (intros x Hx Hs; apply sqrt_eq_0; assumption).
      (* after a step *)
      assert (Hs : forall is p, steps o cf (ls_valid no wr wj (fun y r => r = F y) (fun _ j => j = A) (if_solvable (normal_exact apH)) (if_solvable (qr_exact no apJ)) tag)
        (ls_meas o no wr wj tag) (ls_move o no (fun y r => r = F y) (ls_objective o no wr tag) cf)
        (start o tag cf (g_x s) (g_damp s) (g_nu s)) is p ->
        is = [] \/ n_jtr no A (F (fst (fst p))) = vzero vo).
      { intros is q Hs. destruct Hs as [|is p1 i p' Hs Ha Hv Hmm Hmv]; [left; reflexivity|]. right.
        unfold ls_move in Hmv. rewrite Hu in Hmv. unfold move_full in Hmv. subst p'. cbn [fst].
        destruct (gn_normal i Hv) as [_ [_ Hn]].
        exact (affine_gn _ _ _ _ HL A b (i_x i) (i_d i) Hn). }
      apply at_stationary.
      remember (pt s') as p eqn:Ep. assert (Ex : g_x s' = fst (fst p)) by (subst p; reflexivity). rewrite Ex. clear Ep Ex.
      remember (g_file s') as fl eqn:Ef. clear Ef K2 K E K1.
      destruct K3 as [is i p Hn Hst' Ha Hv Hm|is i p e Hn Hst' Ha Hv Hm Hstk|is p Hn Hmx Hst'|is p Hn Hn2 Hst'|is p e Hn Hst' He Hfe
                  |is p r Hn Hst' He Hfe|is p r Hn Hst' He Hfe|is i p r Hn Hst' Ha Hv Hm He Hfe]; try (destruct Hfe).
      - destruct (Hs _ _ Hst') as [->|Hg]; [|exact Hg].
        destruct (gn_normal i Hv) as [V1 [V2 V3]]. unfold NonlinSpec.first in Hm. cbn [hd map] in Hm.
        unfold at_point in Ha. rewrite Ha. cbn [fst].
        unfold met in Hm. destruct Hst as [E|E]; rewrite E in Hm;
          cbn [reading ls_meas m_corr m_res m_grad m_obj] in Hm; change (sltb o) with Rltb in Hm; change (sdiv o) with Rdiv in Hm; apply Hone in Hm;
          rewrite (nl_norm _ _ _ _ _ HL) in Hm; apply Hroot0 in Hm; try apply (in_pos _ _ HV); apply (in_zero _ _ HV) in Hm.
        + unfold i_c in Hm. change (vscale vo (- (1)) (i_d i) = vzero vo) in Hm.
          assert (Hd : i_d i = vzero vo).
          { apply (dot_ext vo _ HV). intros v. pose proof (f_equal (fun x => n_dot no x v) Hm) as K. cbv beta in K.
            rewrite (in_scale _ _ HV), (dot_0_l _ _ HV) in K. rewrite (dot_0_l _ _ HV). lra. }
          rewrite <- V3, Hd. apply (dot_ext vo _ HV). intros v.
          replace (vzero vo) with (vscale vo 0 (vzero vo)) at 1.
          * rewrite (lin_scale _ _ _ (nl_apH _ _ _ _ _ HL _)), (in_scale _ _ HV), (dot_0_l _ _ HV). ring.
          * apply (dot_ext vo _ HV). intros u. rewrite (in_scale _ _ HV), (dot_0_l _ _ HV). ring.
        + rewrite <- V1. rewrite V2 in Hm. destruct Htag as [E' | E']; rewrite E' in Hm; exact Hm.
      - unfold line_search_stuck in Hstk. rewrite Hu in Hstk. destruct Hstk.
      - destruct (Hs _ _ Hst') as [->|Hg]; [|exact Hg]. cbn in Hn. lia.
      - exfalso. lia.
      - unfold trial_failures in Hfe. rewrite Hu in Hfe. destruct Hfe.
    Qed.
  End System.

  (** as the solver of a stepper *)
  Lemma gn_run {W} (rj : V -> Rs -> option J -> W -> outcome unit * (Rs * option J * W)) A b ws y w :
    computes rj (affine ro apJ A b) (fun _ => A) -> ls_object o ws ->
    exists y' ws' w', run_solver rj (as_solver (ls_solve o no xt tag cf) ws y) y ws w = (Ok tt, (y', ws', w')) /\
      ls_object o ws' /\
      (regular no ro apJ apH tag A -> only_minimiser (n_rnorm no) (affine ro apJ A b) y').
  Proof.
    intros Hc Ho. destruct (exec rj (ls_solve o no xt tag cf) (set_x y ws, w)) as [r [s' w']] eqn:E.
    assert (Ho' : ls_object o (set_x y ws)) by exact Ho.
    destruct (gn_ends rj _ _ _ _ _ _ _ Hc Ho' E) as [-> H1].
    exists (g_x s'), s', w'. split; [exact (as_solver_run _ _ _ _ _ y ws w _ _ _ (sp_ls_solve o no xt tag cf) E)|].
    split; [exact H1|]. intros Hreg. exact (gn_min rj A b Hc Hreg _ _ _ _ _ Ho' E).
  Qed.
End GaussNewton.

(** Two chains with the same times and a step function: the same states. *)
Section Unique.
  Context {T St : Type} (plus : T -> T -> T) (P Q : list St -> T -> T -> St -> Prop).
  Hypothesis cancel : forall t d d', plus t d = plus t d' -> d = d'.
  Hypothesis HPQ : forall past t dt x z, P past t dt x -> Q past t dt z -> z = x.
  Notation times l := (map (fun c => fst (fst c)) l).
  Lemma linked_states t0 y0 l m : linked_from plus P t0 y0 l -> linked_from plus Q t0 y0 m ->
    times m = times l -> map snd m = map snd l.
  Proof.
    intros [Hl (d0 & l0 & El)] [Hm (d1 & m0 & Em)]. revert m l0 m0 El Em Hm.
    induction l as [|[[t d] y] l IH]; intros m l0 m0 El Em Hm Hf; [destruct m; [reflexivity|discriminate]|].
    destruct m as [|[[t1 d1'] y1] m]; [discriminate|]. cbn [map fst snd] in Hf. injection Hf as -> Hf.
    destruct l as [|[[t' d'] y'] l].
    - destruct m; [|discriminate]. destruct l0 as [|? l0]; [|destruct l0; discriminate].
      destruct m0 as [|? m0]; [|destruct m0; discriminate]. cbn in El, Em. injection El as _ _ ->. injection Em as _ _ ->. reflexivity.
    - destruct m as [|[[t1' d1''] y1'] m]; [discriminate|].
      destruct l0 as [|? l0]; [discriminate|]. destruct m0 as [|? m0]; [discriminate|].
      cbn in El, Em. injection El as _ El. injection Em as _ Em.
      destruct Hl as (Hd & HP & Hl). destruct Hm as (Hd1 & HQ & Hm).
      assert (K : map snd ((t1', d1'', y1') :: m) = map snd ((t', d', y') :: l)) by (eapply IH; eauto).
      injection Hf as -> _. rewrite Hd in Hd1. apply cancel in Hd1. subst d1'.
      cbn [map snd]. cbn [map snd] in K. f_equal; [|exact K].
      cbn [map snd] in HP, HQ. rewrite K in HQ. eapply HPQ; [exact HP|exact HQ].
  Qed.
  Lemma numbered_ext : forall l m : accepted T St, times m = times l -> map snd m = map snd l -> numbered m = numbered l.
  Proof.
    induction l as [|[[t d] y] l IH]; intros [|[[t' d'] y'] m] Ht Hs; try discriminate; [reflexivity|].
    cbn [map fst snd] in Ht, Hs. injection Ht as -> Ht. injection Hs as -> Hs. cbn [numbered]. rewrite (IH m Ht Hs).
    replace (length m) with (length l); [reflexivity|]. rewrite <- (map_length snd l), <- Hs, map_length. reflexivity.
  Qed.
  Lemma numbered_times : forall l : accepted T St, map (fun c => snd (fst c)) (numbered l) = rev (times l).
  Proof.
    induction l as [|[[t d] y] l IH]; [reflexivity|]. cbn [numbered map fst snd rev]. rewrite map_app, IH. reflexivity.
  Qed.
  Lemma linked_unique t0 y0 l m : linked_from plus P t0 y0 l -> linked_from plus Q t0 y0 m ->
    map fst (numbered m) = map fst (numbered l) -> numbered m = numbered l.
  Proof.
    intros Hl Hm Hf. assert (Ht : times m = times l).
    { rewrite <- (rev_involutive (times m)), <- (rev_involutive (times l)). f_equal. rewrite <- !numbered_times.
      transitivity (map snd (map fst (numbered m))); [rewrite map_map; reflexivity|]. rewrite Hf. rewrite map_map. reflexivity. }
    apply numbered_ext; [exact Ht|]. eapply linked_states; eassumption.
  Qed.
End Unique.

(** * LSPG of linear FOMs *)
Section AffineLs.
  Context {S X Y J : Type}.
  Variables (o : sops S) (xo : vops S X) (yo : vops S Y) (jo : vops S J) (ap : J -> X -> Y).
  Hypotheses (HF : sfield o) (HY : vspace o yo) (HT : tall xo yo jo ap).
  Variables (ref : Y) (phi Aphi : J) (A : Y -> Y) (b : Y).
  Hypotheses (HA : linear yo yo A) (HP : forall x, ap Aphi x = A (ap phi x)).
  Add Field SFls : (sfield_th o HF).
  Lemma one_affine_gen y_n dt x :
    let y := vadd yo ref (ap phi x) in
    bdf1_R o yo y_n dt (vadd yo (A y) b) y
    = vadd yo (ap (scheme_J o jo phi (s1 o) dt Aphi) x) (bdf1_R o yo y_n dt (vadd yo (A ref) b) ref).
  Proof.
    cbv zeta. unfold scheme_J, jminus, bdf1_R, vminus, neg1.
    rewrite !(tall_add _ _ _ _ HT), !(tall_scale _ _ _ _ HT), !HP, (lin_add _ _ _ HA).
    vreduce o yo HF HY; ring.
  Qed.
  Lemma two_affine_gen y_n y_nm1 dt x :
    let y := vadd yo ref (ap phi x) in
    bdf2_R o yo y_n y_nm1 dt (vadd yo (A y) b) y
    = vadd yo (ap (scheme_J o jo phi (frac o 2 3) dt Aphi) x) (bdf2_R o yo y_n y_nm1 dt (vadd yo (A ref) b) ref).
  Proof.
    cbv zeta. unfold scheme_J, jminus, bdf2_R, vminus, neg1.
    rewrite !(tall_add _ _ _ _ HT), !(tall_scale _ _ _ _ HT), !HP, (lin_add _ _ _ HA).
    vreduce o yo HF HY; ring.
  Qed.
End AffineLs.
Section Lspg.
  Context {eps : R} {X Y J H L W U : Type}.
  Notation o := (Rops eps).
  Variable no : nlops R X Y J H.
  Variable yo : vops R Y.
  Variable jo : vops R J.
  Variable ap : J -> X -> Y.
  Variable apH : H -> X -> X.
  Notation xo := (n_vo no).
  Hypothesis HL : nl_laws eps no yo ap apH.
  Hypothesis HT : tall xo yo jo ap.
  Hypothesis HJ : vspace o jo.
  Let HF := R_field eps.
  Let HC := R_char0 eps.
  Let HY : vspace o yo := in_space _ _ (nl_r _ _ _ _ _ HL).
  Variables (ref : Y) (phi : J).
  Notation recon := (fun x => vadd yo ref (ap phi x)).
  Variable fom : sfom (S:=R) (Y:=Y) (R:=Y) (J:=J) (B:=J) (W:=W).
  Variables (A : R -> Y -> Y) (b : R -> Y) (Aphi : R -> J).
  Hypothesis Hfom : linear_fom yo ap fom phi A b Aphi.
  Notation f := (fun y t => vadd yo (A t y) (b t)).
  Notation df := (fun (_ : Y) (_ : J) t => Aphi t).
  Notation res := (lspg_res o yo recon f).
  Notation K name past t dt := (lspg_jacobian o jo recon df phi name past t dt (vzero xo)).

  Lemma one_affine y_n t dt x : bdf1_R o yo y_n dt (f (recon x) t) (recon x)
    = affine yo ap (scheme_J o jo phi 1 dt (Aphi t)) (bdf1_R o yo y_n dt (f ref t) ref) x.
  Proof.
    destruct Hfom as (HA & HP & _ & _).
    exact (one_affine_gen o xo yo jo ap HF HY HT ref phi (Aphi t) (A t) (b t) (HA t) (HP t) y_n dt x).
  Qed.
  Lemma two_affine y_n y_nm1 t dt x : bdf2_R o yo y_n y_nm1 dt (f (recon x) t) (recon x)
    = affine yo ap (scheme_J o jo phi (frac o 2 3) dt (Aphi t)) (bdf2_R o yo y_n y_nm1 dt (f ref t) ref) x.
  Proof.
    destruct Hfom as (HA & HP & _ & _).
    exact (two_affine_gen o xo yo jo ap HF HY HT ref phi (Aphi t) (A t) (b t) (HA t) (HP t) y_n y_nm1 dt x).
  Qed.
  Lemma seen_computes (rs : Y -> Y) (js : J -> J) y t r Jo w :
    exists j' w', seen_fom fom phi (fun a w => (Ok tt, (rs a, w))) (fun a w => (Ok tt, (js a, w))) y t r Jo w
      = (Ok tt, (rs (f y t), j', w')) /\ match Jo with Some _ => j' = Some (js (Aphi t)) | None => True end.
  Proof.
    destruct Hfom as (_ & _ & H1 & H2). cbv [seen_fom]. destruct (H1 y t r w) as [w1 E1]. rewrite E1.
    destruct Jo as [j|].
    - destruct (H2 y t j w1) as [w2 E2]. rewrite E2. eexists _, _. split; reflexivity.
    - eexists _, _. split; [reflexivity|exact I].
  Qed.
  Notation pr1 := (problem_one o recon (lspg_one o yo jo fom phi)).
  Notation pr2 := (problem_two o recon (lspg_one o yo jo fom phi) (lspg_two o yo jo fom phi)).
  Lemma computes_ext {V Rs' J' W'} (rj : V -> Rs' -> option J' -> W' -> outcome unit * (Rs' * option J' * W')) F F' DF :
    computes rj F DF -> (forall x, F x = F' x) -> computes rj F' DF.
  Proof. intros Hc HE y r j w. destruct (Hc y r j w) as (j' & w' & E1 & E2). rewrite <- HE. eauto. Qed.
  Lemma lspg_computes name tape t x_n hist dt : name = BDF1 \/ name = BDF2 ->
    exists c, computes (by_scheme name pr1 pr2 tape (mk_prun t (x_n :: hist)) dt)
                (affine yo ap (K name (x_n :: hist) t dt) c) (fun _ => K name (x_n :: hist) t dt) /\
      forall x, res name (x_n :: hist) t dt x = affine yo ap (K name (x_n :: hist) t dt) c x.
  Proof.
    assert (K1 : forall name, (name = BDF1 \/ hist = []) ->
      exists c, computes (pr1 tape (mk_prun t (x_n :: hist)) dt)
                (affine yo ap (K name (x_n :: hist) t dt) c) (fun _ => K name (x_n :: hist) t dt) /\
      forall x, res name (x_n :: hist) t dt x = affine yo ap (K name (x_n :: hist) t dt) c x).
    { intros nm Hnm. assert (EK : K nm (x_n :: hist) t dt = scheme_J o jo phi 1 dt (Aphi (t + dt))).
      { destruct Hnm as [-> | ->]; [reflexivity|]. destruct nm; reflexivity. }
      assert (ER : forall x, res nm (x_n :: hist) t dt x = bdf1_R o yo (recon x_n) dt (f (recon x) (t + dt)) (recon x)).
      { intros x. destruct Hnm as [-> | ->]; [reflexivity|]. destruct nm; reflexivity. }
      rewrite EK. eexists. split; [|intros x; rewrite ER; apply one_affine].
      eapply computes_ext; [|intros x; apply one_affine].
      intros x r Jo w. exact (seen_computes (fun a => bdf1_R o yo (recon x_n) dt a (recon x)) (scheme_J o jo phi 1 dt) (recon x) (t + dt) r Jo w). }
    intros [-> | ->]; cbn [by_scheme]; [apply K1; left; reflexivity|].
    destruct hist as [|x_nm1 hist']; [apply (K1 BDF2); right; reflexivity|].
    eexists. split; [|intros x; exact (two_affine (recon x_n) (recon x_nm1) (t + dt) dt x)].
    eapply computes_ext; [|intros x; exact (two_affine (recon x_n) (recon x_nm1) (t + dt) dt x)].
    intros x r Jo w. exact (seen_computes (fun a => bdf2_R o yo (recon x_n) (recon x_nm1) dt a (recon x)) (scheme_J o jo phi (frac o 2 3) dt) (recon x) (t + dt) r Jo w).
  Qed.

  Variable xt : exts X Y J H L.
  Hypothesis Hlin : linear_ok xt (if_solvable (normal_exact apH)) (if_solvable (qr_exact no ap)) (if_solvable (newton_exact ap)) nothing.
  Variable wr : Y -> Y.
  Variable wj : J -> J.
  Hypothesis Hw : weights_ok xt wr wj nothing.
  Variables (tag : lstag) (cf : config R).
  Hypotheses (Htag : tag = GaussNewton \/ tag = GaussNewtonQr) (Hu : f_update cf = UStandard)
    (Hst : f_stop cf = WhenRelCorrection \/ f_stop cf = WhenRelGradient)
    (Ht : 0 < f_tol cf <= 1) (Hmax : (2 <= f_max cf < int32_max)%Z).
  Notation solver := (as_solver (ls_solve o no xt tag cf)).
  Notation P name := (minimising (n_rnorm no) (regular no yo ap apH tag) (fun t dt past => K name past t dt) (res name)).
  Lemma gn_asks : asks solver.
  Proof. apply least_squares_asks; [unfold ls_supported; rewrite Hu; exact I|lia]. Qed.
  Lemma lspg_finds name tape t y hist dt (ws : reg R X Y J H L) (w : W) : name = BDF1 \/ name = BDF2 -> ls_object o ws ->
    exists (y1 : X) (ws1 : reg R X Y J H L) (w1 : W), run_solver (by_scheme name pr1 pr2 (y :: tape) (mk_prun t (y :: hist)) dt) (solver ws y) y ws w = (Ok tt, (y1, ws1, w1)) /\
      ls_object o ws1 /\ P name (y :: hist) t dt y1.
  Proof.
    intros Hn Ho. destruct (lspg_computes name (y :: tape) t y hist dt Hn) as (c & Hc & HE).
    destruct (gn_run no yo ap apH HL xt Hlin wr wj Hw tag cf Htag Hu Hst Ht Hmax _ _ _ ws y w Hc Ho) as (y1 & ws1 & w1 & E1 & E2 & E3).
    exists y1, ws1, w1. split; [exact E1|]. split; [exact E2|]. intros Hreg z. rewrite !HE. apply E3. exact Hreg.
  Qed.
  Variable obs : Z -> R -> X -> U -> outcome unit * U.
  Variables (w0 : W) (name : scheme) (cs : X) (cr zero : Y) (x0 : X) (ws : reg R X Y J H L) (g0 : @sst R X Y (lpol (Y:=Y) (W:=W)) (reg R X Y J H L)).
  Hypothesis Hws : ls_object o ws.
  Hypothesis HE : lspg_create o name cs cr zero (fresh_policy w0) x0 ws = Ok g0.
  Notation stepfn := (implicit_step o (default_policy o yo jo recon fom phi) solver name).
  Lemma lspg_name : name = BDF1 \/ name = BDF2.
  Proof. destruct name; try discriminate HE; auto. Qed.
  Lemma lspg_refines : step_refines o solver (by_scheme name pr1 pr2) stepfn t_y
      (fun rn tape g ws q => exists last,
         inv_lspg recon any lp_h lp_w (match name with BDF1 => false | _ => true end) last rn tape g ws q).
  Proof.
    eapply (semi_refines o recon solver gn_asks lp_h lp_w (default_policy o yo jo recon fom phi) pr1 pr2 (fresh_policy w0));
      [apply T_default1; assumption|apply T_default2; assumption|exact HE].
  Qed.
  Lemma lspg_begins start y0 : exists tape ws q, (exists last,
         inv_lspg recon any lp_h lp_w (match name with BDF1 => false | _ => true end) last (Some (mk_prun start [y0])) tape (put_ode y0 g0) ws q) /\
      ls_object o ws.
  Proof.
    exists [], ws, w0. split; [|exact Hws].
    eapply (semi_inv_ws o recon lp_h lp_w (fresh_policy w0) w0); [intros d; split; reflexivity|exact HE].
  Qed.
  Lemma lspg_min_n_steps pol num start y0 w : (Z.of_nat num < int32_max)%Z ->
    (forall k t y u, fst (obs k t y u) = Ok tt) -> (forall k t d u, exists dt, fst (pol k t d u) = Ok dt) ->
    exists y' g' w' tr t' d' l,
      advance_n_steps o (mk_user (split_obs obs) (pol3 (split_pol pol)) noop_guess (split_step (implicit_fn stepfn)))
        (Z.of_nat num) start (y0, (g0, w), []) = (Ok tt, (y', (g', w'), tr)) /\
      length l = num /\ linked_from Rplus (P name) start y0 ((t', d', y') :: l) /\ reports tr = numbered ((t', d', y') :: l).
  Proof.
    exact (exact_n_steps o solver _ stepfn put_ode t_y _ put_ode_get lspg_refines (ls_object o) (P name)
             (fun tape t y hist dt ws q => lspg_finds name tape t y hist dt ws q lspg_name) start y0 obs g0 (lspg_begins start y0) pol num w).
  Qed.
  Lemma lspg_min_target pol recovery fuel start final y0 w y' g' w' tr :
    to_target o (mk_user (split_obs obs) (split_pol pol) noop_guess (split_step (implicit_fn stepfn))) recovery fuel
      start final (y0, (g0, w), []) = (Ok tt, (y', (g', w'), tr)) ->
    seqb o final start = false ->
    exists t' d' l, linked_from Rplus (P name) start y0 ((t', d', y') :: l) /\ reports tr = numbered ((t', d', y') :: l).
  Proof.
    exact (exact_target o solver _ stepfn put_ode t_y _ put_ode_get lspg_refines (ls_object o) (P name)
             (fun tape t y hist dt ws q => lspg_finds name tape t y hist dt ws q lspg_name) start y0 obs g0 (lspg_begins start y0)
             pol recovery fuel final w y' g' w' tr).
  Qed.
  Lemma lspg_min_target_ends pol recovery h n fuel start final y0 w :
    0 <= eps -> (forall k t y u, fst (obs k t y u) = Ok tt) ->
    (forall k t x u, exists dt m c, fst (pol k t x u) = Ok (dt, m, c) /\ h <= dt /\ m <= dt /\ (recovery = true -> 1 < c)) ->
    start < final -> final - start <= INR n * h -> (n < fuel)%nat -> (Z.of_nat n < int32_max)%Z ->
    exists y' g' w' tr t' d' l,
      to_target o (mk_user (split_obs obs) (split_pol pol) noop_guess (split_step (implicit_fn stepfn))) recovery fuel
        start final (y0, (g0, w), []) = (Ok tt, (y', (g', w'), tr)) /\
      linked_from Rplus (P name) start y0 ((t', d', y') :: l) /\ reports tr = numbered ((t', d', y') :: l).
  Proof.
    exact (exact_target_ends eps solver _ stepfn put_ode t_y _ put_ode_get lspg_refines (ls_object o) (P name)
             (fun tape t y hist dt ws q => lspg_finds name tape t y hist dt ws q lspg_name) obs g0
             pol recovery h n fuel start final y0 w (lspg_begins start y0)).
  Qed.
  Notation Q name := (fun past t dt x => regular no yo ap apH tag (K name past t dt) /\
    fom_step o yo f name (map recon past) t dt (recon x)).
  Lemma fom_root nm past t dt z : nm = BDF1 \/ nm = BDF2 -> fom_step o yo f nm (map recon past) t dt (recon z) ->
    res nm past t dt z = vzero yo.
  Proof.
    intros [-> | ->] Hz; (destruct past as [|x_n past]; [contradiction|]).
    - apply (root_bdf1 o yo HF HY (fun y => f y (t + dt))). exact Hz.
    - destruct past as [|x_nm1 past].
      + apply (root_bdf1 o yo HF HY (fun y => f y (t + dt))). exact Hz.
      + apply (root_bdf2 o yo HF HC HY (fun y => f y (t + dt))). exact Hz.
  Qed.
  Lemma fom_unique past t dt x z : P name past t dt x -> Q name past t dt z -> z = x.
  Proof.
    intros HP [Hr Hz]. apply (fom_root _ _ _ _ _ lspg_name) in Hz. destruct (HP Hr z) as [_ Hu1]. apply Hu1. rewrite Hz.
    rewrite !(nl_rnorm _ _ _ _ _ HL).
    rewrite (dot_0_l _ _ (nl_r _ _ _ _ _ HL)). rewrite sqrt_0. apply sqrt_pos.
  Qed.
  Lemma lspg_reproduces start y0 l m : linked_from Rplus (P name) start y0 l -> linked_from Rplus (Q name) start y0 m ->
    map fst (numbered m) = map fst (numbered l) -> numbered m = numbered l.
  Proof.
    apply (linked_unique Rplus (P name) (Q name)); [intros t d d' E; exact (Rplus_eq_reg_l _ _ _ E)|exact fom_unique].
  Qed.
End Lspg.

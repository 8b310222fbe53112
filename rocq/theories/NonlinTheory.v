(** Lemmas behind C27-C31. *)
From Coq Require Import Reals ZArith List Lra Lia Bool.
From Verif Require Import Base RInst Laws LawInst ImplicitModel ImplicitSpec NonlinDiag NonlinModel NonlinWp NonlinDiagProofs
  NonlinSpec NonlinRuns NonlinProofs NonlinSolve NonlinLines NonlinClaims NonlinSeq NonlinFollow NonlinLaws NonlinExact NonlinReal.
Import ListNotations.
Local Open Scope R_scope.

Section CorrectionParts.
  Context {S V Rs J H L W : Type}.
  Variable o : sops S.
  Variable no : nlops S V Rs J H.
  Variable xt : exts V Rs J H L.
  Notation G := (reg S V Rs J H L).
  Variable sys : V -> Rs -> option J -> W -> outcome unit -> Rs -> option J -> W -> Prop.
  Variable wr : Rs -> Rs.
  Variable wj : J -> J.
  Variable gr : V -> Rs -> Prop.
  Variable gj : V -> J -> Prop.
  Variable glin : H -> V -> V -> Prop.
  Variable gqr gnewt : J -> Rs -> V -> Prop.
  Variable fsys flin : outcome unit -> Prop.
  Hypothesis Hsys : sys_ok sys gr gj fsys.
  Hypothesis Hw : weights_ok xt wr wj fsys.
  Hypothesis Hlin : linear_ok xt glin gqr gnewt flin.
  (** what the memory holds after the correction has been computed at [i] *)
  Record corrected (tag : lstag) (i : info S V Rs J) (s : G) : Prop := {
    co_valid : ls_valid no wr wj gr gj glin gqr tag i;
    co_pt : at_point i (pt s); co_c : g_c s = i_c o no i; co_r : g_r s = i_r i; co_j : g_j s = i_j i;
    co_g : g_g s = ls_gradient no wr wj tag (i_j i) (i_r i);
    co_hu : tag = LevMar -> g_hu s = n_jtj no (i_j i) (i_j i) }.
  Lemma parts_tri : forall A tag s w (Q : outcome A -> G -> W -> Prop) (k : S -> prog V Rs J G A),
    (forall r s' w', (forall a, r <> Ok a) -> pt s' = pt s -> Q r s' w') ->
    (forall i s' w', corrected tag i s' -> i_x i = g_x s -> pt s' = pt s ->
       tri sys (k (ls_objective o no wr tag (i_r i))) s' w' Q) ->
    tri sys (pbind (operators_and_objective o no xt tag) (fun f0 => pbind (correction o no xt tag) (fun _ => k f0))) s w Q.
  Proof.
    intros A tag s w Q k Hbad Hk. apply tri_bind.
    pose proof (default_ok o no sys (ls_objective o no wr tag) (objective o no xt tag)) as Hup.
    assert (Hpre : forall (i : info S V Rs J) (s : G), ready o no i s ->
      (tag = LevMar -> g_hu s = n_jtj no (i_j i) (i_j i)) ->
      g_g s = ls_gradient no wr wj tag (i_j i) (i_r i) -> ready o no i s) by auto.
    eapply tri_mono; [|exact (operators_tri o no xt sys wr wj gr gj fsys Hsys Hw tag _ _ _ _ _ Hup Hpre s w)].
    intros r s1' w1 [K1 K2].
    destruct r as [f0|e|u|]; try (apply Hbad; [intros a; discriminate|exact (kp_pt _ _ K1)]).
    destruct K2 as [-> O]. destruct O as [o1 o2 o3 o4 o5].
    apply tri_bind. eapply tri_mono; [|exact (correction_tri o no xt sys wr wj glin gqr gnewt flin Hlin tag _ _ _ _ _ Hup Hpre s1' w1)].
    intros r s2 w2 [K3 [e1 [e2 [e3 [e4 K4]]]]]. pose proof (keep_trans _ _ _ K1 K3) as K5.
    destruct r as [u|e|u|]; try (apply Hbad; [intros a; discriminate|exact (kp_pt _ _ K5)]).
    destruct K4 as [d [Ed K4]].
    set (i := mk_info (g_x s) (g_r s1') (g_j s1') d (g_damp s) (g_nu s)).
    change (g_r s1') with (i_r i). apply Hk; [|reflexivity|exact (kp_pt _ _ K5)]. split.
    - split; [exact o1|]. split; [exact o2|]. cbn [i_x i_r i_j i_d i_mu i].
      pose proof (kp_pt _ _ K1) as E. unfold pt in E. injection E as _ E _.
      unfold solves, matrix_ready in *. destruct tag; rewrite ?o4, ?o3, ?E in K4; exact K4.
    - unfold at_point. rewrite (kp_pt _ _ K5). reflexivity.
    - exact Ed.
    - exact e1.
    - exact e2.
    - rewrite e3. exact o3.
    - intros Ht. rewrite e4. exact (o5 Ht).
  Qed.
End CorrectionParts.

Section Theory.
  Context {eps : R} {V Rs J H L W : Type}.
  Notation o := (Rops eps).
  Variable no : nlops R V Rs J H.
  Variable ro : vops R Rs.
  Variable apJ : J -> V -> Rs.
  Variable apH : H -> V -> V.
  Hypothesis HL : nl_laws eps no ro apJ apH.
  Variable xt : exts V Rs J H L.
  Notation G := (reg R V Rs J H L).
  Notation info := (info R V Rs J).
  Notation vo := (n_vo no).
  Variable rj : V -> Rs -> option J -> W -> outcome unit * (Rs * option J * W).
  Variable F : V -> Rs.
  Variable DF : V -> J.
  Hypothesis Hc : computes rj F DF.
  Variable wr : Rs -> Rs.
  Variable wj : J -> J.
  Hypothesis Hw : weights_ok xt wr wj nothing.
  Hypothesis Hlin : linear_ok xt (normal_exact apH) (qr_exact no apJ) (newton_exact apJ) anything.
  Notation grF := (fun y r => r = F y).
  Notation gjF := (fun y j => j = DF y).
  Notation validF := (ls_valid no wr wj grF gjF (normal_exact apH) (qr_exact no apJ)).
  Let HV := nl_v _ _ _ _ _ HL.
  Let HR := nl_r _ _ _ _ _ HL.

  Lemma sys_any : sys_ok (graph rj) grF gjF nothing.
  Proof. apply computes_ok. exact Hc. Qed.

  (** C30 *)
  Lemma correction_at : forall tag s w s' w', exec rj (compute_correction o no xt tag) (s, w) = (Ok tt, (s', w')) ->
    exists d, g_c s' = vscale vo (- (1)) d /\ g_x s' = g_x s /\
      let x := g_x s in
      match tag with
      | GaussNewtonQr => qr_exact no apJ (DF x) (F x) d
      | _ => apH (ls_matrix no wj tag (g_damp s) (DF x)) d = ls_gradient no wr wj tag (DF x) (F x)
      end.
  Proof.
    intros tag s w s' w' E.
    assert (K : tri (graph rj) (compute_correction o no xt tag) s w (fun r s' w' => r = Ok tt ->
      exists d, g_c s' = vscale vo (- (1)) d /\ g_x s' = g_x s /\
      let x := g_x s in
      match tag with
      | GaussNewtonQr => qr_exact no apJ (DF x) (F x) d
      | _ => apH (ls_matrix no wj tag (g_damp s) (DF x)) d = ls_gradient no wr wj tag (DF x) (F x)
      end)).
    { unfold compute_correction.
      assert (P : forall Q, tri (graph rj) (pbind (operators_and_objective o no xt tag) (fun f0 => pbind (correction o no xt tag) (fun _ => pret tt))) s w Q ->
                 (forall r s' w', Q r s' w' -> Q r s' w') -> tri (graph rj) (pbind (operators_and_objective o no xt tag) (fun f0 => correction o no xt tag)) s w Q).
      { intros Q K0 _. unfold tri in *. unfold pbind in *. apply wp_bind. apply wp_bind in K0. eapply wp_mono; [|exact K0].
        intros [[a|e|u|] s1] w1; auto. intros K1. apply wp_bind in K1. eapply wp_mono; [|exact K1].
        intros [[[]|e|u|] s2] w2 K2; exact K2. }
      apply P; [|auto]. eapply (parts_tri o no xt (graph rj) wr wj grF gjF); [exact sys_any|exact Hw|exact Hlin|..].
      - intros r s1' w1 Hr _ Er. exfalso. exact (Hr tt Er).
      - intros i s1' w1 C Ex Ep. apply tri_lift. cbn [fst snd ret]. intros _. destruct C as [[c1 [c2 c3]] c4 c5 c6 c7 c8 c9].
        exists (i_d i). split; [exact c5|]. pose proof Ep as Ep'. unfold at_point in c4. rewrite c4 in Ep. unfold pt in Ep.
        injection Ep as E1 E2 E3. unfold pt in Ep'. injection Ep' as E4 _ _. split; [exact E4|]. cbv zeta. rewrite <- E1, <- E2. cbv beta in *.
        rewrite <- c1, <- c2. destruct tag; exact c3. }
    exact (tri_exec _ _ _ _ _ _ _ _ _ _ _ _ _ _ K E eq_refl).
  Qed.

  (** C27 *)
  Lemma objective_half : forall r, ls_objective o no wr LevMar r = half_square no r.
  Proof.
    intros r. unfold ls_objective, halved, half_square. rewrite sZ_R, !(nl_rnorm _ _ _ _ _ HL).
    change (smul o) with Rmult. change (sdiv o) with Rdiv. change (s1 o) with 1.
    rewrite sqrt_sqrt by apply (in_pos _ _ HR). lra.
  Qed.
  Lemma gain_sign : forall (i : info) rr, validF LevMar i ->
    positive_definite no apH (n_adddiag no (n_jtj no (i_j i) (i_j i)) (i_mu i)) ->
    rr = F (along o no (i_x i) (i_c o no i) 1) ->
    (0 < gain o no (ls_objective o no wr LevMar) i rr <-> half_square no rr < half_square no (i_r i)).
  Proof.
    intros i rr [Er [Ej Ed]] Hp Err. cbv beta in Er, Ej. unfold normal_exact in Ed. cbn [ls_matrix ls_gradient] in Ed.
    pose proof (lm_denominator _ _ _ _ HL _ _ _ _ Ed) as [K _]. cbv zeta in K.
    unfold gain. rewrite !objective_half. change (sdiv o) with Rdiv. change (ssub o) with Rminus. change (smul o) with Rmult.
    change (sadd o) with Rplus. change (s1 o) with 1. rewrite sZ_R. unfold i_c in *.
    change (sopp o (s1 o)) with (- (1)) in *. set (c := vscale vo (- (1)) (i_d i)) in *. rewrite K.
    set (q := n_rdot no (apJ (i_j i) c) (apJ (i_j i) c)).
    assert (Hq : 0 <= q) by apply (in_pos _ _ HR).
    destruct (Req_EM_T q 0) as [Hz|Hz].
    - assert (Hcc : c = vzero vo).
      { destruct (Req_EM_T (n_dot no c c) 0) as [Hd|Hd]; [exact (in_zero _ _ HV _ Hd)|]. exfalso.
        assert (Hne : c <> vzero vo) by (intros E; apply Hd; rewrite E; apply (dot_0_l _ _ HV)).
        pose proof (Hp c Hne) as P. rewrite (nl_adddiag _ _ _ _ _ HL), (dot_add_r _ _ HV), (dot_scale_r _ _ HV) in P.
        rewrite (in_sym _ _ HV c (apH _ c)), (jtj_dot _ _ _ _ HL) in P. fold q in P. rewrite Hz in P.
        assert (Z : n_dot no c (n_jtr no (i_j i) (i_r i)) = 0).
        { rewrite (in_sym _ _ HV), (nl_jtr _ _ _ _ _ HL). apply (in_zero _ _ HR) in Hz. rewrite Hz. apply (dot_0_r _ _ HR). }
        rewrite Z in K. fold q in K. rewrite Hz in K. lra. }
      assert (Esame : half_square no rr = half_square no (i_r i)).
      { f_equal. rewrite Err, Er. f_equal. unfold along. change (s1 o) with 1. rewrite Hcc.
        apply (dot_ext vo _ HV). intros v. rewrite (in_add _ _ HV), !(in_scale _ _ HV), (dot_0_l _ _ HV). ring. }
      rewrite Esame. unfold Rdiv. rewrite Rminus_diag_eq by reflexivity. rewrite Rmult_0_l. lra.
    - assert (Hq' : 0 < q) by lra.
      replace ((half_square no rr - half_square no (i_r i)) / (1 / 2 * - q)) with
        ((half_square no (i_r i) - half_square no rr) * (2 / q)) by (field; lra).
      assert (0 < 2 / q) by (apply Rdiv_lt_0_compat; lra). split; intros Hg.
      + destruct (Rlt_le_dec (half_square no rr) (half_square no (i_r i))) as [|Hle]; [assumption|exfalso].
        assert ((half_square no (i_r i) - half_square no rr) * (2 / q) <= 0 * (2 / q)) by (apply Rmult_le_compat_r; lra). lra.
      + apply Rmult_lt_0_compat; lra.
  Qed.
  Lemma lm_state_outcome : forall (i : info) rr, validF LevMar i ->
    positive_definite no apH (n_adddiag no (n_jtj no (i_j i) (i_j i)) (i_mu i)) ->
    rr = F (along o no (i_x i) (i_c o no i) 1) ->
    step_if_better no F (i_x i) (i_c o no i) (lm_state o no i (gain o no (ls_objective o no wr LevMar) i rr)).
  Proof.
    intros i rr Hv Hp Err. pose proof (gain_sign i rr Hv Hp Err) as K.
    assert (Er : i_r i = F (i_x i)) by exact (proj1 Hv). rewrite Er, Err in K.
    unfold step_if_better, lm_state. cbv zeta. fold (along o no (i_x i) (i_c o no i) 1). change (sltb o) with Rltb. change (s0 o) with 0. change (s1 o) with 1. subst rr.
    destruct (Rltb 0 _) eqn:E.
    - left. apply Rltb_true in E. split; [apply K; exact E|reflexivity].
    - right. apply Rltb_false in E. split; [|reflexivity].
      destruct (Rlt_le_dec (half_square no (F (along o no (i_x i) (i_c o no i) 1))) (half_square no (F (i_x i)))) as [A|A]; [|exact A].
      apply K in A. lra.
  Qed.
  Lemma lm_iteration_outcome : forall up s w s' w',
    (up = lm1_updater o no \/ up = lm2_updater o no) ->
    positive_definite no apH (n_adddiag no (n_jtj no (DF (g_x s)) (DF (g_x s))) (g_damp s)) ->
    exec rj (lm_iteration o no xt up) (s, w) = (Ok tt, (s', w')) ->
    exists d, apH (n_adddiag no (n_jtj no (DF (g_x s)) (DF (g_x s))) (g_damp s)) d = n_jtr no (DF (g_x s)) (F (g_x s)) /\
      step_if_better no F (g_x s) (vscale vo (- (1)) d) (g_x s').
  Proof.
    intros up s w s' w' Hup Hp E.
    set (Goal := fun x' => exists d, apH (n_adddiag no (n_jtj no (DF (g_x s)) (DF (g_x s))) (g_damp s)) d = n_jtr no (DF (g_x s)) (F (g_x s)) /\
      step_if_better no F (g_x s) (vscale vo (- (1)) d) x').
    assert (K : tri (graph rj) (lm_iteration o no xt up) s w (fun r s' w' => r = Ok tt -> Goal (g_x s'))).
    { unfold lm_iteration. eapply (parts_tri o no xt (graph rj) wr wj grF gjF _ _ _ _ _ sys_any Hw Hlin unit LevMar s w).
      - intros r s1' w1 Hr _ Er. exfalso. exact (Hr tt Er).
      - intros i s1' w1 C Ex Ep. destruct C as [c0 c4 c5 c6 c7 c8 c9]. pose proof c0 as [c1 [c2 c3]]. cbv beta in c1, c2.
        unfold at_point in c4. rewrite c4 in Ep. unfold pt in Ep. injection Ep as E1 E2 E3.
        assert (Hd : apH (n_adddiag no (n_jtj no (DF (g_x s)) (DF (g_x s))) (g_damp s)) (i_d i) = n_jtr no (DF (g_x s)) (F (g_x s))).
        { rewrite <- E1, <- E2, <- c1, <- c2. exact c3. }
        assert (Hp' : positive_definite no apH (n_adddiag no (n_jtj no (i_j i) (i_j i)) (i_mu i))) by (rewrite c2, E1, E2; exact Hp).
        assert (Hr : lm_ready o no i s1') by (split; [split; [exact c4|exact c5]|exact (c9 eq_refl)|exact c8]).
        assert (Ho : obj_ok (graph rj) grF nothing (ls_objective o no wr LevMar) (objective o no xt LevMar)) by (eapply objective_ok; [exact sys_any|exact Hw]).
        destruct Hup as [-> | ->].
        + eapply tri_mono; [|eapply lm1_ok; [exact Ho|exact Hr]]. intros r s2 w2 [_ K] ->.
          destruct K as [rr [K1 K2]]. exists (i_d i). split; [exact Hd|].
          destruct (schedule1 o (i_mu i) (i_nu i) (gain o no (ls_objective o no wr LevMar) i rr)) as [mu nu].
          unfold pt in K2. injection K2 as -> _ _. rewrite <- E1. apply (lm_state_outcome i rr c0 Hp' K1).
        + eapply tri_mono; [|eapply lm2_ok; [exact Ho|exact Hr]]. intros r s2 w2 [_ K] ->.
          destruct K as [rr [K1 K2]]. exists (i_d i). split; [exact Hd|].
          unfold pt in K2. injection K2 as -> _ _. rewrite <- E1. apply (lm_state_outcome i rr c0 Hp' K1). }
    exact (tri_exec _ _ _ _ _ _ _ _ _ _ _ _ _ _ K E eq_refl).
  Qed.
End Theory.

(** Lemmas behind C26-C31, continued: whole solves. *)
From Coq Require Import Reals ZArith List Lra Lia Bool.
From Verif Require Import Base RInst Laws LawInst ImplicitModel ImplicitSpec NonlinDiag NonlinModel NonlinWp NonlinDiagProofs
  NonlinSpec NonlinRuns NonlinProofs NonlinSolve NonlinLines NonlinClaims NonlinSeq NonlinFollow NonlinLaws NonlinExact NonlinReal NonlinTheory.
Import ListNotations.
Local Open Scope R_scope.

(** A run keeps an invariant of the moves at all of its iterations. *)
Section Strengthen.
  Context {S V Rs J : Type}.
  Variable o : sops S.
  Notation info := (info S V Rs J).
  Lemma ends_with : forall cf (valid : info -> Prop) measure (move : info -> V * S * S -> Prop) p0 stuck fsys flin ftrial rexn lexn pub reports file0 r p ls fl (P : V * S * S -> Prop),
    P p0 -> (forall i q, valid i -> P (i_x i, i_mu i, i_nu i) -> move i q -> P q) ->
    solve_ends o cf valid measure move p0 stuck fsys flin ftrial rexn lexn pub reports file0 r p ls fl ->
    solve_ends o cf (fun i => valid i /\ P (i_x i, i_mu i, i_nu i)) measure move p0 stuck fsys flin ftrial rexn lexn pub reports file0 r p ls fl /\ P p.
  Proof.
    intros cf valid measure move p0 stuck fsys flin ftrial rexn lexn pub reports file0 r p ls fl P H0 Hm K.
    assert (Hs : forall is p, steps o cf valid measure move p0 is p ->
      steps o cf (fun i => valid i /\ P (i_x i, i_mu i, i_nu i)) measure move p0 is p /\ P p).
    { intros is q Hs. induction Hs as [|is p1 i p' Hs [IH1 IH2] Ha Hv Hmm Hmv]; [split; [constructor|exact H0]|].
      assert (P (i_x i, i_mu i, i_nu i)) by (unfold at_point in *; subst; exact IH2).
      split; [econstructor; eauto|eauto]. }
    assert (Hi : forall is (i : info) p, steps o cf valid measure move p0 is p -> at_point i p -> P (i_x i, i_mu i, i_nu i)).
    { intros is i q Hq Ha. apply Hs in Hq. unfold at_point in Ha. subst. tauto. }
    destruct K;
      match goal with Hst : steps _ _ _ _ _ _ _ _ |- _ => pose proof (proj1 (Hs _ _ Hst)) as K1; pose proof (proj2 (Hs _ _ Hst)) as K2 end;
      (split; [|exact K2]).
    - eapply ends_converged; eauto.
    - eapply ends_stuck; eauto.
    - eapply ends_at_max; eauto.
    - eapply ends_overflow; eauto.
    - eapply ends_residual_failure; eauto.
    - eapply ends_system_failure; eauto.
    - eapply ends_linear_failure; eauto.
    - eapply ends_trial_failure; eauto.
  Qed.
  (** the states visited, one after the other *)
  Lemma visited_consecutive : forall (rel : V -> V -> Prop) (valid : info -> Prop) measure (move : info -> V * S * S -> Prop) pub p0 is p,
    (forall i q, valid i -> move i q -> rel (i_x i) (fst (fst q))) ->
    chain valid move p0 is ->
    ((exists a i, is = a ++ [i] /\ at_point i p) \/
       match rev is with [] => p = p0 | j :: _ => move j p end) ->
    exists xs, visited xs (printed o measure pub is) (fst (fst p0)) (fst (fst p)) /\ consecutive rel xs.
  Proof.
    intros rel valid measure move pub p0 is p Hrel C K.
    assert (Hd : consecutive rel (map i_x is)).
    { destruct C as [C1 C2 C3]. intros n y z Hy Hz. rewrite nth_error_map in Hy, Hz.
      destruct (nth_error is n) as [i|] eqn:Ei; [|discriminate].
      destruct (nth_error is (Datatypes.S n)) as [j|] eqn:Ej; [|discriminate].
      cbn in Hy, Hz. injection Hy as <-. injection Hz as <-.
      destruct (C3 n i j Ei Ej) as [q [Hq Ha]]. unfold at_point in Ha.
      assert (Vi : valid i) by (rewrite Forall_forall in C1; apply C1; eapply nth_error_In; eauto).
      specialize (Hrel i q Vi Hq). subst q. exact Hrel. }
    assert (Hhd : forall i t, is = i :: t -> i_x i = fst (fst p0)).
    { intros i t ->. destruct C as [_ C2 _]. specialize (C2 i eq_refl). unfold at_point in C2. rewrite C2. reflexivity. }
    destruct K as [[a [i [-> Ha]]]|K].
    - exists (map i_x (a ++ [i])). split; [|exact Hd]. rewrite <- (printed_states o measure pub). split; [|split].
      + rewrite printed_states. destruct a as [|b t]; cbn; f_equal; [apply (Hhd i [] eq_refl)|apply (Hhd b _ eq_refl)].
      + rewrite printed_states, map_app. cbn. exists (map i_x a). unfold at_point in Ha. rewrite Ha. reflexivity.
      + left. reflexivity.
    - assert (Hcase : is = [] \/ exists a i, is = a ++ [i]) by (destruct is using rev_ind; eauto); destruct Hcase as [->|[a [i ->]]].
      + cbn in K. subst p. exists [fst (fst p0)]. split; [|intros [|n] y z Hy Hz; cbn in Hz; [discriminate|destruct n; discriminate]].
        split; [reflexivity|]. split; [exists []; reflexivity|right; reflexivity].
      + rewrite rev_app_distr in K. cbn in K. exists (map i_x (a ++ [i]) ++ [fst (fst p)]). split.
        * split; [|split].
          -- destruct a as [|b t]; cbn; f_equal; [apply (Hhd i [] eq_refl)|apply (Hhd b _ eq_refl)].
          -- eexists. reflexivity.
          -- right. rewrite printed_states. reflexivity.
        * rewrite map_app in *. cbn [map] in *. intros n u v Hu Hv.
          assert (Hlt : (Datatypes.S n < length ((map i_x a ++ [i_x i]) ++ [fst (fst p)]))%nat) by (apply nth_error_Some; congruence).
          rewrite !app_length in Hlt. cbn in Hlt.
          destruct (Nat.eq_dec n (length (map i_x a))) as [->|Hne].
          -- rewrite nth_error_app1 in Hu by (rewrite app_length; cbn; lia).
             rewrite nth_error_app2, Nat.sub_diag in Hu by lia. cbn in Hu. injection Hu as <-.
             rewrite nth_error_app2 in Hv by (rewrite app_length; cbn; lia).
             rewrite app_length in Hv. cbn [length] in Hv. rewrite Nat.add_1_r, Nat.sub_diag in Hv.
             cbn in Hv. injection Hv as <-. apply Hrel; [|exact K].
             destruct C as [C1 _ _]. apply Forall_app in C1. destruct C1 as [_ C1]. exact (Forall_inv C1).
          -- rewrite nth_error_app1 in Hu, Hv by (rewrite app_length; cbn; lia). eauto.
  Qed.
End Strengthen.

(** C28: restart *)
Section Restart.
  Context {S V Rs J H L W : Type}.
  Variable o : sops S.
  Variable no : nlops S V Rs J H.
  Variable xt : exts V Rs J H L.
  Lemma restart_damp : forall (rj : V -> Rs -> option J -> W -> outcome unit * (Rs * option J * W)) cf s w v,
    ls_supported LevMar cf ->
    exec rj (ls_solve o no xt LevMar cf) (set_damp v s, w) = exec rj (ls_solve o no xt LevMar cf) (s, w).
  Proof.
    intros rj cf s w v Hs. unfold exec, ls_solve, ls_supported in *. destruct (f_update cf); try contradiction; try reflexivity.
  Qed.
  Lemma restart_nu : forall (rj : V -> Rs -> option J -> W -> outcome unit * (Rs * option J * W)) cf s w v,
    f_update cf = ULMSchedule1 ->
    exec rj (ls_solve o no xt LevMar cf) (set_nu v s, w) = exec rj (ls_solve o no xt LevMar cf) (s, w).
  Proof. intros rj cf s w v E. unfold exec, ls_solve. rewrite E. reflexivity. Qed.
End Restart.

Section Damping.
  Context {eps : R} {V Rs J H L W : Type}.
  Notation o := (Rops eps).
  Variable no : nlops R V Rs J H.
  Variable xt : exts V Rs J H L.
  Variable rj : V -> Rs -> option J -> W -> outcome unit * (Rs * option J * W).
  Variable wr : Rs -> Rs.
  Variable wj : J -> J.
  Hypothesis Hsys : plain_system rj.
  Hypothesis Hw : weights_ok xt wr wj no_linesearch.

  Lemma damping1 : forall cf s w r s' w', ls_object o s -> f_update cf = ULMSchedule1 ->
    exec rj (ls_solve o no xt LevMar cf) (s, w) = (r, (s', w')) -> 0 < g_damp s' /\ 0 < g_nu s'.
  Proof.
    intros cf s w r s' w' Ho Hu E.
    assert (Hs : ls_supported LevMar cf) by (unfold ls_supported; rewrite Hu; reflexivity).
    pose proof (ls_solve_ok o no xt (graph rj) wr wj _ _ _ _ _ _ _ (any_sys_ok rj Hsys) Hw (any_linear_ok xt) (ten_ends _ _ (ten_R eps)) no_ls LevMar cf s w Ho Hs) as K.
    pose proof (tri_exec _ _ _ _ _ _ _ _ _ _ _ _ _ _ K E) as [K1 [ls [K2 K3]]].
    apply (ends_invariant eps cf) with (P := fun p => 0 < snd (fst p) /\ 0 < snd p) in K3; [exact K3|..].
    - unfold start. rewrite Hu. cbn [fst snd]. rewrite !sZ_R. lra.
    - intros i q _ [P1 P2] M. cbn [fst snd] in P1, P2. unfold ls_move in M. rewrite Hu in M. destruct M as [rr [_ M]].
      destruct (schedule1 o (i_mu i) (i_nu i) (gain o no (ls_objective o no wr LevMar) i rr)) as [a b] eqn:Es.
      subst q. cbn [fst snd].
      pose proof (schedule1_pos eps (i_mu i) (i_nu i) (gain o no (ls_objective o no wr LevMar) i rr) P1 P2) as P. rewrite Es in P. exact P.
  Qed.
  Lemma damping2 : forall cf s w r s' w', ls_object o s -> f_update cf = ULMSchedule2 ->
    exec rj (ls_solve o no xt LevMar cf) (s, w) = (r, (s', w')) -> 1 / 10000000 <= g_damp s' <= 10000000.
  Proof.
    intros cf s w r s' w' Ho Hu E.
    assert (Hs : ls_supported LevMar cf) by (unfold ls_supported; rewrite Hu; reflexivity).
    pose proof (ls_solve_ok o no xt (graph rj) wr wj _ _ _ _ _ _ _ (any_sys_ok rj Hsys) Hw (any_linear_ok xt) (ten_ends _ _ (ten_R eps)) no_ls LevMar cf s w Ho Hs) as K.
    pose proof (tri_exec _ _ _ _ _ _ _ _ _ _ _ _ _ _ K E) as [K1 [ls [K2 K3]]].
    apply (ends_invariant eps cf) with (P := fun p => in_range (snd (fst p))) in K3; [exact K3|..].
    - unfold start, in_range. cbn [fst snd]. rewrite !sZ_R. lra.
    - intros i q _ P1 M. cbn [fst snd] in P1. unfold ls_move in M. rewrite Hu in M. destruct M as [rr [_ M]].
      subst q. cbn [fst snd]. apply schedule2_range. exact P1.
  Qed.
End Damping.

Section Rest.
  Context {eps : R} {V Rs J H L W : Type}.
  Notation o := (Rops eps).
  Variable no : nlops R V Rs J H.
  Variable ro : vops R Rs.
  Variable apJ : J -> V -> Rs.
  Variable apH : H -> V -> V.
  Hypothesis HL : nl_laws eps no ro apJ apH.
  Variable xt : exts V Rs J H L.
  Notation G := (reg R V Rs J H L).
  Notation info := (info R V Rs J).
  Notation vo := (n_vo no).
  Variable rj : V -> Rs -> option J -> W -> outcome unit * (Rs * option J * W).
  Variable F : V -> Rs.
  Variable DF : V -> J.
  Hypothesis Hc : computes rj F DF.
  Variable wr : Rs -> Rs.
  Variable wj : J -> J.
  Hypothesis Hw : weights_ok xt wr wj nothing.
  Hypothesis Hlin : linear_ok xt (normal_exact apH) (qr_exact no apJ) (newton_exact apJ) anything.
  Notation grF := (fun y r => r = F y).
  Notation gjF := (fun y j => j = DF y).
  Let HV := nl_v _ _ _ _ _ HL.
  Let HR := nl_r _ _ _ _ _ HL.

  Lemma full_rank_pd : forall j mu, 0 <= mu -> full_rank no ro apJ j ->
    positive_definite no apH (n_adddiag no (n_jtj no j j) mu).
  Proof.
    intros j mu Hmu Hf v Hv. rewrite (nl_adddiag _ _ _ _ _ HL), (dot_add_r _ _ HV), (dot_scale_r _ _ HV).
    rewrite (in_sym _ _ HV v (apH _ v)), (jtj_dot _ _ _ _ HL).
    pose proof (in_pos _ _ HR (apJ j v)) as P1. pose proof (nl_diag_pos _ _ _ _ _ HL j v) as P2.
    assert (n_rdot no (apJ j v) (apJ j v) <> 0) by (intros E; apply Hv, Hf, (in_zero _ _ HR), E).
    assert (0 <= mu * n_dot no v (n_diagmul no (n_jtj no j j) v)) by (apply Rmult_le_pos; assumption). lra.
  Qed.

  (** C27 *)
  Lemma lm_solve_descends : forall cf s w r s' w',
    (forall x mu, 0 < mu -> positive_definite no apH (n_adddiag no (n_jtj no (DF x) (DF x)) mu)) ->
    ls_object o s -> (f_update cf = ULMSchedule1 \/ f_update cf = ULMSchedule2) ->
    exec rj (ls_solve o no xt LevMar cf) (s, w) = (r, (s', w')) ->
    exists ls xs, g_log s' = g_log s ++ ls /\ visited xs ls (g_x s) (g_x s') /\
      consecutive (fun y z => z = y \/ half_square no (F z) < half_square no (F y)) xs.
  Proof.
    intros cf s w r s' w' Hpd Ho Hu E.
    assert (Hs : ls_supported LevMar cf) by (unfold ls_supported; destruct Hu as [-> | ->]; reflexivity).
    pose proof (ls_solve_ok o no xt (graph rj) wr wj _ _ _ _ _ _ _ (computes_ok rj F DF Hc) Hw Hlin (ten_ends _ _ (ten_R eps)) none_linesearch LevMar cf s w Ho Hs) as K.
    pose proof (tri_exec _ _ _ _ _ _ _ _ _ _ _ _ _ _ K E) as [K1 [ls [K2 K3]]].
    exists ls.
    assert (P0 : let p := start o LevMar cf (g_x s) (g_damp s) (g_nu s) in
                 match f_update cf with ULMSchedule1 => 0 < snd (fst p) /\ 0 < snd p | _ => in_range (snd (fst p)) end).
    { unfold start, in_range. destruct Hu as [-> | ->]; cbn [fst snd]; rewrite !sZ_R; lra. }
    apply (ends_with o cf) with (P := fun p => match f_update cf with ULMSchedule1 => 0 < snd (fst p) /\ 0 < snd p | _ => in_range (snd (fst p)) end) in K3;
      [|exact P0|].
    - destruct K3 as [K3 _]. apply ends_chain in K3. destruct K3 as [is [-> [C K3]]].
      eapply (visited_consecutive o (fun y z => z = y \/ half_square no (F z) < half_square no (F y)) _ (ls_meas o no wr wj LevMar) _ ls_diags) in K3;
        [destruct K3 as [xs [X1 X2]]; exists xs; auto| |exact C].
      cbv beta. intros i q [Vi Pi] Mi.
      assert (Pm : 0 < i_mu i) by (destruct Hu as [Hu|Hu]; rewrite Hu in Pi; cbn [fst snd] in Pi; unfold in_range in *; lra).
      assert (Hj : i_j i = DF (i_x i)) by exact (proj1 (proj2 Vi)).
      assert (Pp : positive_definite no apH (n_adddiag no (n_jtj no (i_j i) (i_j i)) (i_mu i))) by (rewrite Hj; apply Hpd; exact Pm).
      unfold ls_move in Mi.
      assert (Q : exists rr, rr = F (along o no (i_x i) (i_c o no i) 1) /\ fst (fst q) = lm_state o no i (gain o no (ls_objective o no wr LevMar) i rr)).
      { destruct Hu as [Hu|Hu]; rewrite Hu in Mi; destruct Mi as [rr [M1 M2]]; exists rr; (split; [exact M1|]).
        - destruct (schedule1 _ _ _ _); subst q; reflexivity.
        - subst q; reflexivity. }
      destruct Q as [rr [Q1 ->]].
      destruct (lm_state_outcome no ro apJ apH HL F DF wr wj i rr Vi Pp Q1) as [[A ->]|[A ->]]; [right|left; reflexivity].
      exact A.
    - intros i q _ P1 M. cbn [fst snd] in P1. unfold ls_move in M. destruct Hu as [Hu|Hu]; rewrite Hu in P1, M |- *; destruct M as [rr [_ M]].
      + destruct P1 as [P1 P2]. destruct (schedule1 o (i_mu i) (i_nu i) (gain o no (ls_objective o no wr LevMar) i rr)) as [a b] eqn:Es.
        subst q. cbn [fst snd].
        pose proof (schedule1_pos eps (i_mu i) (i_nu i) (gain o no (ls_objective o no wr LevMar) i rr) P1 P2) as P. rewrite Es in P. exact P.
      + subst q. cbn [fst snd]. apply schedule2_range. exact P1.
  Qed.

  (** C29 *)
  Lemma gain_value : forall s w v s' w',
    exec rj (lm_gain_iteration o no xt) (s, w) = (Ok v, (s', w')) ->
    let x := g_x s in let c := g_c s' in
    g_x s' = x /\
    v = (half_square no (F (vadd vo (vscale vo 1 x) (vscale vo 1 c))) - half_square no (F x)) /
        (predicted no ro apJ (DF x) (F x) c + g_damp s * n_dot no c (n_diagmul no (n_jtj no (DF x) (DF x)) c)).
  Proof.
    intros s w v s' w' E. cbv zeta.
    assert (K : tri (graph rj) (lm_gain_iteration o no xt) s w (fun r s' w' => forall v, r = Ok v ->
       g_x s' = g_x s /\
    v = (half_square no (F (vadd vo (vscale vo 1 (g_x s)) (vscale vo 1 (g_c s')))) - half_square no (F (g_x s))) /
        (predicted no ro apJ (DF (g_x s)) (F (g_x s)) (g_c s') + g_damp s * n_dot no (g_c s') (n_diagmul no (n_jtj no (DF (g_x s)) (DF (g_x s))) (g_c s'))))).
    { unfold lm_gain_iteration. apply (parts_tri o no xt (graph rj) wr wj grF gjF _ _ _ _ _ (computes_ok rj F DF Hc) Hw Hlin R LevMar s w).
      - intros r s1' w1 Hr _ u Er. exfalso. exact (Hr u Er).
      - intros i s1' w1 C Ex Ep. destruct C as [c0 c4 c5 c6 c7 c8 c9]. pose proof c0 as [c1 [c2 c3]]. cbv beta in c1, c2.
        unfold at_point in c4. pose proof Ep as Ep'. rewrite c4 in Ep. unfold pt in Ep. injection Ep as E1 E2 E3.
        unfold pt in Ep'. injection Ep' as E4 _ _.
        assert (Hr : lm_ready o no i s1') by (split; [split; [exact c4|exact c5]|exact (c9 eq_refl)|exact c8]).
        assert (Ho : obj_ok (graph rj) grF nothing (ls_objective o no wr LevMar) (objective o no xt LevMar)) by (eapply objective_ok; [exact (computes_ok rj F DF Hc)|exact Hw]).
        eapply tri_mono; [|eapply gain_tri; [exact Ho|exact Hr]]. intros r s2 w2 [U [Hr2 [P2 K]]] u ->.
        destruct K as [rr [K1 ->]]. cbv beta in K1. destruct Hr2 as [[A1 A2] A3 A4].
        unfold at_point, pt in A1. injection A1 as A1 A5 A6. split; [congruence|].
        unfold normal_exact in c3. cbn [ls_matrix ls_gradient] in c3.
        pose proof (lm_denominator _ _ _ _ HL _ _ _ _ c3) as [D1 D2]. cbv zeta in D1, D2.
        unfold gain. rewrite !(objective_half no ro apJ apH HL wr). unfold i_c in *.
        change (sdiv o) with Rdiv. change (ssub o) with Rminus. change (smul o) with Rmult.
        change (sadd o) with Rplus. rewrite sZ_R. change (sopp o (s1 o)) with (- (1)) in *. change (s1 o) with 1 in *.
        rewrite A2, K1. unfold along. rewrite <- E1, <- E2, <- c1, <- c2 in *.
        set (c := vscale vo (- (1)) (i_d i)) in *. rewrite D1, D2. f_equal; lra. }
    exact (tri_exec _ _ _ _ _ _ _ _ _ _ _ _ _ _ K E v eq_refl).
  Qed.

  (** C30 *)
  Lemma gn_minimises : forall tag s w s' w', exec rj (compute_correction o no xt tag) (s, w) = (Ok tt, (s', w')) ->
    (tag = GaussNewton \/ tag = GaussNewtonQr) ->
    let m c := model_residual ro apJ (DF (g_x s)) (F (g_x s)) c in
    (forall e, n_rnorm no (m (g_c s')) <= n_rnorm no (m e)) /\
    (n_jtr no (DF (g_x s)) (F (g_x s)) <> vzero vo ->
       n_dot no (n_jtr no (DF (g_x s)) (F (g_x s))) (g_c s') < 0).
  Proof.
    intros tag s w s' w' E Ht. cbv zeta.
    destruct (correction_at no apJ apH xt rj F DF Hc wr wj Hw Hlin tag s w s' w' E) as [d [Ec [_ Ed]]]. cbv zeta in Ed.
    assert (En : apH (n_jtj no (DF (g_x s)) (DF (g_x s))) d = n_jtr no (DF (g_x s)) (F (g_x s))).
    { destruct Ht as [-> | ->]; [exact Ed|apply (qr_normal _ _ _ _ HL); exact Ed]. }
    rewrite Ec. split; [apply (minimiser _ _ _ _ HL); exact En|].
    intros Hg. apply (descent_gn _ _ _ _ HL); assumption.
  Qed.
  Lemma qr_same : forall s w s1' w1 t u t1 u1, full_rank no ro apJ (DF (g_x s)) -> g_x t = g_x s ->
    exec rj (compute_correction o no xt GaussNewton) (s, w) = (Ok tt, (s1', w1)) ->
    exec rj (compute_correction o no xt GaussNewtonQr) (t, u) = (Ok tt, (t1, u1)) ->
    g_c t1 = g_c s1'.
  Proof.
    intros s w s1' w1 t u t1 u1 Hf Ex E1 E2.
    destruct (correction_at no apJ apH xt rj F DF Hc wr wj Hw Hlin _ _ _ _ _ E1) as [d1 [Ec1 [_ Ed1]]].
    destruct (correction_at no apJ apH xt rj F DF Hc wr wj Hw Hlin _ _ _ _ _ E2) as [d2 [Ec2 [_ Ed2]]].
    cbv zeta in *. rewrite Ex in Ed2. rewrite Ec1, Ec2. f_equal.
    apply (normal_unique _ _ _ _ HL _ _ _ _ Hf (qr_normal _ _ _ _ HL _ _ _ Ed2) Ed1).
  Qed.
  Lemma weighted_minimises : forall s w s' w', weighting ro apJ wr wj -> symmetric_psd no wr ->
    exec rj (compute_correction o no xt WeightedGN) (s, w) = (Ok tt, (s', w')) ->
    let m c := model_residual ro apJ (DF (g_x s)) (F (g_x s)) c in
    let g := n_jtr no (DF (g_x s)) (wr (F (g_x s))) in
    (forall e, n_rdot no (m (g_c s')) (wr (m (g_c s'))) <= n_rdot no (m e) (wr (m e))) /\
    (g <> vzero vo -> n_dot no g (g_c s') < 0).
  Proof.
    intros s w s' w' H1 H2 E.
    destruct (correction_at no apJ apH xt rj F DF Hc wr wj Hw Hlin _ _ _ _ _ E) as [d [Ec [_ Ed]]]. cbv zeta in *.
    rewrite Ec. split; [intros e; apply (minimiser_weighted _ _ _ _ HL wr wj); assumption|].
    intros Hg. apply (descent_weighted _ _ _ _ HL wr wj); assumption.
  Qed.
  Lemma compact_minimises : forall s w s' w', weighting ro apJ wr wj ->
    exec rj (compute_correction o no xt CompactWeightedGN) (s, w) = (Ok tt, (s', w')) ->
    let m c := model_residual ro apJ (DF (g_x s)) (F (g_x s)) c in
    let g := n_jtr no (wj (DF (g_x s))) (wr (F (g_x s))) in
    (forall e, n_rnorm no (wr (m (g_c s'))) <= n_rnorm no (wr (m e))) /\
    (g <> vzero vo -> n_dot no g (g_c s') < 0).
  Proof.
    intros s w s' w' H1 E.
    destruct (correction_at no apJ apH xt rj F DF Hc wr wj Hw Hlin _ _ _ _ _ E) as [d [Ec [_ Ed]]]. cbv zeta in *.
    rewrite Ec. split; [intros e; apply (minimiser_compact _ _ _ _ HL wr wj); assumption|].
    intros Hg. apply (descent_gn _ _ _ _ HL); assumption.
  Qed.
  Lemma lm_minimises : forall s w s' w', 0 <= g_damp s ->
    exec rj (compute_correction o no xt LevMar) (s, w) = (Ok tt, (s', w')) ->
    let q c := half_square no (model_residual ro apJ (DF (g_x s)) (F (g_x s)) c)
               + g_damp s / 2 * n_dot no c (n_diagmul no (n_jtj no (DF (g_x s)) (DF (g_x s))) c) in
    forall e, q (g_c s') <= q e.
  Proof.
    intros s w s' w' H1 E.
    destruct (correction_at no apJ apH xt rj F DF Hc wr wj Hw Hlin _ _ _ _ _ E) as [d [Ec [_ Ed]]]. cbv zeta in *.
    rewrite Ec. intros e. apply (minimiser_lm _ _ _ _ HL); assumption.
  Qed.
End Rest.

(** weighted Gauss-Newton with the identity; compact against full weighting *)
Section Weights.
  Context {eps : R} {V Rs J H L L2 W : Type}.
  Notation o := (Rops eps).
  Variable no : nlops R V Rs J H.
  Variable ro : vops R Rs.
  Variable apJ : J -> V -> Rs.
  Variable apH : H -> V -> V.
  Hypothesis HL : nl_laws eps no ro apJ apH.
  Variable xt : exts V Rs J H L.
  Variable xt2 : exts V Rs J H L2.
  Variable rj : V -> Rs -> option J -> W -> outcome unit * (Rs * option J * W).
  Variable F : V -> Rs.
  Variable DF : V -> J.
  Hypothesis Hc : computes rj F DF.
  Hypothesis Hlin : linear_ok xt (normal_exact apH) (qr_exact no apJ) (newton_exact apJ) anything.
  Hypothesis Hlin2 : linear_ok xt2 (normal_exact apH) (qr_exact no apJ) (newton_exact apJ) anything.
  Let HV := nl_v _ _ _ _ _ HL.
  Let HR := nl_r _ _ _ _ _ HL.
  Lemma identity_same : forall wr wj s w s1' w1 t u t1 u1,
    weights_ok xt wr wj nothing -> weights_ok xt2 (fun r => r) (fun j => j) nothing ->
    full_rank no ro apJ (DF (g_x s)) -> g_x t = g_x s ->
    exec rj (compute_correction o no xt GaussNewton) (s, w) = (Ok tt, (s1', w1)) ->
    exec rj (compute_correction o no xt2 WeightedGN) (t, u) = (Ok tt, (t1, u1)) ->
    g_c t1 = g_c s1'.
  Proof.
    intros wr wj s w s1' w1 t u t1 u1 Hw Hw2 Hf Ex E1 E2.
    destruct (correction_at no apJ apH xt rj F DF Hc wr wj Hw Hlin _ _ _ _ _ E1) as [d1 [Ec1 [_ Ed1]]].
    destruct (correction_at no apJ apH xt2 rj F DF Hc _ _ Hw2 Hlin2 _ _ _ _ _ E2) as [d2 [Ec2 [_ Ed2]]].
    cbv zeta in *. rewrite Ex in Ed2. rewrite Ec1, Ec2. f_equal.
    apply (normal_unique _ _ _ _ HL _ _ _ _ Hf Ed2 Ed1).
  Qed.
  Lemma compact_same : forall wr wj wt w2r w2j s w s1' w1 t u t1 u1,
    weights_ok xt wr wj nothing -> weights_ok xt2 w2r w2j nothing ->
    weighting ro apJ wr wj -> weighting ro apJ w2r w2j ->
    (forall r q, n_rdot no (wt r) q = n_rdot no r (wr q)) -> (forall r, w2r r = wt (wr r)) ->
    full_rank no ro apJ (wj (DF (g_x s))) -> g_x t = g_x s ->
    exec rj (compute_correction o no xt CompactWeightedGN) (s, w) = (Ok tt, (s1', w1)) ->
    exec rj (compute_correction o no xt2 WeightedGN) (t, u) = (Ok tt, (t1, u1)) ->
    g_c t1 = g_c s1'.
  Proof.
    intros wr wj wt w2r w2j s w s1' w1 t u t1 u1 Hw Hw2 W1 W2 Ht H2 Hf Ex E1 E2.
    destruct (correction_at no apJ apH xt rj F DF Hc wr wj Hw Hlin _ _ _ _ _ E1) as [d1 [Ec1 [_ Ed1]]].
    destruct (correction_at no apJ apH xt2 rj F DF Hc _ _ Hw2 Hlin2 _ _ _ _ _ E2) as [d2 [Ec2 [_ Ed2]]].
    cbv zeta in *. rewrite Ex in Ed2. rewrite Ec1, Ec2. f_equal. cbn [ls_matrix ls_gradient] in Ed1, Ed2.
    destruct (compact_is_weighted _ _ _ _ HL wr wj wt w2r w2j W1 W2 Ht H2 (DF (g_x s)) (F (g_x s))) as [K1 [K2 _]].
    rewrite <- K1, <- K2 in Ed2.
    apply (normal_unique _ _ _ _ HL _ _ _ _ Hf Ed2 Ed1).
  Qed.
End Weights.

(** C31 *)
Section Affine.
  Context {eps : R} {V Rs J H L W : Type}.
  Notation o := (Rops eps).
  Variable no : nlops R V Rs J H.
  Variable ro : vops R Rs.
  Variable apJ : J -> V -> Rs.
  Variable apH : H -> V -> V.
  Hypothesis HL : nl_laws eps no ro apJ apH.
  Variable xt : exts V Rs J H L.
  Notation info := (info R V Rs J).
  Notation vo := (n_vo no).
  Variable rj : V -> Rs -> option J -> W -> outcome unit * (Rs * option J * W).
  Variable A : J.
  Variable b : Rs.
  Notation F := (affine ro apJ A b).
  Hypothesis Hc : computes rj F (fun _ => A).
  Hypothesis Hlin : linear_ok xt (if_solvable (normal_exact apH)) (if_solvable (qr_exact no apJ)) (if_solvable (newton_exact apJ)) nothing.
  Hypothesis Hf : full_rank no ro apJ A.
  Let HV := nl_v _ _ _ _ _ HL.
  Let HR := nl_r _ _ _ _ _ HL.
  Notation grF := (fun y r => r = F y).
  Notation gjF := (fun (y : V) j => j = A).

  (** a run whose moves lead to [good] points, where the criterion is met *)
  Lemma one_correction : forall cf (valid : info -> Prop) measure (move : info -> V * R * R -> Prop) p0 (stuck : info -> Prop) ftrial pub reports file0 r p ls fl (good : V -> Prop),
    (forall i q, valid i -> move i q -> good (fst (fst q))) ->
    (forall i m1 k, valid i -> good (i_x i) -> met o cf k m1 (measure i)) ->
    (forall i, ~ stuck i) -> (forall e, ~ ftrial e) -> (forall d, named (f_stop cf) = Some d -> In d pub) ->
    (2 <= f_max cf < int32_max)%Z ->
    solve_ends o cf valid measure move p0 stuck nothing nothing ftrial residual_exn linesearch_exn pub reports file0 r p ls fl ->
    r = Ok tt /\ ((length ls = 1%nat /\ fst (fst p) = fst (fst p0)) \/ (length ls = 2%nat /\ good (fst (fst p)))) /\
    exists a l, ls = a ++ [l] /\ l_state l = fst (fst p) /\ line_met o cf l.
  Proof.
    intros cf valid measure move p0 stuck ftrial pub reports file0 r p ls fl good Hmove Hmet Hst Htr Hpub Hmax K.
    assert (Hs : forall is p, steps o cf valid measure move p0 is p -> (is = [] /\ p = p0) \/ (length is = 1%nat /\ good (fst (fst p)))).
    { intros is q Hs. induction Hs as [|is p1 i p' Hs IH Ha Hv Hmm Hmv]; [left; auto|]. right.
      destruct IH as [[-> _]|[_ Hg]]; [cbn; split; [reflexivity|eauto]|].
      exfalso. apply Hmm. apply Hmet; [exact Hv|]. unfold at_point in Ha. subst p1. exact Hg. }
    destruct K as [is i p Hn Hst' Ha Hv Hm|is i p e Hn Hst' Ha Hv Hm Hstk|is p Hn Hmx Hst'|is p Hn Hn2 Hst'|is p e Hn Hst' He Hfe
                  |is p r Hn Hst' He Hfe|is p r Hn Hst' He Hfe|is i p r Hn Hst' Ha Hv Hm He Hfe].
    - split; [reflexivity|]. split.
      + rewrite printed_length, app_length. destruct (Hs _ _ Hst') as [[-> ->]|[E Hg]]; [left|right]; cbn; rewrite ?E; auto.
      + eexists. eexists. split; [apply printed_last|]. split; [unfold at_point in Ha; subst p; reflexivity|].
        apply line_met_iff; assumption.
    - exfalso. eapply Hst; eauto.
    - exfalso. destruct (Hs _ _ Hst') as [[-> _]|[E _]]; cbn in *; lia.
    - exfalso. lia.
    - destruct Hfe.
    - destruct Hfe.
    - destruct Hfe.
    - exfalso. eapply Htr; eauto.
  Qed.

  Lemma neg_zero : vscale vo (- (1)) (vzero vo) = vzero vo.
  Proof. apply (dot_ext vo _ HV). intros v. rewrite (in_scale _ _ HV), (dot_0_l _ _ HV). ring. Qed.
  Lemma norm_zero : n_norm no (vzero vo) = 0.
  Proof. rewrite (nl_norm _ _ _ _ _ HL), (dot_0_l _ _ HV). apply sqrt_0. Qed.
  Lemma zero_below : forall tol x, 0 < tol -> Rltb 0 tol = true /\ Rltb (0 / x) tol = true.
  Proof. intros tol x Ht. unfold Rdiv. rewrite Rmult_0_l. split; apply Rltb_true; exact Ht. Qed.

  Lemma newton_affine : forall cf s w r s' w', (forall r, exists d, apJ A d = r) -> root_object o s -> root_supported cf -> f_update cf = UStandard ->
    0 < f_tol cf -> (2 <= f_max cf < int32_max)%Z ->
    exec rj (root_solve o no xt cf) (s, w) = (r, (s', w')) ->
    exists ls, g_log s' = g_log s ++ ls /\ r = Ok tt /\
      ((length ls = 1%nat /\ g_x s' = g_x s) \/ (length ls = 2%nat /\ F (g_x s') = vzero ro)) /\
      exists a l, ls = a ++ [l] /\ l_state l = g_x s' /\ line_met o cf l.
  Proof.
    intros cf s w r s' w' Honto Ho Hsup Hu Ht Hmax E.
    pose proof (root_solve_ok o no xt (graph rj) _ _ _ _ _ _ _ (computes_ok rj _ _ Hc) Hlin (ten_ends _ _ (ten_R eps)) none_linesearch cf s w Ho Hsup) as K.
    pose proof (tri_exec _ _ _ _ _ _ _ _ _ _ _ _ _ _ K E) as [K1 [ls [K2 K3]]].
    exists ls. split; [exact K2|].
    eapply one_correction with (good := fun x => F x = vzero ro) in K3; [exact K3|..].
    - cbv beta. intros i q [V1 [V2 V3]] M. unfold ls_move in M. rewrite Hu in M. unfold move_full in M. subst q. cbn [fst].
      cbv beta in V1, V2. rewrite V1, V2 in V3. apply (solved_newton _ _ _ _ HL) in V3; [|exact Hf|exact (Honto _)]. exact (affine_newton _ _ _ _ HL A b (i_x i) (i_d i) V3).
    - cbv beta. intros i m1 k [V1 [V2 V3]] Hg. cbv beta in V1, V2. rewrite V2 in V3. apply (solved_newton _ _ _ _ HL) in V3; [|exact Hf|exact (Honto _)].
      assert (Hd : i_d i = vzero vo) by (apply Hf; rewrite V3, V1, Hg; reflexivity).
      assert (Ec : i_c o no i = vzero vo) by (unfold i_c; rewrite Hd; exact neg_zero).
      assert (Er : n_rnorm no (i_r i) = 0) by (rewrite V1, Hg, (nl_rnorm _ _ _ _ _ HL), (dot_0_l _ _ HR); apply sqrt_0).
      destruct Hsup as [_ Hsup].
      unfold met. destruct (f_stop cf); try contradiction; cbn [reading root_meas m_corr m_res m_grad m_obj];
        rewrite ?Ec, ?norm_zero, ?Er; change (sltb o) with Rltb; change (sdiv o) with Rdiv; apply zero_below; try exact Ht; exact 1.
    - unfold line_search_stuck. rewrite Hu. auto.
    - unfold trial_failures. rewrite Hu. auto.
    - apply root_named. exact Hsup.
    - exact Hmax.
  Qed.

  Variable wr : Rs -> Rs.
  Variable wj : J -> J.
  Hypothesis Hw : weights_ok xt wr wj nothing.
  Lemma gn_affine : forall tag cf s w r s' w',
    (forall r, exists d, match tag with GaussNewtonQr => qr_exact no apJ A r d
                         | _ => normal_exact apH (n_jtj no A A) (n_jtr no A r) d end) ->
    ls_object o s -> (tag = GaussNewton \/ tag = GaussNewtonQr) ->
    f_update cf = UStandard ->
    (f_stop cf = WhenAbsCorrection \/ f_stop cf = WhenRelCorrection \/ f_stop cf = WhenAbsGradient \/ f_stop cf = WhenRelGradient) ->
    0 < f_tol cf -> (2 <= f_max cf < int32_max)%Z ->
    exec rj (ls_solve o no xt tag cf) (s, w) = (r, (s', w')) ->
    exists ls, g_log s' = g_log s ++ ls /\ r = Ok tt /\
      ((length ls = 1%nat /\ g_x s' = g_x s) \/
       (length ls = 2%nat /\ forall y, n_rnorm no (F (g_x s')) <= n_rnorm no (F y))) /\
      exists a l, ls = a ++ [l] /\ l_state l = g_x s' /\ line_met o cf l.
  Proof.
    intros tag cf s w r s' w' Hsolv Ho Htag Hu Hstop Ht Hmax E.
    assert (Hs : ls_supported tag cf) by (unfold ls_supported; rewrite Hu; exact I).
    pose proof (ls_solve_ok o no xt (graph rj) wr wj _ _ _ _ _ _ _ (computes_ok rj _ _ Hc) Hw Hlin (ten_ends _ _ (ten_R eps)) none_linesearch tag cf s w Ho Hs) as K.
    pose proof (tri_exec _ _ _ _ _ _ _ _ _ _ _ _ _ _ K E) as [K1 [ls [K2 K3]]].
    assert (Hnorm : forall i, ls_valid no wr wj grF gjF (if_solvable (normal_exact apH)) (if_solvable (qr_exact no apJ)) tag i ->
      apH (n_jtj no A A) (i_d i) = n_jtr no A (F (i_x i))).
    { intros i [V1 [V2 V3]]. cbv beta in V1, V2. rewrite <- V1. rewrite V2 in V3. destruct Htag as [-> | ->].
      - exact (solved_normal _ _ _ _ HL A _ _ Hf (Hsolv _) V3).
      - apply (qr_normal _ _ _ _ HL). exact (solved_qr _ _ _ _ HL A _ _ Hf (Hsolv _) V3). }
    exists ls. split; [exact K2|].
    eapply one_correction with (good := fun x => n_jtr no A (F x) = vzero vo /\ forall y, n_rnorm no (F x) <= n_rnorm no (F y)) in K3.
    - destruct K3 as [R1 [R2 R3]]. split; [exact R1|]. split; [|exact R3]. destruct R2 as [R2|[R2 [_ R4]]]; [left; exact R2|right; auto].
    - cbv beta. intros i q Hv M. unfold ls_move in M. rewrite Hu in M. unfold move_full in M. subst q. cbn [fst]. specialize (Hnorm i Hv). split.
      + exact (affine_gn _ _ _ _ HL A b (i_x i) (i_d i) Hnorm).
      + exact (affine_gn_min _ _ _ _ HL A b (i_x i) (i_d i) Hnorm).
    - cbv beta. intros i m1 k Hv [Hg _]. specialize (Hnorm i Hv). rewrite Hg in Hnorm.
      assert (Hd : i_d i = vzero vo).
      { apply (normal_unique _ _ _ _ HL A (vzero vo)); [exact Hf|exact Hnorm|].
        apply (dot_ext vo _ HV). intros v. rewrite (jtj_dot _ _ _ _ HL), (dot_0_l _ _ HV).
        rewrite <- (vs_0 _ _ (in_space _ _ HV) (vzero vo)), (apJ_scale _ _ _ _ HL), (in_scale _ _ HR). change (s0 o) with 0. ring. }
      assert (Ec : i_c o no i = vzero vo) by (unfold i_c; rewrite Hd; exact neg_zero).
      destruct Hv as [V1 [V2 _]]. cbv beta in V1, V2.
      assert (Eg : n_norm no (ls_gradient no wr wj tag (i_j i) (i_r i)) = 0).
      { replace (ls_gradient no wr wj tag (i_j i) (i_r i)) with (vzero vo); [exact norm_zero|].
        rewrite V1, V2. destruct Htag as [-> | ->]; symmetry; exact Hg. }
      unfold met. destruct Hstop as [-> |[-> |[-> | ->]]]; cbn [reading ls_meas m_corr m_res m_grad m_obj];
        rewrite ?Ec, ?norm_zero, ?Eg; change (sltb o) with Rltb; change (sdiv o) with Rdiv; apply zero_below; try exact Ht; exact 1.
    - unfold line_search_stuck. rewrite Hu. auto.
    - unfold trial_failures. rewrite Hu. auto.
    - apply ls_named.
    - exact Hmax.
  Qed.
End Affine.

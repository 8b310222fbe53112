(** C91: Newton's method started where the residual is small. *)
From Coq Require Import Reals ZArith List Lra Lia Bool.
From Verif Require Import Base RInst Laws LawInst ExplicitModel AdvanceModel AdvanceSpec ImplicitModel ImplicitSpec NonlinDiag NonlinModel NonlinWp NonlinDiagProofs
  NonlinSpec NonlinRuns NonlinProofs NonlinSolve NonlinLines NonlinClaims NonlinSeq NonlinFollow NonlinLaws NonlinExact NonlinReal
  NonlinTheory NonlinRest DissipSpec DissipProofs LinRunSpec NewtonSpec NewtonProofs NewtonClaims NewtonRunSpec.
Import ListNotations.
Local Open Scope R_scope.

(** ** Invariants that depend on the number of the iteration *)
Section Indexed.
  Context {eps : R} {V Rs J : Type}.
  Notation o := (Rops eps).
  Notation info := (info R V Rs J).
  Variable P : nat -> V -> Prop.
  Variable cf : config R.
  Variable valid : info -> Prop.
  Variable measure : info -> meas R.
  Variable move : info -> V * R * R -> Prop.
  Variable p0 : V * R * R.
  Notation px p := (fst (fst p)).
  Hypothesis Hmove : forall k i q, valid i -> P k (i_x i) -> move i q -> P (S k) (px q).
  Hypothesis H0 : P 0 (px p0).
  Notation steps' := (steps o cf valid measure move p0).
  Lemma steps_indexed : forall is p, steps' is p ->
    P (length is) (px p) /\ (forall k x, nth_error (map i_x is ++ [px p]) k = Some x -> P k x).
  Proof.
    intros is p K. induction K as [|is p i p' K [I1 I2] Ha Hv Hm Hmv].
    - split; [exact H0|]. intros [|k] x E; cbn in E; [injection E as <-; exact H0|destruct k; discriminate].
    - assert (Ep : px p = i_x i) by (unfold at_point in Ha; subst p; reflexivity). rewrite Ep in *.
      pose proof (Hmove _ i p' Hv I1 Hmv) as Q.
      assert (R2 : P (length (is ++ [i])) (px p')) by (rewrite app_length; cbn [length]; rewrite Nat.add_1_r; exact Q).
      split; [exact R2|]. rewrite map_app. cbn [map]. set (l := map i_x is ++ [i_x i]) in *.
      assert (Ll : length l = length (is ++ [i])) by (unfold l; rewrite !app_length, map_length; reflexivity).
      intros k x E. destruct (Nat.lt_ge_cases k (length l)) as [Hl|Hl].
      + rewrite nth_error_app1 in E by exact Hl. eauto.
      + rewrite nth_error_app2 in E by exact Hl. destruct (k - length l)%nat as [|n] eqn:En; cbn in E; [|destruct n; discriminate].
        injection E as <-. replace k with (length (is ++ [i])) by lia. exact R2.
  Qed.

  Variable stuck : info -> Prop.
  Variable ftrial : outcome unit -> Prop.
  Variable pub : list diag.
  Variable reports : bool.
  Variable file0 : option report.
  Hypothesis Hst : forall i, ~ stuck i.
  Hypothesis Htr : forall e, ~ ftrial e.
  Hypothesis Hpub : forall d, named (f_stop cf) = Some d -> In d pub.
  Hypothesis Hmax : (0 <= f_max cf < int32_max)%Z.
  Notation ends := (solve_ends o cf valid measure move p0 stuck nothing nothing ftrial residual_exn linesearch_exn pub reports file0).
  Lemma ends_indexed : forall r p ls fl, ends r p ls fl ->
    r = Ok tt /\ (forall k l, nth_error ls k = Some l -> P k (l_state l)) /\
    ((exists i m1 k a l, valid i /\ P (length a) (i_x i) /\ i_x i = px p /\ met o cf k m1 (measure i) /\ ls = a ++ [l] /\ l_state l = px p /\ line_met o cf l) \/
     (Z.of_nat (length ls) = f_max cf /\ P (length ls) (px p))).
  Proof.
    intros r p ls fl K.
    destruct K as [is i p Hn Hs Ha Hv Hm|is i p e Hn Hs Ha Hv Hm Hstk|is p Hn Hmx Hs|is p Hn Hn2 Hs|is p e Hn Hs He Hfe
                  |is p r Hn Hs He Hfe|is p r Hn Hs He Hfe|is i p r Hn Hs Ha Hv Hm He Hfe];
      try (destruct Hfe; fail); try (exfalso; eapply Hst; eassumption); try (exfalso; eapply Htr; eassumption); try (exfalso; lia).
    - destruct (steps_indexed _ _ Hs) as [S1 S3].
      assert (Ep : px p = i_x i) by (unfold at_point in Ha; subst p; reflexivity).
      assert (El : map i_x is ++ [px p] = map i_x (is ++ [i])) by (rewrite map_app, Ep; reflexivity). rewrite El in S3.
      split; [reflexivity|]. split.
      + intros k l E. apply printed_state_nth in E. eauto.
      + left. exists i, (first measure is i), (number is). eexists. eexists. split; [exact Hv|]. split; [|split; [symmetry; exact Ep|]; split; [exact Hm|];
        split; [apply printed_last|]; split; [symmetry; exact Ep|]; apply line_met_iff; assumption].
        rewrite printed_length. rewrite <- Ep. exact S1.
    - destruct (steps_indexed _ _ Hs) as [S1 S3].
      split; [reflexivity|]. split.
      + intros k l E. apply printed_state_nth in E. eapply S3. apply nth_left. exact E.
      + right. rewrite printed_length. split; [lia|exact S1].
  Qed.
  Variable K : nat.
  Hypothesis Hseen : forall i m1 k, valid i -> P K (i_x i) -> met o cf k m1 (measure i).
  Lemma steps_soon : forall is p, steps' is p -> (length is <= K)%nat.
  Proof.
    intros is p Hs. induction Hs as [|is p i p' Hs IH Ha Hv Hm Hmv]; [cbn; lia|].
    rewrite app_length. cbn [length]. destruct (Nat.eq_dec (length is) K) as [E|]; [exfalso|lia].
    destruct (steps_indexed _ _ Hs) as [S1 _]. unfold at_point in Ha. subst p. cbn [fst] in S1.
    apply Hm. apply Hseen; [exact Hv|]. rewrite <- E. exact S1.
  Qed.
  Lemma ends_soon : (Z.of_nat K < f_max cf)%Z -> forall r p ls fl, ends r p ls fl -> (length ls <= K + 1)%nat /\
    exists i m1 k a l, valid i /\ P (length a) (i_x i) /\ i_x i = px p /\ met o cf k m1 (measure i) /\ ls = a ++ [l] /\ l_state l = px p /\ line_met o cf l.
  Proof.
    intros HK r p ls fl Hend.
    destruct Hend as [is i p Hn Hs Ha Hv Hm|is i p e Hn Hs Ha Hv Hm Hstk|is p Hn Hmx Hs|is p Hn Hn2 Hs|is p e Hn Hs He Hfe
                  |is p r Hn Hs He Hfe|is p r Hn Hs He Hfe|is i p r Hn Hs Ha Hv Hm He Hfe];
      try (destruct Hfe; fail); try (exfalso; eapply Hst; eassumption); try (exfalso; eapply Htr; eassumption); try (exfalso; lia).
    - pose proof (steps_soon _ _ Hs). split; [rewrite printed_length, app_length; cbn [length]; lia|].
      destruct (steps_indexed _ _ Hs) as [S1 _].
      assert (Ep : px p = i_x i) by (unfold at_point in Ha; subst p; reflexivity).
      exists i, (first measure is i), (number is). eexists. eexists. split; [exact Hv|]. split; [|split; [symmetry; exact Ep|]; split; [exact Hm|];
        split; [apply printed_last|]; split; [symmetry; exact Ep|]; apply line_met_iff; assumption].
      rewrite printed_length. rewrite <- Ep. exact S1.
    - pose proof (steps_soon _ _ Hs). exfalso. lia.
  Qed.
End Indexed.

(** ** The steps of Newton's method *)
Section Steps.
  Context {eps : R} {V Rs J H L W : Type}.
  Notation o := (Rops eps).
  Variable no : nlops R V Rs J H.
  Variable ro : vops R Rs.
  Variable apJ : J -> V -> Rs.
  Variable apH : H -> V -> V.
  Hypothesis HL : nl_laws eps no ro apJ apH.
  Notation vo := (n_vo no).
  Notation dot := (n_dot no).
  Notation rdot := (n_rdot no).
  Variable F : V -> Rs.
  Variable DF : V -> J.
  Variable x0 : V.
  Variables rad beta gamma : R.
  Hypothesis HG : regular_around no ro apJ F DF x0 rad beta gamma.
  Let HV := nl_v _ _ _ _ _ HL.
  Let HR := nl_r _ _ _ _ _ HL.
  Notation kappa := (rate beta gamma).
  Notation res x := (n_rnorm no (F x)).
  Notation far x := (apart no x x0).
  Notation neg d := (vscale vo (- (1)) d).
  Notation theta := (kappa * res x0).
  Lemma res_pos : forall r, 0 <= n_rnorm no r.
  Proof. intros r. rewrite (nl_rnorm _ _ _ _ _ HL). apply R_sqrt.sqrt_pos. Qed.
  Lemma rate_pos : 0 <= kappa.
  Proof.
    pose proof (ra_beta _ _ _ _ _ _ _ _ _ HG). pose proof (ra_gamma _ _ _ _ _ _ _ _ _ HG). unfold rate.
    apply Rmult_le_pos; [lra|]. apply pow_le. assumption.
  Qed.
  Lemma theta_pos : 0 <= theta.
  Proof. apply Rmult_le_pos; [exact rate_pos|apply res_pos]. Qed.
  Definition kept (k : nat) (x : V) : Prop :=
    res x <= quadratic kappa (res x0) k /\ res x <= res x0 * theta ^ k /\ (1 - theta) * far x <= beta * res x0 * (1 - theta ^ k).
  Lemma kept_start : kept 0 x0.
  Proof.
    unfold kept. rewrite quadratic_0. cbn [pow]. split; [lra|]. split; [lra|].
    assert (E : far x0 = 0).
    { unfold apart, from. rewrite (nl_norm _ _ _ _ _ HL).
      replace (vadd vo x0 (neg x0)) with (vzero vo); [rewrite (dot_0_l _ _ HV); apply sqrt_0|].
      apply (dot_ext vo dot HV). intros v. rewrite (in_add _ _ HV), (in_scale _ _ HV), (dot_0_l _ _ HV). ring. }
    rewrite E. lra.
  Qed.
  Lemma kept_in : forall k x, kept k x -> far x <= rad.
  Proof.
    intros k x [_ [_ K3]]. pose proof (ra_small _ _ _ _ _ _ _ _ _ HG) as Hs. pose proof (ra_room _ _ _ _ _ _ _ _ _ HG) as Hr.
    pose proof (pow_le theta k theta_pos) as Hp. pose proof (ra_beta _ _ _ _ _ _ _ _ _ HG). pose proof (res_pos (F x0)).
    apply (Rmult_le_reg_l (1 - theta)); [lra|]. assert (0 <= beta * res x0 * theta ^ k) by (apply Rmult_le_pos; [apply Rmult_le_pos|]; assumption). lra.
  Qed.
  Lemma kept_rank : forall x, far x <= rad -> full_rank no ro apJ (DF x).
  Proof.
    intros x Hx v E. apply (len_zero vo dot HV). rewrite <- (nl_norm _ _ _ _ _ HL).
    pose proof (ra_inverse _ _ _ _ _ _ _ _ _ HG x Hx v) as K. rewrite E, (nl_rnorm _ _ _ _ _ HL), (dot_0_l _ _ HR), sqrt_0 in K. lra.
  Qed.
  Lemma pow_below : forall k, theta ^ k <= 1.
  Proof.
    intros k. pose proof (ra_small _ _ _ _ _ _ _ _ _ HG) as Hs. pose proof theta_pos as Ht. induction k as [|k IH]; cbn [pow]; [lra|].
    pose proof (pow_le theta k Ht). nra.
  Qed.
  Lemma along_one : forall x d, along o no x (neg d) 1 = vadd vo x (neg d).
  Proof.
    intros x d. unfold along. change (s1 o) with 1. apply (dot_ext vo dot HV). intros v.
    rewrite !(in_add _ _ HV), ?(in_scale _ _ HV), ?(in_scale _ _ HV). ring.
  Qed.
  Lemma norm_neg : forall d, n_norm no (neg d) = n_norm no d.
  Proof. intros d. rewrite !(nl_norm _ _ _ _ _ HL). apply (len_opp vo dot HV). Qed.
  Lemma kept_step : forall k x d, kept k x -> apJ (DF x) d = F x -> kept (S k) (along o no x (neg d) 1).
  Proof.
    intros k x d Hk Hd. pose proof (kept_in k x Hk) as Hx. destruct Hk as [K1 [K2 K3]]. rewrite along_one.
    pose proof (ra_beta _ _ _ _ _ _ _ _ _ HG) as Hb. pose proof (ra_gamma _ _ _ _ _ _ _ _ _ HG) as Hg.
    pose proof (ra_small _ _ _ _ _ _ _ _ _ HG) as Hs. pose proof (ra_room _ _ _ _ _ _ _ _ _ HG) as Hr.
    pose proof theta_pos as Pt. pose proof rate_pos as Pk. pose proof (res_pos (F x0)) as P0. pose proof (res_pos (F x)) as Px.
    pose proof (pow_le theta k Pt) as Pp. pose proof (pow_below k) as Pb.
    pose proof (ra_inverse _ _ _ _ _ _ _ _ _ HG x Hx d) as Di. rewrite Hd in Di.
    assert (Pd : 0 <= n_norm no d) by (rewrite (nl_norm _ _ _ _ _ HL); apply R_sqrt.sqrt_pos).
    assert (Fa : far (vadd vo x (neg d)) <= far x + n_norm no d).
    { unfold apart, from. replace (vadd vo (vadd vo x (neg d)) (neg x0)) with (vadd vo (vadd vo x (neg x0)) (neg d)).
      - rewrite <- (norm_neg d), !(nl_norm _ _ _ _ _ HL). apply (triangle vo dot HV).
      - apply (dot_ext vo dot HV). intros v. rewrite !(in_add _ _ HV). ring. }
    assert (N3 : (1 - theta) * far (vadd vo x (neg d)) <= beta * res x0 * (1 - theta ^ S k)).
    { assert (n_norm no d <= beta * (res x0 * theta ^ k)) by (eapply Rle_trans; [exact Di|]; apply Rmult_le_compat_l; assumption).
      assert ((1 - theta) * far (vadd vo x (neg d)) <= (1 - theta) * (far x + beta * (res x0 * theta ^ k))) by (apply Rmult_le_compat_l; lra).
      cbn [pow]. lra. }
    assert (Hx' : far (vadd vo x (neg d)) <= rad).
    { pose proof (pow_le theta (S k) Pt) as Hp.
      apply (Rmult_le_reg_l (1 - theta)); [lra|]. assert (0 <= beta * res x0 * theta ^ S k) by (apply Rmult_le_pos; [apply Rmult_le_pos|]; assumption). lra. }
    pose proof (ra_smooth _ _ _ _ _ _ _ _ _ HG x (neg d) Hx Hx') as Q. rewrite norm_neg in Q.
    assert (Er : vadd ro (F (vadd vo x (neg d))) (vscale ro (- (1)) (vadd ro (F x) (apJ (DF x) (neg d)))) = F (vadd vo x (neg d))).
    { rewrite (apJ_scale _ _ _ _ HL), Hd. apply (dot_ext ro rdot HR). intros v.
      rewrite ?(in_add _ _ HR), ?(in_scale _ _ HR), ?(in_add _ _ HR), ?(in_scale _ _ HR). ring. }
    rewrite Er in Q.
    assert (Q2 : res (vadd vo x (neg d)) <= kappa * (res x) ^ 2).
    { eapply Rle_trans; [exact Q|]. unfold rate. replace (gamma / 2 * beta ^ 2 * res x ^ 2) with (gamma / 2 * (beta * res x) ^ 2) by ring.
      apply Rmult_le_compat_l; [lra|]. apply pow_incr. split; assumption. }
    split; [|split; [|exact N3]].
    - rewrite quadratic_S. eapply (step_bound kappa Pk); [|exact Q2]. split; assumption.
    - assert (kappa * (res x) ^ 2 <= kappa * (res x0 * theta ^ k) ^ 2).
      { apply Rmult_le_compat_l; [exact Pk|]. apply pow_incr. split; assumption. }
      assert (kappa * (res x0 * theta ^ k) ^ 2 = res x0 * theta ^ S k * theta ^ k) by (cbn [pow]; ring).
      assert (0 <= res x0 * theta ^ S k) by (apply Rmult_le_pos; [exact P0|apply pow_le; exact Pt]).
      assert (res x0 * theta ^ S k * theta ^ k <= res x0 * theta ^ S k * 1) by (apply Rmult_le_compat_l; assumption). lra.
  Qed.
  Lemma kept_correction : forall x d, far x <= rad -> apJ (DF x) d = F x -> n_norm no (neg d) <= beta * res x.
  Proof. intros x d Hx Hd. rewrite norm_neg, <- Hd. exact (ra_inverse _ _ _ _ _ _ _ _ _ HG x Hx d). Qed.
End Steps.

(** ** Whole solves *)
Section Solves.
  Context {eps : R} {V Rs J H L W : Type}.
  Notation o := (Rops eps).
  Variable no : nlops R V Rs J H.
  Variable ro : vops R Rs.
  Variable apJ : J -> V -> Rs.
  Variable apH : H -> V -> V.
  Hypothesis HL : nl_laws eps no ro apJ apH.
  Variable xt : exts V Rs J H L.
  Notation info := (info R V Rs J).
  Notation vo := (n_vo no).
  Variable rj : V -> Rs -> option J -> W -> outcome unit * (Rs * option J * W).
  Variable F : V -> Rs.
  Variable DF : V -> J.
  Hypothesis Hc : computes rj F DF.
  Hypothesis Hlin : linear_ok xt (if_solvable (normal_exact apH)) (if_solvable (qr_exact no apJ)) (if_solvable (newton_exact apJ)) nothing.
  Notation grF := (fun y r => r = F y).
  Notation gjF := (fun (y : V) j => j = DF y).
  Notation px p := (fst (fst p)).
  Notation res x := (n_rnorm no (F x)).
  Variable cf : config R.
  Variable s : reg R V Rs J H L.
  Variable w : W.
  Variable r : outcome unit.
  Variable s' : reg R V Rs J H L.
  Variable w' : W.
  Hypothesis Ho : root_object o s.
  Hypothesis Hsup : root_supported cf.
  Hypothesis Hu : f_update cf = UStandard.
  Hypothesis Hmax : (0 <= f_max cf < int32_max)%Z.
  Hypothesis E : exec rj (root_solve o no xt cf) (s, w) = (r, (s', w')).
  Variables rad beta gamma : R.
  Hypothesis HG : regular_around no ro apJ F DF (g_x s) rad beta gamma.
  Notation kappa := (rate beta gamma).
  Notation valid := (root_valid grF gjF (if_solvable (newton_exact apJ))).
  Notation P := (kept no F (g_x s) beta gamma).
  Lemma around_dir : forall k (i : info), valid i -> P k (i_x i) -> apJ (DF (i_x i)) (i_d i) = F (i_x i).
  Proof.
    intros k i [V1 [V2 V3]] Hk. cbv beta in V1, V2. rewrite V1, V2 in V3.
    pose proof (kept_in no ro apJ apH HL F DF _ _ _ _ HG k _ Hk) as Hx.
    exact (solved_newton _ _ _ _ HL _ _ _ (kept_rank no ro apJ apH HL F DF _ _ _ _ HG _ Hx) (ra_onto _ _ _ _ _ _ _ _ _ HG _ Hx _) V3).
  Qed.
  Lemma around_move : forall f k (i : info) q, valid i -> P k (i_x i) -> ls_move o no grF f cf i q -> P (S k) (px q).
  Proof.
    intros f k i q Hv Hk Hm. unfold ls_move in Hm. rewrite Hu in Hm. unfold move_full in Hm. subst q. cbn [fst].
    exact (kept_step no ro apJ apH HL F DF _ _ _ _ HG k (i_x i) (i_d i) Hk (around_dir k i Hv Hk)).
  Qed.
  Lemma around_shrinks : exists ls, g_log s' = g_log s ++ ls /\ r = Ok tt /\ apart no (g_x s') (g_x s) <= rad /\
    shrinks no eps cf F kappa (g_x s) rad ls (g_x s').
  Proof.
    pose proof (root_solve_ok o no xt (graph rj) _ _ _ _ _ _ _ (computes_ok rj _ _ Hc) Hlin (ten_ends _ _ (ten_R eps)) none_linesearch cf s w Ho Hsup) as K.
    pose proof (tri_exec _ _ _ _ _ _ _ _ _ _ _ _ _ _ K E) as [K1 [ls [K2 K3]]].
    exists ls. split; [exact K2|].
    pose proof (ends_indexed P cf _ _ _ (g_x s, g_damp s, g_nu s) (around_move _) (kept_start no ro apJ apH HL F (g_x s) beta gamma) _ _ _ _ _
                 (no_stuck no F cf _ Hu) (no_trial cf Hu) (root_named _ Hsup) Hmax _ _ _ _ K3) as [R1 [R2 R3]].
    split; [exact R1|]. split; [|split].
    - change (apart no (px (pt s')) (g_x s) <= rad). destruct R3 as [[i [m1 [k [a [l [_ [R [Ei _]]]]]]]]|[_ R]].
      + rewrite <- Ei. exact (kept_in no ro apJ apH HL F DF _ _ _ _ HG _ _ R).
      + exact (kept_in no ro apJ apH HL F DF _ _ _ _ HG _ _ R).
    - intros k l El. specialize (R2 k l El). split; [exact (proj1 R2)|exact (kept_in no ro apJ apH HL F DF _ _ _ _ HG _ _ R2)].
    - destruct R3 as [[i [m1 [k [a [l [_ [_ [_ [_ R]]]]]]]]]|[Rn R]]; [left; exists a, l; exact R|right; split; [exact Rn|exact (proj1 R)]].
  Qed.
  Lemma around_finds : forall M near far, weighed (f_stop cf) beta M near far ->
    (f_stop cf = WhenAbsCorrection -> 0 <= M /\ forall x, apart no x (g_x s) <= rad -> forall v, n_rnorm no (apJ (DF x) v) <= M * n_norm no v) ->
    forall n, near * quadratic kappa (res (g_x s)) n < f_tol cf -> (Z.of_nat n < f_max cf)%Z ->
    exists a l, g_log s' = g_log s ++ a ++ [l] /\ l_state l = g_x s' /\ line_met o cf l /\ (length a <= n)%nat /\
      res (g_x s') <= far * f_tol cf.
  Proof.
    intros M near far HW HM n Hn Hlt.
    pose proof (root_solve_ok o no xt (graph rj) _ _ _ _ _ _ _ (computes_ok rj _ _ Hc) Hlin (ten_ends _ _ (ten_R eps)) none_linesearch cf s w Ho Hsup) as K.
    pose proof (tri_exec _ _ _ _ _ _ _ _ _ _ _ _ _ _ K E) as [K1 [ls [K2 K3]]].
    assert (Hseen : forall (i : info) m1 k, valid i -> P n (i_x i) -> met o cf k m1 (root_meas o no i)).
    { intros i m1 k Hv Hk. unfold met, weighed in *. pose proof (kept_in no ro apJ apH HL F DF _ _ _ _ HG _ _ Hk) as Hx.
      pose proof (ra_beta _ _ _ _ _ _ _ _ _ HG) as Hb.
      destruct (f_stop cf) eqn:Es; try contradiction; cbn [reading root_meas m_corr m_res]; change (sltb o) with Rltb; apply Rltb_true; destruct HW as [-> _].
      - eapply Rle_lt_trans; [exact (kept_correction no ro apJ apH HL F DF _ _ _ _ HG (i_x i) (i_d i) Hx (around_dir _ i Hv Hk))|].
        eapply Rle_lt_trans; [|exact Hn]. apply Rmult_le_compat_l; [exact Hb|exact (proj1 Hk)].
      - destruct Hv as [-> _]. eapply Rle_lt_trans; [exact (proj1 Hk)|]. rewrite Rmult_1_l in Hn. exact Hn. }
    pose proof (ends_soon P cf _ _ _ (g_x s, g_damp s, g_nu s) (around_move _) (kept_start no ro apJ apH HL F (g_x s) beta gamma) _ _ _ _ _
                 (no_stuck no F cf _ Hu) (no_trial cf Hu) (root_named _ Hsup) Hmax n Hseen Hlt _ _ _ _ K3)
      as [R1 [i [m1 [k [a [l [V1 [V0 [V2 [V3 [V4 [V5 V6]]]]]]]]]]]].
    exists a, l. rewrite K2, V4. split; [reflexivity|]. split; [exact V5|]. split; [exact V6|].
    rewrite V4, app_length in R1. cbn in R1. split; [lia|]. change (res (px (pt s')) <= far * f_tol cf). rewrite <- V2.
    unfold met, weighed in *. destruct (f_stop cf) eqn:Es; try contradiction; cbn [reading root_meas m_corr m_res] in V3;
      change (sltb o) with Rltb in V3; apply Rltb_true in V3; destruct HW as [_ ->].
    - destruct (HM eq_refl) as [HM0 HMx]. rewrite <- (around_dir _ i V1 V0).
      eapply Rle_trans; [apply (HMx _ (kept_in no ro apJ apH HL F DF _ _ _ _ HG _ _ V0))|].
      apply Rmult_le_compat_l; [exact HM0|]. rewrite <- (norm_neg no ro apJ apH HL). apply Rlt_le. exact V3.
    - destruct V1 as [V1 _]. rewrite V1 in V3. lra.
  Qed.
End Solves.

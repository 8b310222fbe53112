(** C96: whole solves. *)
From Coq Require Import Reals ZArith List Lra Lia Bool.
From Verif Require Import Base RInst Laws LawInst ImplicitModel ImplicitSpec NonlinDiag NonlinModel NonlinWp NonlinDiagProofs
  NonlinSpec NonlinRuns NonlinProofs NonlinSolve NonlinLines NonlinClaims NonlinSeq NonlinFollow NonlinLaws NonlinExact NonlinReal
  NonlinTheory NonlinRest NewtonSpec NewtonProofs NewtonClaims GaussSpec GaussProofs.
Import ListNotations.
Local Open Scope R_scope.

Section Claims.
  Context {eps : R} {V Rs J H L W : Type}.
  Notation o := (Rops eps).
  Variable no : nlops R V Rs J H.
  Variable ro : vops R Rs.
  Variable apJ : J -> V -> Rs.
  Variable apH : H -> V -> V.
  Hypothesis HL : nl_laws eps no ro apJ apH.
  Variable xt : exts V Rs J H L.
  Notation info := (info R V Rs J).
  Notation vo := (n_vo no).
  Variable rj : V -> Rs -> option J -> W -> outcome unit * (Rs * option J * W).
  Variable F : V -> Rs.
  Variable DF : V -> J.
  Hypothesis Hc : computes rj F DF.
  Hypothesis Hlin : linear_ok xt (if_solvable (normal_exact apH)) (if_solvable (qr_exact no apJ)) (if_solvable (newton_exact apJ)) nothing.
  Variable xs : V.
  Variables rad beta gamma rho : R.
  Hypothesis HG : regular_minimum no ro apJ F DF xs rad beta gamma rho.
  Notation kappa := (beta * (gamma / 2)).
  Notation sigma := (beta ^ 2 * gamma * rho).
  Notation q := (sigma + kappa * rad).
  Notation err x := (apart no x xs).
  Notation step e := ((sigma + kappa * e) * e).
  Notation grF := (fun y r => r = F y).
  Notation gjF := (fun (y : V) j => j = DF y).
  Notation px p := (fst (fst p)).
  Variable wr : Rs -> Rs.
  Variable wj : J -> J.
  Hypothesis Hw : weights_ok xt wr wj nothing.
  Variable tag : lstag.
  Hypothesis Hsolv : forall x, err x <= rad -> forall r, exists d, match tag with GaussNewtonQr => qr_exact no apJ (DF x) r d
                       | _ => normal_exact apH (n_jtj no (DF x) (DF x)) (n_jtr no (DF x) r) d end.
  Variable cf : config R.
  Variable s : reg R V Rs J H L.
  Variable w : W.
  Variable r : outcome unit.
  Variable s' : reg R V Rs J H L.
  Variable w' : W.
  Hypothesis Ho : ls_object o s.
  Hypothesis Htag : tag = GaussNewton \/ tag = GaussNewtonQr.
  Hypothesis Hu : f_update cf = UStandard.
  Hypothesis Hmax : (0 <= f_max cf < int32_max)%Z.
  Hypothesis Hx0 : err (g_x s) <= rad.
  Hypothesis E : exec rj (ls_solve o no xt tag cf) (s, w) = (r, (s', w')).
  Notation valid := (ls_valid no wr wj grF gjF (if_solvable (normal_exact apH)) (if_solvable (qr_exact no apJ)) tag).
  Notation measure := (ls_meas o no wr wj tag).
  Let HK0 := kappa_nonneg no ro apJ F DF xs rad beta gamma rho HG.
  Let HS0 := sigma_pos no ro apJ apH HL F DF xs rad beta gamma rho HG.
  Let Hsm := rm_small _ _ _ _ _ _ _ _ _ _ HG.
  Let Hep := err_pos no ro apJ apH HL xs.

  Lemma min_dir : forall i : info, valid i -> err (i_x i) <= rad ->
    forall v, n_rdot no (apJ (DF (i_x i)) (i_d i)) (apJ (DF (i_x i)) v) = n_rdot no (F (i_x i)) (apJ (DF (i_x i)) v).
  Proof.
    intros i [V1 [V2 V3]] Hx v. cbv beta in V1, V2. rewrite V1, V2 in V3.
    pose proof (rank_minimum no ro apJ apH HL F DF xs rad beta gamma rho HG _ Hx) as Hr.
    assert (N : apH (n_jtj no (DF (i_x i)) (DF (i_x i))) (i_d i) = n_jtr no (DF (i_x i)) (F (i_x i))).
    { pose proof (Hsolv _ Hx (F (i_x i))) as Hs. destruct Htag as [-> | ->].
      - exact (solved_normal _ _ _ _ HL _ _ _ Hr Hs V3).
      - apply (qr_normal _ _ _ _ HL). exact (solved_qr _ _ _ _ HL _ _ _ Hr Hs V3). }
    rewrite <- (jtj_dot _ _ _ _ HL), N, (nl_jtr _ _ _ _ _ HL). reflexivity.
  Qed.
  Lemma min_quad : forall i : info, valid i -> err (i_x i) <= rad -> err (along o no (i_x i) (vscale vo (- (1)) (i_d i)) 1) <= step (err (i_x i)).
  Proof. intros i Hv Hx. exact (minimum_step no ro apJ apH HL F DF xs rad beta gamma rho HG (i_x i) (i_d i) Hx (min_dir i Hv Hx)). Qed.
  Lemma min_move : forall f (i : info) p, valid i -> err (i_x i) <= rad -> ls_move o no grF f cf i p -> err (px p) <= step (err (i_x i)).
  Proof. intros f i p Hv Hx Hm. unfold ls_move in Hm. rewrite Hu in Hm. unfold move_full in Hm. subst p. exact (min_quad i Hv Hx). Qed.
  (** the gradient of an iteration *)
  Lemma min_gradient : forall i : info, valid i -> err (i_x i) <= rad ->
    exists g, m_grad (measure i) = n_norm no g /\
      forall v, n_dot no g v = n_rdot no (apJ (DF (i_x i)) (i_d i)) (apJ (DF (i_x i)) v).
  Proof.
    intros i Hv Hx. exists (n_jtr no (DF (i_x i)) (F (i_x i))). split.
    - destruct Hv as [V1 [V2 _]]. cbv beta in V1, V2. cbn [m_grad ls_meas]. rewrite V1, V2. destruct Htag as [-> | ->]; reflexivity.
    - intros v. rewrite (min_dir i Hv Hx v), (nl_jtr _ _ _ _ _ HL). reflexivity.
  Qed.
  Section Judged.
    Variables M near far : R.
    Hypothesis HJ : judged_minimum (f_stop cf) q beta M near far.
    Hypothesis HM : f_stop cf = WhenAbsGradient -> forall x, err x <= rad -> forall v, n_rnorm no (apJ (DF x) v) <= M * n_norm no v.
    Lemma min_seen : forall e (i : info) m1 k, valid i -> err (i_x i) <= rad -> err (i_x i) <= e -> near * e < f_tol cf -> met o cf k m1 (measure i).
    Proof.
      intros e i m1 k Hv Hx He Ht. unfold met, judged_minimum in *. pose proof (Hep (i_x i)) as Px.
      pose proof (correction_near no ro apJ apH HL F DF xs rad beta gamma rho HG (i_x i) (i_d i) Hx (min_quad i Hv Hx)) as K.
      destruct (f_stop cf) eqn:Est; try contradiction; cbn [reading]; change (sltb o) with Rltb; apply Rltb_true.
      - destruct HJ as [-> _]. cbn [m_corr ls_meas]. unfold i_c. change (sopp o (s1 o)) with (- (1)). lra.
      - destruct HJ as [HM0 [-> _]]. destruct (min_gradient i Hv Hx) as [g [-> Hd]].
        pose proof (gradient_above no ro apJ apH HL DF (i_x i) (i_d i) g M HM0 (HM eq_refl _ Hx) Hd) as G.
        assert (P2 : 0 <= M ^ 2) by (apply pow_le; exact HM0).
        eapply Rle_lt_trans; [exact G|]. eapply Rle_lt_trans; [|exact Ht].
        assert (M ^ 2 * n_norm no (vscale vo (- (1)) (i_d i)) <= M ^ 2 * (2 * err (i_x i))) by (apply Rmult_le_compat_l; assumption).
        assert (M ^ 2 * err (i_x i) <= M ^ 2 * e) by (apply Rmult_le_compat_l; assumption). lra.
    Qed.
    Lemma min_close : forall (i : info) m1 k, valid i -> err (i_x i) <= rad -> met o cf k m1 (measure i) -> err (i_x i) <= far * f_tol cf.
    Proof.
      intros i m1 k Hv Hx Hm. unfold met, judged_minimum in *.
      pose proof (correction_far no ro apJ apH HL F DF xs rad beta gamma rho HG (i_x i) (i_d i) Hx (min_quad i Hv Hx)) as K.
      destruct (f_stop cf) eqn:Est; try contradiction; cbn [reading] in Hm; change (sltb o) with Rltb in Hm; apply Rltb_true in Hm.
      - destruct HJ as [_ ->]. cbn [m_corr ls_meas] in Hm. unfold i_c in Hm. change (sopp o (s1 o)) with (- (1)) in Hm.
        apply (Rmult_le_reg_l (1 - q)); [lra|]. replace ((1 - q) * (1 / (1 - q) * f_tol cf)) with (f_tol cf) by (field; lra). lra.
      - destruct HJ as [_ [_ ->]]. destruct (min_gradient i Hv Hx) as [g [Eg Hd]]. rewrite Eg in Hm.
        pose proof (gradient_below no ro apJ apH HL F DF xs rad beta gamma rho HG (i_x i) (i_d i) g Hx Hd) as G.
        assert (beta ^ 2 * n_norm no g <= beta ^ 2 * f_tol cf) by (apply Rmult_le_compat_l; [apply pow_le; apply (rm_beta _ _ _ _ _ _ _ _ _ _ HG)|lra]).
        apply (Rmult_le_reg_l (1 - q)); [lra|]. replace ((1 - q) * (beta ^ 2 / (1 - q) * f_tol cf)) with (beta ^ 2 * f_tol cf) by (field; lra). lra.
    Qed.
  End Judged.
  Lemma min_sup : ls_supported tag cf.
  Proof. unfold ls_supported. rewrite Hu. exact I. Qed.
  Lemma min_converges : exists ls, g_log s' = g_log s ++ ls /\ r = Ok tt /\ err (g_x s') <= rad /\
    approaches_minimum no eps cf sigma kappa xs (g_x s) ls (g_x s').
  Proof.
    pose proof (ls_solve_ok o no xt (graph rj) wr wj _ _ _ _ _ _ _ (computes_ok rj _ _ Hc) Hw Hlin (ten_ends _ _ (ten_R eps)) none_linesearch tag cf s w Ho min_sup) as K.
    pose proof (tri_exec _ _ _ _ _ _ _ _ _ _ _ _ _ _ K E) as [K1 [ls [K2 K3]]].
    exists ls. split; [exact K2|].
    pose proof (ends_shrink (fun x => err x) sigma kappa rad Hep HS0 HK0 Hsm cf _ _ _ (start o tag cf (g_x s) (g_damp s) (g_nu s)) (min_move _) Hx0 _ _ _ _ _ 
                 (no_stuck no F cf _ Hu) (no_trial cf Hu)
                 (ls_named _) Hmax _ _ _ _ K3) as [R1 [R2 [R3 [R4 R5]]]].
    split; [exact R1|]. split; [exact R2|]. split; [exact R3|]. split; [exact R4|].
    destruct R5 as [[i [m1 [k [a [l [_ [_ [_ R]]]]]]]]|R]; [left; exists a, l; exact R|right; exact R].
  Qed.
  Lemma min_finds : forall M near far n, judged_minimum (f_stop cf) q beta M near far ->
    (f_stop cf = WhenAbsGradient -> forall x, err x <= rad -> forall v, n_rnorm no (apJ (DF x) v) <= M * n_norm no v) ->
    near * shrunk sigma kappa (err (g_x s)) n < f_tol cf -> (Z.of_nat n < f_max cf)%Z ->
    exists a l, g_log s' = g_log s ++ a ++ [l] /\ l_state l = g_x s' /\ line_met o cf l /\ (length a <= n)%nat /\
      err (g_x s') <= far * f_tol cf.
  Proof.
    intros M near far n HJ HM Hn Hlt.
    pose proof (ls_solve_ok o no xt (graph rj) wr wj _ _ _ _ _ _ _ (computes_ok rj _ _ Hc) Hw Hlin (ten_ends _ _ (ten_R eps)) none_linesearch tag cf s w Ho min_sup) as K.
    pose proof (tri_exec _ _ _ _ _ _ _ _ _ _ _ _ _ _ K E) as [K1 [ls [K2 K3]]].
    pose proof (ends_shrink (fun x => err x) sigma kappa rad Hep HS0 HK0 Hsm cf _ _ _ (start o tag cf (g_x s) (g_damp s) (g_nu s)) (min_move _) Hx0 _ _ _ _ _ 
                 (no_stuck no F cf _ Hu) (no_trial cf Hu)
                 (ls_named _) Hmax _ _ _ _ K3) as [_ [R2 _]].
    pose proof (GaussProofs.ends_short (fun x => err x) sigma kappa rad Hep HS0 HK0 Hsm cf _ _ _ (start o tag cf (g_x s) (g_damp s) (g_nu s)) (min_move _) Hx0 _ _ _ _ _ 
                 (no_stuck no F cf _ Hu) (no_trial cf Hu)
                 (ls_named _) Hmax n
                 (fun i m1 k Hv Hx He => min_seen M near far HJ HM _ i m1 k Hv Hx He Hn)
                 Hlt _ _ _ _ K3) as [R1 [i [m1 [k [a [l [V1 [V2 [V3 [V4 [V5 V6]]]]]]]]]]].
    exists a, l. rewrite K2, V4. split; [reflexivity|]. split; [exact V5|]. split; [exact V6|].
    rewrite V4, app_length in R1. cbn in R1. split; [lia|]. change (err (px (pt s')) <= far * f_tol cf). rewrite <- V2.
    apply (min_close M near far HJ HM i m1 k V1); [rewrite V2; exact R2|exact V3].
  Qed.
End Claims.

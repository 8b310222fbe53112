(** C90: whole solves. *)
From Coq Require Import Reals ZArith List Lra Lia Bool.
From Verif Require Import Base RInst Laws LawInst ImplicitModel ImplicitSpec NonlinDiag NonlinModel NonlinWp NonlinDiagProofs
  NonlinSpec NonlinRuns NonlinProofs NonlinSolve NonlinLines NonlinClaims NonlinSeq NonlinFollow NonlinLaws NonlinExact NonlinReal
  NonlinTheory NonlinRest NewtonSpec NewtonProofs.
Import ListNotations.
Local Open Scope R_scope.

Section Claims.
  Context {eps : R} {V Rs J H L W : Type}.
  Notation o := (Rops eps).
  Variable no : nlops R V Rs J H.
  Variable ro : vops R Rs.
  Variable apJ : J -> V -> Rs.
  Variable apH : H -> V -> V.
  Hypothesis HL : nl_laws eps no ro apJ apH.
  Variable xt : exts V Rs J H L.
  Notation info := (info R V Rs J).
  Notation vo := (n_vo no).
  Variable rj : V -> Rs -> option J -> W -> outcome unit * (Rs * option J * W).
  Variable F : V -> Rs.
  Variable DF : V -> J.
  Hypothesis Hc : computes rj F DF.
  Hypothesis Hlin : linear_ok xt (if_solvable (normal_exact apH)) (if_solvable (qr_exact no apJ)) (if_solvable (newton_exact apJ)) nothing.
  Variable xs : V.
  Variables rad beta gamma : R.
  Hypothesis HG : regular_near no ro apJ F DF xs rad beta gamma.
  Notation kappa := (beta * (gamma / 2)).
  Notation err x := (apart no x xs).
  Notation grF := (fun y r => r = F y).
  Notation gjF := (fun (y : V) j => j = DF y).
  Notation px p := (fst (fst p)).

  Lemma no_stuck : forall (cf : config R) f, f_update cf = UStandard -> forall i : info, ~ line_search_stuck o no grF f cf i.
  Proof. intros cf f Hu i. unfold line_search_stuck. rewrite Hu. auto. Qed.
  Lemma no_trial : forall (cf : config R), f_update cf = UStandard -> forall e, ~ trial_failures cf nothing e.
  Proof. intros cf Hu e. unfold trial_failures. rewrite Hu. auto. Qed.

  (** what is common to the two: corrections that satisfy the normal equations *)
  Section Both.
    Variable cf : config R.
    Variable valid : info -> Prop.
    Variable measure : info -> meas R.
    Hypothesis Hval : forall i, valid i -> i_r i = F (i_x i).
    Hypothesis Hdir : forall i, valid i -> err (i_x i) <= rad ->
      forall v, n_rdot no (apJ (DF (i_x i)) (i_d i)) (apJ (DF (i_x i)) v) = n_rdot no (F (i_x i)) (apJ (DF (i_x i)) v).
    Hypothesis Hcorr : forall i, m_corr (measure i) = n_norm no (i_c o no i).
    Hypothesis Hres : forall i, m_res (measure i) = n_rnorm no (i_r i).
    Variables M near far : R.
    Hypothesis HJ : judged (f_stop cf) rad beta gamma M near far.
    Hypothesis HM : f_stop cf = WhenAbsResidual -> forall x, err x <= rad -> forall v, n_rnorm no (apJ (DF x) v) <= M * n_norm no v.
    Lemma moves : forall i q, valid i -> err (i_x i) <= rad -> move_full o no i q -> err (px q) <= kappa * (err (i_x i)) ^ 2.
    Proof.
      intros i q Hv Hx Hm. unfold move_full in Hm. subst q. cbn [fst].
      exact (error_step no ro apJ apH HL F DF xs rad beta gamma HG (i_x i) (i_d i) Hx (Hdir i Hv Hx)).
    Qed.
    Lemma quad_i : forall i, valid i -> err (i_x i) <= rad -> err (along o no (i_x i) (vscale vo (- (1)) (i_d i)) 1) <= kappa * (err (i_x i)) ^ 2.
    Proof. intros i Hv Hx. exact (error_step no ro apJ apH HL F DF xs rad beta gamma HG (i_x i) (i_d i) Hx (Hdir i Hv Hx)). Qed.
    Lemma seen : forall e i m1 k, valid i -> err (i_x i) <= rad -> err (i_x i) <= e -> near * e < f_tol cf -> met o cf k m1 (measure i).
    Proof.
      intros e i m1 k Hv Hx He Ht. unfold met, judged in *.
      pose proof (err_pos no ro apJ apH HL xs (i_x i)) as Px.
      destruct (f_stop cf) eqn:E; try contradiction; cbn [reading]; rewrite ?Hcorr, ?Hres;
        change (sltb o) with Rltb; apply Rltb_true.
      - destruct HJ as [-> _].
        pose proof (correction_below no ro apJ apH HL F DF xs rad beta gamma HG (i_x i) (i_d i) Hx (quad_i i Hv Hx)) as K.
        unfold i_c. change (sopp o (s1 o)) with (- (1)). lra.
      - destruct HJ as [HM0 [-> _]]. rewrite (Hval i Hv). pose proof (HM eq_refl (i_x i) Hx) as HMx.
        pose proof (residual_below no ro apJ apH HL F DF xs rad beta gamma HG (i_x i) M Hx HMx) as K.
        eapply Rle_lt_trans; [exact K|]. eapply Rle_lt_trans; [|exact Ht].
        apply Rmult_le_compat_l; [|assumption]. pose proof (rg_gamma _ _ _ _ _ _ _ _ _ HG).
        assert (0 <= gamma / 2 * rad) by (apply Rmult_le_pos; lra). lra.
    Qed.
    Lemma close : forall i m1 k, valid i -> err (i_x i) <= rad -> met o cf k m1 (measure i) -> err (i_x i) <= far * f_tol cf.
    Proof.
      intros i m1 k Hv Hx Hm. unfold met, judged in *.
      destruct (f_stop cf) eqn:E; try contradiction; cbn [reading] in Hm; rewrite ?Hcorr, ?Hres in Hm;
        change (sltb o) with Rltb in Hm; apply Rltb_true in Hm.
      - destruct HJ as [_ ->]. apply Rlt_le.
        exact (far_correction no ro apJ apH HL F DF xs rad beta gamma HG (i_x i) (i_d i) _ Hx (quad_i i Hv Hx) Hm).
      - destruct HJ as [_ [_ ->]]. rewrite (Hval i Hv) in Hm.
        exact (far_residual no ro apJ apH HL F DF xs rad beta gamma HG (i_x i) _ Hx Hm).
    Qed.
  End Both.

  Section Newton.
    Hypothesis Honto : forall x, err x <= rad -> forall r, exists d, apJ (DF x) d = r.
    Variable cf : config R.
    Variable s : reg R V Rs J H L.
    Variable w : W.
    Variable r : outcome unit.
    Variable s' : reg R V Rs J H L.
    Variable w' : W.
    Hypothesis Ho : root_object o s.
    Hypothesis Hsup : root_supported cf.
    Hypothesis Hu : f_update cf = UStandard.
    Hypothesis Hmax : (0 <= f_max cf < int32_max)%Z.
    Hypothesis Hx0 : err (g_x s) <= rad.
    Hypothesis E : exec rj (root_solve o no xt cf) (s, w) = (r, (s', w')).
    Notation valid := (root_valid grF gjF (if_solvable (newton_exact apJ))).
    Lemma newton_dir : forall i : info, valid i -> err (i_x i) <= rad ->
      forall v, n_rdot no (apJ (DF (i_x i)) (i_d i)) (apJ (DF (i_x i)) v) = n_rdot no (F (i_x i)) (apJ (DF (i_x i)) v).
    Proof.
      intros i [V1 [V2 V3]] Hx v. cbv beta in V1, V2. rewrite V1, V2 in V3.
      apply (solved_newton _ _ _ _ HL) in V3; [|exact (rank_near no ro apJ apH HL F DF xs rad beta gamma HG _ Hx)|exact (Honto _ Hx _)].
      rewrite V3. reflexivity.
    Qed.
    Let HK0 := kappa_pos no ro apJ F DF xs rad beta gamma HG.
    Let Hsm := rg_small _ _ _ _ _ _ _ _ _ HG.
    Let Hep := err_pos no ro apJ apH HL xs.
    Lemma newton_move : forall f (i : info) q, valid i -> err (i_x i) <= rad -> ls_move o no grF f cf i q -> err (px q) <= kappa * (err (i_x i)) ^ 2.
    Proof. intros f i q Hv Hx Hm. unfold ls_move in Hm. rewrite Hu in Hm. exact (moves valid newton_dir i q Hv Hx Hm). Qed.
    Lemma newton_quadratic : exists ls, g_log s' = g_log s ++ ls /\ r = Ok tt /\ err (g_x s') <= rad /\
      approaches no eps cf kappa xs (g_x s) ls (g_x s').
    Proof.
      pose proof (root_solve_ok o no xt (graph rj) _ _ _ _ _ _ _ (computes_ok rj _ _ Hc) Hlin (ten_ends _ _ (ten_R eps)) none_linesearch cf s w Ho Hsup) as K.
      pose proof (tri_exec _ _ _ _ _ _ _ _ _ _ _ _ _ _ K E) as [K1 [ls [K2 K3]]].
      exists ls. split; [exact K2|].
      pose proof (ends_quadratic (fun x => err x) kappa rad Hep HK0 Hsm cf _ _ _ (g_x s, g_damp s, g_nu s) (newton_move _) Hx0 _ _ _ _ _ 
                   (no_stuck cf _ Hu) (no_trial cf Hu)
                   (root_named _ Hsup) Hmax _ _ _ _ K3) as [R1 [R2 [R3 [R4 R5]]]].
      split; [exact R1|]. split; [exact R2|]. split; [exact R3|]. split; [exact R4|].
      destruct R5 as [[i [m1 [k [a [l [_ [_ [_ R]]]]]]]]|R]; [left; exists a, l; exact R|right; exact R].
    Qed.
    Lemma newton_finds : forall M near far n, judged (f_stop cf) rad beta gamma M near far ->
      (f_stop cf = WhenAbsResidual -> forall x, err x <= rad -> forall v, n_rnorm no (apJ (DF x) v) <= M * n_norm no v) ->
      near * quadratic kappa (err (g_x s)) n < f_tol cf -> (Z.of_nat n < f_max cf)%Z ->
      exists a l, g_log s' = g_log s ++ a ++ [l] /\ l_state l = g_x s' /\ line_met o cf l /\ (length a <= n)%nat /\
        err (g_x s') <= far * f_tol cf.
    Proof.
      intros M near far n HJ HM Hn Hlt.
      pose proof (root_solve_ok o no xt (graph rj) _ _ _ _ _ _ _ (computes_ok rj _ _ Hc) Hlin (ten_ends _ _ (ten_R eps)) none_linesearch cf s w Ho Hsup) as K.
      pose proof (tri_exec _ _ _ _ _ _ _ _ _ _ _ _ _ _ K E) as [K1 [ls [K2 K3]]].
      assert (Hval : forall i : info, valid i -> i_r i = F (i_x i)) by (intros i [V1 _]; exact V1).
      pose proof (ends_quadratic (fun x => err x) kappa rad Hep HK0 Hsm cf _ _ _ (g_x s, g_damp s, g_nu s) (newton_move _) Hx0 _ _ _ _ _ 
                   (no_stuck cf _ Hu) (no_trial cf Hu)
                   (root_named _ Hsup) Hmax _ _ _ _ K3) as [_ [R2 _]].
      pose proof (ends_short (fun x => err x) kappa rad Hep HK0 Hsm cf _ _ _ (g_x s, g_damp s, g_nu s) (newton_move _) Hx0 _ _ _ _ _ 
                   (no_stuck cf _ Hu) (no_trial cf Hu)
                   (root_named _ Hsup) Hmax n
                   (fun i m1 k Hv Hx He => seen cf valid (root_meas o no) Hval newton_dir (fun _ => eq_refl) (fun _ => eq_refl) M near far HJ HM _ i m1 k Hv Hx He Hn)
                   Hlt _ _ _ _ K3) as [R1 [i [m1 [k [a [l [V1 [V2 [V3 [V4 [V5 V6]]]]]]]]]]].
      exists a, l. rewrite K2, V4. split; [reflexivity|]. split; [exact V5|]. split; [exact V6|].
      rewrite V4, app_length in R1. cbn in R1. split; [lia|]. change (err (px (pt s')) <= far * f_tol cf). rewrite <- V2.
      apply (close cf valid (root_meas o no) Hval newton_dir (fun _ => eq_refl) (fun _ => eq_refl) M near far HJ HM i m1 k V1); [rewrite V2; exact R2|exact V3].
    Qed.
  End Newton.

  Section GaussNewton.
    Variable wr : Rs -> Rs.
    Variable wj : J -> J.
    Hypothesis Hw : weights_ok xt wr wj nothing.
    Variable tag : lstag.
    Hypothesis Hsolv : forall x, err x <= rad -> forall r, exists d, match tag with GaussNewtonQr => qr_exact no apJ (DF x) r d
                         | _ => normal_exact apH (n_jtj no (DF x) (DF x)) (n_jtr no (DF x) r) d end.
    Variable cf : config R.
    Variable s : reg R V Rs J H L.
    Variable w : W.
    Variable r : outcome unit.
    Variable s' : reg R V Rs J H L.
    Variable w' : W.
    Hypothesis Ho : ls_object o s.
    Hypothesis Htag : tag = GaussNewton \/ tag = GaussNewtonQr.
    Hypothesis Hu : f_update cf = UStandard.
    Hypothesis Hmax : (0 <= f_max cf < int32_max)%Z.
    Hypothesis Hx0 : err (g_x s) <= rad.
    Hypothesis E : exec rj (ls_solve o no xt tag cf) (s, w) = (r, (s', w')).
    Notation valid := (ls_valid no wr wj grF gjF (if_solvable (normal_exact apH)) (if_solvable (qr_exact no apJ)) tag).
    Lemma gn_dir : forall i : info, valid i -> err (i_x i) <= rad ->
      forall v, n_rdot no (apJ (DF (i_x i)) (i_d i)) (apJ (DF (i_x i)) v) = n_rdot no (F (i_x i)) (apJ (DF (i_x i)) v).
    Proof.
      intros i [V1 [V2 V3]] Hx v. cbv beta in V1, V2. rewrite V1, V2 in V3.
      pose proof (rank_near no ro apJ apH HL F DF xs rad beta gamma HG _ Hx) as Hr.
      assert (N : apH (n_jtj no (DF (i_x i)) (DF (i_x i))) (i_d i) = n_jtr no (DF (i_x i)) (F (i_x i))).
      { pose proof (Hsolv _ Hx (F (i_x i))) as Hs. destruct Htag as [-> | ->].
        - exact (solved_normal _ _ _ _ HL _ _ _ Hr Hs V3).
        - apply (qr_normal _ _ _ _ HL). exact (solved_qr _ _ _ _ HL _ _ _ Hr Hs V3). }
      rewrite <- (jtj_dot _ _ _ _ HL), N, (nl_jtr _ _ _ _ _ HL). reflexivity.
    Qed.
    Let HK0 := kappa_pos no ro apJ F DF xs rad beta gamma HG.
    Let Hsm := rg_small _ _ _ _ _ _ _ _ _ HG.
    Let Hep := err_pos no ro apJ apH HL xs.
    Lemma gn_sup : ls_supported tag cf.
    Proof. unfold ls_supported. rewrite Hu. exact I. Qed.
    Lemma gn_move : forall f (i : info) q, valid i -> err (i_x i) <= rad -> ls_move o no grF f cf i q -> err (px q) <= kappa * (err (i_x i)) ^ 2.
    Proof. intros f i q Hv Hx Hm. unfold ls_move in Hm. rewrite Hu in Hm. exact (moves valid gn_dir i q Hv Hx Hm). Qed.
    Lemma gn_quadratic : exists ls, g_log s' = g_log s ++ ls /\ r = Ok tt /\ err (g_x s') <= rad /\
      approaches no eps cf kappa xs (g_x s) ls (g_x s').
    Proof.
      pose proof (ls_solve_ok o no xt (graph rj) wr wj _ _ _ _ _ _ _ (computes_ok rj _ _ Hc) Hw Hlin (ten_ends _ _ (ten_R eps)) none_linesearch tag cf s w Ho gn_sup) as K.
      pose proof (tri_exec _ _ _ _ _ _ _ _ _ _ _ _ _ _ K E) as [K1 [ls [K2 K3]]].
      exists ls. split; [exact K2|].
      pose proof (ends_quadratic (fun x => err x) kappa rad Hep HK0 Hsm cf _ _ _ (start o tag cf (g_x s) (g_damp s) (g_nu s)) (gn_move _) Hx0 _ _ _ _ _ 
                   (no_stuck cf _ Hu) (no_trial cf Hu)
                   (ls_named _) Hmax _ _ _ _ K3) as [R1 [R2 [R3 [R4 R5]]]].
      split; [exact R1|]. split; [exact R2|]. split; [exact R3|]. split; [exact R4|].
      destruct R5 as [[i [m1 [k [a [l [_ [_ [_ R]]]]]]]]|R]; [left; exists a, l; exact R|right; exact R].
    Qed.
    Lemma gn_finds : forall M near far n, judged (f_stop cf) rad beta gamma M near far ->
      (f_stop cf = WhenAbsResidual -> forall x, err x <= rad -> forall v, n_rnorm no (apJ (DF x) v) <= M * n_norm no v) ->
      near * quadratic kappa (err (g_x s)) n < f_tol cf -> (Z.of_nat n < f_max cf)%Z ->
      exists a l, g_log s' = g_log s ++ a ++ [l] /\ l_state l = g_x s' /\ line_met o cf l /\ (length a <= n)%nat /\
        err (g_x s') <= far * f_tol cf.
    Proof.
      intros M near far n HJ HM Hn Hlt.
      pose proof (ls_solve_ok o no xt (graph rj) wr wj _ _ _ _ _ _ _ (computes_ok rj _ _ Hc) Hw Hlin (ten_ends _ _ (ten_R eps)) none_linesearch tag cf s w Ho gn_sup) as K.
      pose proof (tri_exec _ _ _ _ _ _ _ _ _ _ _ _ _ _ K E) as [K1 [ls [K2 K3]]].
      assert (Hval : forall i : info, valid i -> i_r i = F (i_x i)) by (intros i [V1 _]; exact V1).
      pose proof (ends_quadratic (fun x => err x) kappa rad Hep HK0 Hsm cf _ _ _ (start o tag cf (g_x s) (g_damp s) (g_nu s)) (gn_move _) Hx0 _ _ _ _ _ 
                   (no_stuck cf _ Hu) (no_trial cf Hu)
                   (ls_named _) Hmax _ _ _ _ K3) as [_ [R2 _]].
      pose proof (ends_short (fun x => err x) kappa rad Hep HK0 Hsm cf _ _ _ (start o tag cf (g_x s) (g_damp s) (g_nu s)) (gn_move _) Hx0 _ _ _ _ _ 
                   (no_stuck cf _ Hu) (no_trial cf Hu)
                   (ls_named _) Hmax n
                   (fun i m1 k Hv Hx He => seen cf valid (ls_meas o no wr wj tag) Hval gn_dir (fun _ => eq_refl) (fun _ => eq_refl) M near far HJ HM _ i m1 k Hv Hx He Hn)
                   Hlt _ _ _ _ K3) as [R1 [i [m1 [k [a [l [V1 [V2 [V3 [V4 [V5 V6]]]]]]]]]]].
      exists a, l. rewrite K2, V4. split; [reflexivity|]. split; [exact V5|]. split; [exact V6|].
      rewrite V4, app_length in R1. cbn in R1. split; [lia|]. change (err (px (pt s')) <= far * f_tol cf). rewrite <- V2.
      apply (close cf valid (ls_meas o no wr wj tag) Hval gn_dir (fun _ => eq_refl) (fun _ => eq_refl) M near far HJ HM i m1 k V1); [rewrite V2; exact R2|exact V3].
    Qed.
  End GaussNewton.
End Claims.

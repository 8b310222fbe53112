(** C92: whole solves. *)
From Coq Require Import Reals ZArith List Lra Lia Bool.
From Verif Require Import Base RInst Laws LawInst ImplicitModel ImplicitSpec NonlinDiag NonlinModel NonlinWp NonlinDiagProofs
  NonlinSpec NonlinRuns NonlinProofs NonlinSolve NonlinLines NonlinClaims NonlinSeq NonlinFollow NonlinLaws NonlinExact NonlinReal
  NonlinTheory NonlinRest NewtonSpec NewtonProofs LmSpec LmProofs.
Import ListNotations.
Local Open Scope R_scope.

Section Claims.
  Context {eps : R} {V Rs J H L W : Type}.
  Notation o := (Rops eps).
  Variable no : nlops R V Rs J H.
  Variable ro : vops R Rs.
  Variable apJ : J -> V -> Rs.
  Variable apH : H -> V -> V.
  Hypothesis HL : nl_laws eps no ro apJ apH.
  Variable xt : exts V Rs J H L.
  Notation info := (info R V Rs J).
  Notation vo := (n_vo no).
  Notation dot := (n_dot no).
  Notation rdot := (n_rdot no).
  Variable rj : V -> Rs -> option J -> W -> outcome unit * (Rs * option J * W).
  Variable A : J.
  Variable b : Rs.
  Notation F := (affine ro apJ A b).
  Hypothesis Hc : computes rj F (fun _ => A).
  Variable wr : Rs -> Rs.
  Variable wj : J -> J.
  Hypothesis Hw : weights_ok xt wr wj nothing.
  Hypothesis Hlin : linear_ok xt (if_solvable (normal_exact apH)) (if_solvable (qr_exact no apJ)) (if_solvable (newton_exact apJ)) nothing.
  Variable xs : V.
  Variable lam : R.
  Hypothesis HP : lm_problem no ro apJ apH A b xs lam.
  Notation err x := (scaled no A (from no xs x)).
  Notation grF := (fun y r => r = F y).
  Notation gjF := (fun (y : V) (j : J) => j = A).
  Let HV := nl_v _ _ _ _ _ HL.
  Let HR := nl_r _ _ _ _ _ HL.
  Let Hl := lp_lam _ _ _ _ _ _ _ _ HP.
  Variable cf : config R.
  Variable s : reg R V Rs J H L.
  Variable w : W.
  Variable r : outcome unit.
  Variable s' : reg R V Rs J H L.
  Variable w' : W.
  Hypothesis Ho : ls_object o s.
  Hypothesis Hu : f_update cf = ULMSchedule1 \/ f_update cf = ULMSchedule2.
  Hypothesis Hmax : (0 <= f_max cf < int32_max)%Z.
  Hypothesis E : exec rj (ls_solve o no xt LevMar cf) (s, w) = (r, (s', w')).
  Notation valid := (ls_valid no wr wj grF gjF (if_solvable (normal_exact apH)) (if_solvable (qr_exact no apJ)) LevMar).
  Notation obj := (ls_objective o no wr LevMar).
  Notation u := (f_update cf).

  Definition kept_range (mu nu : R) : Prop := match u with ULMSchedule1 => 0 < mu /\ 0 < nu | _ => in_range mu end.
  Definition kept_point (k : nat) (p : V * R * R) : Prop :=
    let '(x, mu, nu) := p in
    err x <= left_after u lam k * err (g_x s) /\ kept_range mu nu /\ (x = xs \/ mu = damping_at u k).
  Definition better (x x' : V) : Prop := half_square no (F x') < half_square no (F x) \/ (x = xs /\ x' = xs).

  Lemma range_pos : forall mu nu, kept_range mu nu -> 0 < mu.
  Proof. unfold kept_range, in_range. destruct Hu as [-> | ->]; intros mu nu K; lra. Qed.
  Lemma err_xs : err xs = 0.
  Proof.
    unfold scaled. replace (from no xs xs) with (vzero vo); [rewrite (dot_0_l _ _ HV); apply sqrt_0|].
    apply (dot_ext vo dot HV). intros v. unfold from. rewrite (in_add _ _ HV), (in_scale _ _ HV), (dot_0_l _ _ HV). ring.
  Qed.
  Lemma err_pos' : forall x, 0 <= err x.
  Proof. intros x. apply R_sqrt.sqrt_pos. Qed.
  Lemma next1 : forall mu nu rho, 1 <= rho -> schedule1 o mu nu rho = (mu * (1 / 3), 2).
  Proof.
    intros mu nu rho Hr. unfold schedule1. rewrite !sZ_R. change (sltb o) with Rltb. change (s0 o) with 0. change (smul o) with Rmult.
    change (ssub o) with Rminus. change (sdiv o) with Rdiv. change (s1 o) with 1.
    assert (T : Rltb 0 rho = true) by (apply Rltb_true; lra). rewrite T. f_equal. f_equal.
    unfold larger. change (sltb o) with Rltb. cbv zeta. set (q := 2 * rho - 1). assert (1 <= q) by (unfold q; lra).
    assert (1 <= q * q) by nra. assert (1 <= q * q * q) by nra.
    destruct (Rltb (1 / 3) (1 - (2 - 1) * (q * q * q))) eqn:X; [|reflexivity]. apply Rltb_true in X. lra.
  Qed.
  Lemma next2 : forall mu rho, 1 <= rho -> schedule2 o mu rho = Rmax (1 / 10000000) (mu * (1 / 3)).
  Proof.
    intros mu rho Hr. unfold schedule2. rewrite !sZ_R. change (sltb o) with Rltb. change (smul o) with Rmult. change (sdiv o) with Rdiv. change (s1 o) with 1.
    assert (T : Rltb rho (1 / 5) = false) by (apply Rltb_false; lra). assert (T2 : Rltb (4 / 5) rho = true) by (apply Rltb_true; lra).
    cbv zeta. rewrite T, T2. unfold larger. change (sltb o) with Rltb.
    destruct (Rltb (1 / 10000000) (mu * (1 / 3))) eqn:X.
    - apply Rltb_true in X. rewrite Rmax_right; lra.
    - apply Rltb_false in X. rewrite Rmax_left; lra.
  Qed.
  Lemma next_damping2 : forall k, u = ULMSchedule2 -> Rmax (1 / 10000000) (damping_at u k * (1 / 3)) = damping_at u (S k).
  Proof.
    intros k ->. cbn [damping_at pow]. set (t := (1 / 3) ^ k). unfold Rmax. repeat destruct (Rle_dec _ _); lra.
  Qed.
  Lemma direction : forall i : info, valid i -> kept_range (i_mu i) (i_nu i) ->
    i_r i = F (i_x i) /\ i_j i = A /\ apH (n_adddiag no (n_jtj no A A) (i_mu i)) (i_d i) = n_jtr no A (F (i_x i)).
  Proof.
    intros i [V1 [V2 V3]] Hk. cbv beta in V1, V2. cbn [ls_matrix ls_gradient] in V3. rewrite V1, V2 in V3.
    split; [exact V1|]. split; [exact V2|]. exact (solved_damped no ro apJ apH HL A b xs lam HP _ _ _ (range_pos _ _ Hk) V3).
  Qed.
  Lemma lm_keeps : forall k (i : info) q, valid i -> kept_point k (i_x i, i_mu i, i_nu i) -> ls_move o no grF obj cf i q ->
    kept_point (S k) q /\ better (i_x i) (fst (fst q)).
  Proof.
    intros k i q Hv [K1 [K2 K3]] Hm. destruct (direction i Hv K2) as [D1 [D2 D3]]. pose proof (range_pos _ _ K2) as Pm.
    set (xn := along o no (i_x i) (vscale vo (- (1)) (i_d i)) 1).
    assert (M : exists rho, fst (fst q) = lm_state o no i rho /\ rho = gain o no obj i (F xn) /\
       match u with ULMSchedule1 => (snd (fst q), snd q) = schedule1 o (i_mu i) (i_nu i) rho
                  | _ => snd (fst q) = schedule2 o (i_mu i) rho end).
    { unfold ls_move in Hm. destruct Hu as [U|U]; rewrite U in *; destruct Hm as [rr [M1 M2]]; cbv beta in M1; change (s1 o) with 1 in M1;
        unfold i_c in M1; change (sopp o 1) with (- (1)) in M1; fold xn in M1; subst rr; exists (gain o no obj i (F xn)).
      - match goal with G : (let (_, _) := ?t in _) |- _ => destruct t as [mu nu] eqn:S1 end. subst q. cbn [fst snd]. split; [reflexivity|]. split; [reflexivity|symmetry; exact S1].
      - subst q. repeat split. }
    destruct M as [rho [M1 [M2 M3]]].
    assert (Kr : kept_range (snd (fst q)) (snd q)).
    { unfold kept_range in *. destruct Hu as [U|U]; rewrite U in *.
      - pose proof (schedule1_pos eps (i_mu i) (i_nu i) rho (proj1 K2) (proj2 K2)) as S1. rewrite <- M3 in S1. exact S1.
      - rewrite M3. apply schedule2_range. exact K2. }
    pose proof (lm_gain no ro apJ apH HL A b xs lam HP wr (i_mu i) (i_x i) (i_d i) Pm D3) as G. fold xn in G.
    assert (Kx : fst (fst q) = xs /\ i_x i = xs \/ (fst (fst q) = xn /\ 1 <= rho /\ half_square no (F xn) < half_square no (F (i_x i)))).
    { destruct G as [[G1 G2]|[G1 G2]].
      - left. split; [|exact G1]. rewrite M1. unfold lm_state. destruct (sltb o (s0 o) rho); [|exact G1].
        unfold i_c. change (sopp o (s1 o)) with (- (1)). change (s1 o) with 1. fold xn. exact G2.
      - right. specialize (G2 i eq_refl eq_refl eq_refl D1 D2). rewrite <- M2 in G2. split; [|split; assumption].
        rewrite M1. unfold lm_state. change (sltb o) with Rltb. change (s0 o) with 0. assert (T : Rltb 0 rho = true) by (apply Rltb_true; lra). rewrite T.
        unfold i_c. change (sopp o (s1 o)) with (- (1)). change (s1 o) with 1. reflexivity. }
    assert (Le : 0 <= left_after u lam (S k) * err (g_x s)) by (apply Rmult_le_pos; [apply left_pos, Hl|apply err_pos']).
    destruct Kx as [[X1 X2]|[X1 [X2 X3]]].
    - split; [|right; split; assumption]. destruct q as [[x mu] nu]. cbn [fst snd] in *. rewrite X1. unfold kept_point. rewrite err_xs. auto.
    - split; [|left; rewrite X1; exact X3].
      assert (C : err xn <= i_mu i / (lam + i_mu i) * err (i_x i)) by exact (lm_contracts no ro apJ apH HL A b xs lam HP _ _ _ Pm D3).
      destruct q as [[x mu] nu]. cbn [fst snd] in *. rewrite X1. unfold kept_point. split; [|split; [exact Kr|]].
      + destruct K3 as [K3|K3].
        * rewrite K3, err_xs, Rmult_0_r in C. lra.
        * rewrite K3 in C. eapply Rle_trans; [exact C|]. cbn [left_after]. rewrite (Rmult_comm (left_after u lam k)), Rmult_assoc.
          apply Rmult_le_compat_l; [|exact K1]. apply left_factor, Hl.
      + destruct K3 as [K3|K3].
        * left. assert (Z : err xn <= 0) by (rewrite K3, err_xs, Rmult_0_r in C; exact C).
          apply (veq_sub vo dot HV). apply (lp_columns _ _ _ _ _ _ _ _ HP). apply Rle_antisym; [exact Z|exact (err_pos' xn)].
        * right. rewrite K3 in *. destruct Hu as [U|U]; rewrite U in M3.
          -- rewrite (next1 _ _ _ X2) in M3. injection M3 as -> _. rewrite U. cbn [damping_at pow]. ring.
          -- rewrite (next2 _ _ X2) in M3. rewrite M3. pose proof (next_damping2 k U) as N2. rewrite U in N2 |- *. exact N2.
  Qed.
  Lemma start_kept : kept_point 0 (start o LevMar cf (g_x s) (g_damp s) (g_nu s)).
  Proof.
    unfold start, kept_point, kept_range, in_range. cbn [left_after]. rewrite Rmult_1_l.
    destruct Hu as [-> | ->]; rewrite !sZ_R; cbn [damping_at pow]; (split; [apply Rle_refl|]; split; [lra|]; right).
    - reflexivity.
    - rewrite Rmax_right; lra.
  Qed.
  Lemma lm_sup : ls_supported LevMar cf.
  Proof. unfold ls_supported. destruct Hu as [-> | ->]; reflexivity. Qed.
  Lemma lm_no_stuck : forall f (i : info), ~ line_search_stuck o no grF f cf i.
  Proof. intros f i. unfold line_search_stuck. destruct Hu as [-> | ->]; auto. Qed.
  Lemma lm_no_trial : forall e, ~ trial_failures cf nothing e.
  Proof. intros e. unfold trial_failures. destruct Hu as [-> | ->]; auto. Qed.

  Lemma lm_converges : exists ls, g_log s' = g_log s ++ ls /\ r = Ok tt /\ dies_out no ro apJ eps cf A b xs lam (g_x s) ls (g_x s').
  Proof.
    pose proof (ls_solve_ok o no xt (graph rj) wr wj _ _ _ _ _ _ _ (computes_ok rj _ _ Hc) Hw Hlin (ten_ends _ _ (ten_R eps)) none_linesearch LevMar cf s w Ho lm_sup) as K.
    pose proof (tri_exec _ _ _ _ _ _ _ _ _ _ _ _ _ _ K E) as [K1 [ls [K2 K3]]].
    exists ls. split; [exact K2|].
    pose proof (ends_points kept_point better cf _ _ _ (start o LevMar cf (g_x s) (g_damp s) (g_nu s)) lm_keeps start_kept _ _ _ _ _
                 (lm_no_stuck _) lm_no_trial (ls_named _) Hmax _ _ _ _ K3) as [R1 [R2 [R3 R4]]].
    split; [exact R1|]. split; [|split; [exact R3|]].
    - intros k l Hn. destruct (R2 k l Hn) as [mu [nu [Q _]]]. exact Q.
    - destruct R4 as [[i [m1 [k [a [l [_ [_ [R5 [_ [R6 [R7 R8]]]]]]]]]]]|[R5 R6]]; [left; exists a, l; auto|right; split; [exact R5|]].
      exact (proj1 R6).
  Qed.

  Section Finds.
    Variables lo hi M near far : R.
    Hypothesis HS : lm_sized no apJ A lo hi M.
    Hypothesis HJ : lm_judged (f_stop cf) lam lo hi M near far.
    Notation measure := (ls_meas o no wr wj LevMar).
    Lemma len_sq : forall v, (n_norm no v) ^ 2 = dot v v.
    Proof. intros v. rewrite (nl_norm _ _ _ _ _ HL). cbn [pow]. rewrite Rmult_1_r. apply sqrt_sqrt, (in_pos _ _ HV). Qed.
    Lemma norm_pos' : forall v, 0 <= n_norm no v.
    Proof. intros v. rewrite (nl_norm _ _ _ _ _ HL). apply R_sqrt.sqrt_pos. Qed.
    Lemma rnorm_pos' : forall v, 0 <= n_rnorm no v.
    Proof. intros v. rewrite (nl_rnorm _ _ _ _ _ HL). apply R_sqrt.sqrt_pos. Qed.
    (** |c| against the errors before and after *)
    Lemma correction_triangle : forall x d, let e := from no xs x in let e' := from no xs (along o no x (vscale vo (- (1)) d) 1) in
      scaled no A (vscale vo (- (1)) d) <= scaled no A e' + scaled no A e /\ scaled no A e <= scaled no A e' + scaled no A (vscale vo (- (1)) d).
    Proof.
      intros x d e e'. pose proof (scaled_inner no ro apJ apH HL A b xs lam HP) as DI.
      assert (E1 : vscale vo (- (1)) d = vadd vo e' (vscale vo (- (1)) e)).
      { unfold e'. rewrite (moved_from no ro apJ apH HL). fold e. apply (dot_ext vo dot HV). intros v. rewrite !(in_add _ _ HV), !(in_scale _ _ HV). ring. }
      assert (E2 : e = vadd vo e' (vscale vo (- (1)) (vscale vo (- (1)) d))).
      { unfold e'. rewrite (moved_from no ro apJ apH HL). fold e. apply (dot_ext vo dot HV). intros v. rewrite !(in_add _ _ HV), !(in_scale _ _ HV). ring. }
      unfold scaled. split.
      - rewrite E1 at 1 2. eapply Rle_trans; [apply (triangle vo _ DI)|]. rewrite (len_opp vo _ DI). lra.
      - rewrite E2 at 1 2. eapply Rle_trans; [apply (triangle vo _ DI)|]. rewrite (len_opp vo _ DI). lra.
    Qed.
    Lemma gradient_below : forall x, n_norm no (n_jtr no A (F x)) <= M ^ 2 / lo * err x.
    Proof.
      intros x. destruct HS as [L1 [L2 [L3 L4]]]. set (g := n_jtr no A (F x)). set (e := from no xs x).
      assert (G : dot g g = rdot (apJ A e) (apJ A g)) by apply (gradient_at no ro apJ apH HL A b xs lam HP).
      pose proof (cauchy_dot ro rdot HR (apJ A e) (apJ A g)) as C. rewrite <- !(nl_rnorm _ _ _ _ _ HL) in C.
      destruct (L4 e) as [E1 [_ E3]]. destruct (L4 g) as [_ [_ G3]]. rewrite <- len_sq in G.
      pose proof (norm_pos' g) as Pg. pose proof (norm_pos' e) as Pe. pose proof (rnorm_pos' (apJ A e)) as Pa. pose proof (rnorm_pos' (apJ A g)) as Pb.
      assert (Q : (n_norm no g) ^ 2 <= M * n_norm no e * (M * n_norm no g)).
      { rewrite G. eapply Rle_trans; [exact C|]. apply Rmult_le_compat; assumption. }
      assert (T : n_norm no e <= scaled no A e / lo).
      { apply Rmult_le_reg_l with lo; [exact L1|]. replace (lo * (scaled no A e / lo)) with (scaled no A e) by (field; lra). exact E1. }
      assert (B : n_norm no g <= M ^ 2 * n_norm no e).
      { destruct (Req_dec (n_norm no g) 0) as [->|Hn]; [apply Rmult_le_pos; [apply pow2_ge_0|exact Pe]|].
        apply Rmult_le_reg_r with (n_norm no g); [lra|]. cbn [pow] in *. lra. }
      eapply Rle_trans; [exact B|]. replace (M ^ 2 / lo * scaled no A e) with (M ^ 2 * (scaled no A e / lo)) by (field; lra).
      apply Rmult_le_compat_l; [apply pow2_ge_0|exact T].
    Qed.
    Lemma gradient_above : forall x tol, n_norm no (n_jtr no A (F x)) < tol -> err x <= 1 / (lam * lo) * tol.
    Proof.
      intros x tol Ht. destruct HS as [L1 [L2 [L3 L4]]]. set (g := n_jtr no A (F x)) in *. set (e := from no xs x).
      assert (G : dot g e = rdot (apJ A e) (apJ A e)) by apply (gradient_at no ro apJ apH HL A b xs lam HP).
      pose proof (rank_sq no ro apJ apH HL A b xs lam HP e) as Rk. rewrite <- G in Rk.
      pose proof (cauchy_dot vo dot HV g e) as C. rewrite <- !(nl_norm _ _ _ _ _ HL) in C. destruct (L4 e) as [E1 _].
      pose proof (norm_pos' g) as Pg. pose proof (norm_pos' e) as Pe. pose proof (R_sqrt.sqrt_pos (dot e (n_diagmul no (n_jtj no A A) e))) as Ps. fold (scaled no A e) in Ps.
      set (p := scaled no A e) in *.
      assert (Q : lam * lo * p ^ 2 <= tol * p).
      { assert (lo * (lam * p ^ 2) <= lo * (n_norm no g * n_norm no e)) by (apply Rmult_le_compat_l; lra).
        assert (n_norm no g * (lo * n_norm no e) <= tol * p) by (apply Rmult_le_compat; [exact Pg|apply Rmult_le_pos; lra|lra|exact E1]). lra. }
      assert (Hll : 0 < lam * lo) by (apply Rmult_lt_0_compat; lra).
      apply Rmult_le_reg_l with (lam * lo); [exact Hll|]. replace (lam * lo * (1 / (lam * lo) * tol)) with tol by (field; lra).
      destruct (Req_dec p 0) as [->|Hp]; [lra|]. apply Rmult_le_reg_r with p; [lra|]. cbn [pow] in Q. lra.
    Qed.
    Lemma lm_seen : forall n, near * (left_after u lam n * err (g_x s)) < f_tol cf ->
      forall i m1 k, valid i -> kept_point n (i_x i, i_mu i, i_nu i) -> met o cf k m1 (measure i).
    Proof.
      intros n Hn i m1 k Hv [K1 [K2 K3]]. destruct (direction i Hv K2) as [D1 [D2 D3]]. pose proof (range_pos _ _ K2) as Pm.
      unfold met, lm_judged in *. destruct HS as [L1 [L2 [L3 L4]]]. pose proof (err_pos' (i_x i)) as Pe.
      destruct (f_stop cf) eqn:Es; try contradiction; cbn [reading ls_meas m_corr m_grad ls_gradient]; change (sltb o) with Rltb; apply Rltb_true.
      - destruct HJ as [HN _]. unfold i_c. change (sopp o (s1 o)) with (- (1)).
        destruct (correction_triangle (i_x i) (i_d i)) as [T _]. cbv zeta in T.
        pose proof (lm_contracts no ro apJ apH HL A b xs lam HP _ _ _ Pm D3) as C.
        destruct (L4 (vscale vo (- (1)) (i_d i))) as [E1 _].
        assert (Q : i_mu i / (lam + i_mu i) * err (i_x i) <= err (i_x i)).
        { rewrite <- (Rmult_1_l (err (i_x i))) at 2. apply Rmult_le_compat_r; [exact Pe|].
          apply Rmult_le_reg_r with (lam + i_mu i); [lra|]. unfold Rdiv. rewrite Rmult_assoc, Rinv_l by lra. lra. }
        eapply Rle_lt_trans; [|exact Hn]. rewrite HN. apply Rmult_le_reg_l with lo; [exact L1|].
        replace (lo * (2 / lo * (left_after u lam n * err (g_x s)))) with (2 * (left_after u lam n * err (g_x s))) by (field; lra). lra.
      - destruct HJ as [HN _]. rewrite D1, D2. eapply Rle_lt_trans; [apply gradient_below|]. eapply Rle_lt_trans; [|exact Hn]. rewrite HN.
        apply Rmult_le_compat_l; [|exact K1]. apply Rmult_le_pos; [apply pow2_ge_0|]. apply Rlt_le, Rinv_0_lt_compat. exact L1.
    Qed.
    Lemma lm_close : forall n i m1 k, valid i -> kept_point n (i_x i, i_mu i, i_nu i) -> met o cf k m1 (measure i) -> err (i_x i) <= far * f_tol cf.
    Proof.
      intros n i m1 k Hv [K1 [K2 K3]] Hm. destruct (direction i Hv K2) as [D1 [D2 D3]]. pose proof (range_pos _ _ K2) as Pm.
      unfold met, lm_judged in *. destruct HS as [L1 [L2 [L3 L4]]]. pose proof (err_pos' (i_x i)) as Pe.
      destruct (f_stop cf) eqn:Es; try contradiction; cbn [reading ls_meas m_corr m_grad ls_gradient] in Hm; change (sltb o) with Rltb in Hm; apply Rltb_true in Hm.
      - destruct HJ as [_ ->]. unfold i_c in Hm. change (sopp o (s1 o)) with (- (1)) in Hm.
        destruct (correction_triangle (i_x i) (i_d i)) as [_ T]. cbv zeta in T.
        pose proof (lm_contracts no ro apJ apH HL A b xs lam HP _ _ _ Pm D3) as C.
        destruct (L4 (vscale vo (- (1)) (i_d i))) as [_ [E2 _]].
        assert (B : scaled no A (vscale vo (- (1)) (i_d i)) <= hi * f_tol cf) by (eapply Rle_trans; [exact E2|]; apply Rmult_le_compat_l; lra).
        assert (Pt : 0 <= hi * f_tol cf) by (apply Rmult_le_pos; [lra|]; pose proof (norm_pos' (vscale vo (- (1)) (i_d i))); lra).
        assert (Hi : 0 < 1 + 1 / lam) by (assert (0 < 1 / lam) by (apply Rdiv_lt_0_compat; lra); lra).
        destruct K3 as [K3|K3]; [rewrite K3, err_xs; replace (hi * (1 + 1 / lam) * f_tol cf) with ((1 + 1 / lam) * (hi * f_tol cf)) by ring; apply Rmult_le_pos; lra|].
        rewrite K3 in C. destruct (left_factor lam u n Hl) as [_ LF].
        assert (C2 : err (i_x i) <= 1 / (1 + lam) * err (i_x i) + hi * f_tol cf).
        { apply (Rmult_le_compat_r (err (i_x i))) in LF; [|exact Pe]. lra. }
        apply Rmult_le_reg_l with (lam / (1 + lam)); [apply Rdiv_lt_0_compat; lra|].
        replace (lam / (1 + lam) * (hi * (1 + 1 / lam) * f_tol cf)) with (hi * f_tol cf) by (field; lra).
        replace (lam / (1 + lam)) with (1 - 1 / (1 + lam)) by (field; lra). lra.
      - destruct HJ as [_ ->]. rewrite D1, D2 in Hm. exact (gradient_above _ _ Hm).
    Qed.
    Lemma lm_finds : forall n, near * (left_after u lam n * err (g_x s)) < f_tol cf -> (Z.of_nat n < f_max cf)%Z ->
      exists a l, g_log s' = g_log s ++ a ++ [l] /\ l_state l = g_x s' /\ line_met o cf l /\ (length a <= n)%nat /\
        err (g_x s') <= far * f_tol cf.
    Proof.
      intros n Hn Hlt.
      pose proof (ls_solve_ok o no xt (graph rj) wr wj _ _ _ _ _ _ _ (computes_ok rj _ _ Hc) Hw Hlin (ten_ends _ _ (ten_R eps)) none_linesearch LevMar cf s w Ho lm_sup) as K.
      pose proof (tri_exec _ _ _ _ _ _ _ _ _ _ _ _ _ _ K E) as [K1 [ls [K2 K3]]].
      pose proof (ends_points_soon kept_point better cf _ _ _ (start o LevMar cf (g_x s) (g_damp s) (g_nu s)) lm_keeps start_kept _ _ _ _ _
                   (lm_no_stuck _) lm_no_trial (ls_named _) Hmax n (lm_seen n Hn) Hlt _ _ _ _ K3)
        as [R1 [i [m1 [k [a [l [V1 [V2 [V3 [V4 [V5 [V6 V7]]]]]]]]]]]].
      exists a, l. rewrite K2, V5. split; [reflexivity|]. split; [exact V6|]. split; [exact V7|].
      rewrite V5, app_length in R1. cbn in R1. split; [lia|].
      assert (Ex : g_x s' = i_x i) by (change (g_x s') with (fst (fst (pt s'))); rewrite <- V3; reflexivity). rewrite Ex.
      exact (lm_close (length a) i m1 k V1 V2 V4).
    Qed.
  End Finds.
End Claims.
Lemma lm_every_tolerance : forall (u : update) (lam e near tol : R), 0 < lam -> 0 < tol ->
  (forall n, left_after u lam n <= (1 / (1 + lam)) ^ n) /\ exists n, near * (left_after u lam n * e) < tol.
Proof. intros u lam e near tol Hl Ht. exact (conj (fun n => left_geometric u lam n Hl) (left_vanishes u lam e near tol Hl Ht)). Qed.

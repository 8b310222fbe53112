(** C92: Levenberg-Marquardt for linear least-squares problems. *)
From Coq Require Import Reals ZArith List Lra Lia Bool.
From Verif Require Import Base RInst Laws LawInst ExplicitModel AdvanceModel AdvanceSpec ImplicitModel ImplicitSpec NonlinDiag NonlinModel NonlinWp NonlinDiagProofs
  NonlinSpec NonlinRuns NonlinProofs NonlinSolve NonlinLines NonlinClaims NonlinSeq NonlinFollow NonlinLaws NonlinExact NonlinReal
  NonlinTheory NonlinRest DissipSpec DissipProofs LinRunSpec NewtonSpec NewtonProofs NewtonClaims LmSpec.
Import ListNotations.
Local Open Scope R_scope.

(** ** Invariants of the points of a run, which depend on the number of the iteration *)
Section Points.
  Context {eps : R} {V Rs J : Type}.
  Notation o := (Rops eps).
  Notation info := (info R V Rs J).
  Variable P : nat -> V * R * R -> Prop.
  Variable Rel : V -> V -> Prop.
  Variable cf : config R.
  Variable valid : info -> Prop.
  Variable measure : info -> meas R.
  Variable move : info -> V * R * R -> Prop.
  Variable p0 : V * R * R.
  Notation px p := (fst (fst p)).
  Notation pi i := (i_x i, i_mu i, i_nu i).
  Hypothesis Hmove : forall k i q, valid i -> P k (pi i) -> move i q -> P (S k) q /\ Rel (i_x i) (px q).
  Hypothesis H0 : P 0 p0.
  Notation steps' := (steps o cf valid measure move p0).
  Lemma steps_points : forall is p, steps' is p ->
    P (length is) p /\ (forall k x, nth_error (map i_x is ++ [px p]) k = Some x -> exists mu nu, P k (x, mu, nu)) /\
    (forall k x x', nth_error (map i_x is ++ [px p]) k = Some x -> nth_error (map i_x is ++ [px p]) (k + 1) = Some x' -> Rel x x').
  Proof.
    intros is p K. induction K as [|is p i p' K [I1 [I2 I4]] Ha Hv Hm Hmv].
    - split; [exact H0|]. split.
      + intros [|k] x E; cbn in E; [injection E as <-; exists (snd (fst p0)), (snd p0); destruct p0 as [[? ?] ?]; exact H0|destruct k; discriminate].
      + intros k x x' E E'. destruct k; cbn in E'; [discriminate|destruct k; discriminate].
    - assert (Ep : px p = i_x i) by (unfold at_point in Ha; subst p; reflexivity). rewrite Ep in *.
      unfold at_point in Ha. rewrite Ha in I1. destruct (Hmove _ i p' Hv I1 Hmv) as [Q QR].
      assert (R2 : P (length (is ++ [i])) p') by (rewrite app_length; cbn [length]; rewrite Nat.add_1_r; exact Q).
      split; [exact R2|]. rewrite map_app. cbn [map]. set (l := map i_x is ++ [i_x i]) in *.
      assert (Ll : length l = length (is ++ [i])) by (unfold l; rewrite !app_length, map_length; reflexivity).
      split.
      + intros k x E. destruct (Nat.lt_ge_cases k (length l)) as [Hl|Hl].
        * rewrite nth_error_app1 in E by exact Hl. eauto.
        * rewrite nth_error_app2 in E by exact Hl. destruct (k - length l)%nat as [|n] eqn:En; cbn in E; [|destruct n; discriminate].
          injection E as <-. replace k with (length (is ++ [i])) by lia. exists (snd (fst p')), (snd p'). destruct p' as [[? ?] ?]. exact R2.
      + intros k x x' E E'. destruct (Nat.lt_ge_cases (k + 1) (length l)) as [Hl|Hl].
        * rewrite nth_error_app1 in E by lia. rewrite nth_error_app1 in E' by exact Hl. eauto.
        * rewrite nth_error_app2 in E' by exact Hl. destruct (k + 1 - length l)%nat as [|n] eqn:En; cbn in E'; [|destruct n; discriminate].
          injection E' as <-. assert (Hk1 : (k + 1)%nat = length l) by lia.
          rewrite nth_error_app1 in E by lia. unfold l in E. rewrite nth_error_app2 in E by (rewrite Ll in Hk1; rewrite app_length in Hk1; cbn in Hk1; rewrite map_length; lia).
          replace (k - length (map i_x is))%nat with 0%nat in E by (rewrite Ll in Hk1; rewrite app_length in Hk1; cbn in Hk1; rewrite map_length; lia).
          cbn in E. injection E as <-. exact QR.
  Qed.

  Variable stuck : info -> Prop.
  Variable ftrial : outcome unit -> Prop.
  Variable pub : list diag.
  Variable reports : bool.
  Variable file0 : option report.
  Hypothesis Hst : forall i, ~ stuck i.
  Hypothesis Htr : forall e, ~ ftrial e.
  Hypothesis Hpub : forall d, named (f_stop cf) = Some d -> In d pub.
  Hypothesis Hmax : (0 <= f_max cf < int32_max)%Z.
  Notation ends := (solve_ends o cf valid measure move p0 stuck nothing nothing ftrial residual_exn linesearch_exn pub reports file0).
  Lemma ends_points : forall r p ls fl, ends r p ls fl ->
    r = Ok tt /\ (forall k l, nth_error ls k = Some l -> exists mu nu, P k (l_state l, mu, nu)) /\
    (forall k l l', nth_error ls k = Some l -> nth_error ls (k + 1) = Some l' -> Rel (l_state l) (l_state l')) /\
    ((exists i m1 k a l, valid i /\ P (length a) (pi i) /\ pi i = p /\ met o cf k m1 (measure i) /\ ls = a ++ [l] /\ l_state l = px p /\ line_met o cf l) \/
     (Z.of_nat (length ls) = f_max cf /\ P (length ls) p)).
  Proof.
    intros r p ls fl K.
    destruct K as [is i p Hn Hs Ha Hv Hm|is i p e Hn Hs Ha Hv Hm Hstk|is p Hn Hmx Hs|is p Hn Hn2 Hs|is p e Hn Hs He Hfe
                  |is p r Hn Hs He Hfe|is p r Hn Hs He Hfe|is i p r Hn Hs Ha Hv Hm He Hfe];
      try (destruct Hfe; fail); try (exfalso; eapply Hst; eassumption); try (exfalso; eapply Htr; eassumption); try (exfalso; lia).
    - destruct (steps_points _ _ Hs) as [S1 [S3 S4]].
      assert (Ep : px p = i_x i) by (unfold at_point in Ha; subst p; reflexivity).
      assert (El : map i_x is ++ [px p] = map i_x (is ++ [i])) by (rewrite map_app, Ep; reflexivity). rewrite El in S3, S4.
      split; [reflexivity|]. split; [|split].
      + intros k l E. apply printed_state_nth in E. eauto.
      + intros k l l' E E'. apply printed_state_nth in E. apply printed_state_nth in E'. eauto.
      + left. exists i, (first measure is i), (number is). eexists. eexists. split; [exact Hv|]. unfold at_point in Ha. split; [|split; [symmetry; exact Ha|]; split; [exact Hm|];
        split; [apply printed_last|]; split; [symmetry; exact Ep|]; apply line_met_iff; assumption].
        rewrite printed_length. rewrite <- Ha. exact S1.
    - destruct (steps_points _ _ Hs) as [S1 [S3 S4]].
      split; [reflexivity|]. split; [|split].
      + intros k l E. apply printed_state_nth in E. eapply S3. apply nth_left. exact E.
      + intros k l l' E E'. apply printed_state_nth in E. apply printed_state_nth in E'. eapply S4; apply nth_left; eassumption.
      + right. rewrite printed_length. split; [lia|exact S1].
  Qed.
  Variable K : nat.
  Hypothesis Hseen : forall i m1 k, valid i -> P K (pi i) -> met o cf k m1 (measure i).
  Lemma points_soon : forall is p, steps' is p -> (length is <= K)%nat.
  Proof.
    intros is p Hs. induction Hs as [|is p i p' Hs IH Ha Hv Hm Hmv]; [cbn; lia|].
    rewrite app_length. cbn [length]. destruct (Nat.eq_dec (length is) K) as [E|]; [exfalso|lia].
    destruct (steps_points _ _ Hs) as [S1 _]. unfold at_point in Ha. subst p.
    apply Hm. apply Hseen; [exact Hv|]. rewrite <- E. exact S1.
  Qed.
  Lemma ends_points_soon : (Z.of_nat K < f_max cf)%Z -> forall r p ls fl, ends r p ls fl -> (length ls <= K + 1)%nat /\
    exists i m1 k a l, valid i /\ P (length a) (pi i) /\ pi i = p /\ met o cf k m1 (measure i) /\ ls = a ++ [l] /\ l_state l = px p /\ line_met o cf l.
  Proof.
    intros HK r p ls fl Hend.
    destruct Hend as [is i p Hn Hs Ha Hv Hm|is i p e Hn Hs Ha Hv Hm Hstk|is p Hn Hmx Hs|is p Hn Hn2 Hs|is p e Hn Hs He Hfe
                  |is p r Hn Hs He Hfe|is p r Hn Hs He Hfe|is i p r Hn Hs Ha Hv Hm He Hfe];
      try (destruct Hfe; fail); try (exfalso; eapply Hst; eassumption); try (exfalso; eapply Htr; eassumption); try (exfalso; lia).
    - pose proof (points_soon _ _ Hs). split; [rewrite printed_length, app_length; cbn [length]; lia|].
      destruct (steps_points _ _ Hs) as [S1 _].
      assert (Ep : px p = i_x i) by (unfold at_point in Ha; subst p; reflexivity).
      exists i, (first measure is i), (number is). eexists. eexists. split; [exact Hv|]. unfold at_point in Ha. split; [|split; [symmetry; exact Ha|]; split; [exact Hm|];
        split; [apply printed_last|]; split; [symmetry; exact Ep|]; apply line_met_iff; assumption].
      rewrite printed_length. rewrite <- Ha. exact S1.
    - pose proof (points_soon _ _ Hs). exfalso. lia.
  Qed.
End Points.

(** ** Damping factors *)
Lemma third_pos : forall k, 0 < (1 / 3) ^ k.
Proof. intros k. apply pow_lt. lra. Qed.
Lemma third_le : forall k, (1 / 3) ^ k <= 1.
Proof. intros k. pose proof (pow_incr (1 / 3) 1 k ltac:(lra)) as K. rewrite pow1 in K. exact K. Qed.
Lemma damping_bounds : forall u k, 0 < damping_at u k <= 1.
Proof.
  intros u k. pose proof (third_pos k). pose proof (third_le k).
  destruct u; cbn [damping_at]; try lra. split; [eapply Rlt_le_trans; [|apply Rmax_l]; lra|apply Rmax_lub; lra].
Qed.
Lemma left_factor : forall lam u k, 0 < lam -> 0 <= damping_at u k / (lam + damping_at u k) <= 1 / (1 + lam).
Proof.
  intros lam u k Hl. pose proof (damping_bounds u k) as D. set (mu := damping_at u k) in *. split.
  - apply Rmult_le_pos; [lra|]. apply Rlt_le, Rinv_0_lt_compat. lra.
  - apply Rmult_le_reg_r with ((lam + mu) * (1 + lam)); [apply Rmult_lt_0_compat; lra|].
    replace (mu / (lam + mu) * ((lam + mu) * (1 + lam))) with (mu * (1 + lam)) by (field; lra).
    replace (1 / (1 + lam) * ((lam + mu) * (1 + lam))) with (lam + mu) by (field; lra). nra.
Qed.
Lemma left_pos : forall u lam k, 0 < lam -> 0 <= left_after u lam k.
Proof. intros u lam k Hl. induction k as [|k IH]; cbn [left_after]; [lra|]. apply Rmult_le_pos; [exact IH|]. apply left_factor, Hl. Qed.
Lemma left_geometric : forall u lam k, 0 < lam -> left_after u lam k <= (1 / (1 + lam)) ^ k.
Proof.
  intros u lam k Hl. induction k as [|k IH]; cbn [left_after pow]; [lra|]. rewrite (Rmult_comm (1 / (1 + lam))).
  pose proof (left_pos u lam k Hl). destruct (left_factor lam u k Hl). apply Rmult_le_compat; assumption.
Qed.
Lemma left_vanishes : forall u lam e near tol, 0 < lam -> 0 < tol -> exists n, near * (left_after u lam n * e) < tol.
Proof.
  intros u lam e near tol Hl Ht.
  assert (Hq : 0 < 1 / (1 + lam) < 1).
  { split; [apply Rdiv_lt_0_compat; lra|]. apply Rmult_lt_reg_r with (1 + lam); [lra|]. unfold Rdiv. rewrite Rmult_assoc, Rinv_l by lra. lra. }
  set (c := Rabs near * Rabs e + 1). assert (Hc : 0 < c) by (pose proof (Rabs_pos near); pose proof (Rabs_pos e); unfold c; nra).
  destruct (pow_lt_1_zero (1 / (1 + lam))) with (y := tol / c) as [n Hn]; [rewrite Rabs_right; lra|apply Rdiv_lt_0_compat; lra|].
  specialize (Hn n ltac:(lia)). exists n. pose proof (pow_lt (1 / (1 + lam)) n ltac:(lra)) as Hp. rewrite Rabs_right in Hn by lra.
  pose proof (left_geometric u lam n Hl) as G. pose proof (left_pos u lam n Hl) as G0.
  assert (A : near * (left_after u lam n * e) <= c * (1 / (1 + lam)) ^ n).
  { eapply Rle_trans; [apply Rle_abs|]. rewrite !Rabs_mult, (Rabs_right (left_after u lam n)) by lra. unfold c.
    assert (Rabs near * Rabs e * left_after u lam n <= Rabs near * Rabs e * (1 / (1 + lam)) ^ n).
    { apply Rmult_le_compat_l; [|exact G]. apply Rmult_le_pos; apply Rabs_pos. }
    lra. }
  eapply Rle_lt_trans; [exact A|]. apply (Rmult_lt_compat_l c) in Hn; [|exact Hc].
  replace (c * (tol / c)) with tol in Hn by (field; lra). exact Hn.
Qed.

(** ** The steps of Levenberg-Marquardt *)
Section Steps.
  Context {eps : R} {V Rs J H L W : Type}.
  Notation o := (Rops eps).
  Variable no : nlops R V Rs J H.
  Variable ro : vops R Rs.
  Variable apJ : J -> V -> Rs.
  Variable apH : H -> V -> V.
  Hypothesis HL : nl_laws eps no ro apJ apH.
  Notation vo := (n_vo no).
  Notation dot := (n_dot no).
  Notation rdot := (n_rdot no).
  Notation info := (info R V Rs J).
  Let HV := nl_v _ _ _ _ _ HL.
  Let HR := nl_r _ _ _ _ _ HL.
  Variable A : J.
  Variable b : Rs.
  Variable xs : V.
  Variable lam : R.
  Hypothesis HP : lm_problem no ro apJ apH A b xs lam.
  Notation D := (n_diagmul no (n_jtj no A A)).
  Notation F := (affine ro apJ A b).
  Notation dd := (fun x y => dot x (D y)).
  Notation err x := (scaled no A (from no xs x)).
  Notation neg d := (vscale vo (- (1)) d).
  Notation Hd mu := (n_adddiag no (n_jtj no A A) mu).

  Lemma scaled_sq : forall v, dot v (D v) = (scaled no A v) ^ 2.
  Proof. intros v. unfold scaled. cbn [pow]. rewrite Rmult_1_r, sqrt_sqrt; [reflexivity|]. apply (nl_diag_pos _ _ _ _ _ HL). Qed.
  Lemma scaled_inner : NonlinLaws.inner eps vo dd.
  Proof.
    pose proof (nl_diag_lin _ _ _ _ _ HL (n_jtj no A A)) as Dl. constructor.
    - exact (in_space _ _ HV).
    - intros x y. rewrite <- (nl_diag_sym _ _ _ _ _ HL), (in_sym _ _ HV). reflexivity.
    - intros x y z. apply (in_add _ _ HV).
    - intros a x y. apply (in_scale _ _ HV).
    - intros x. apply (nl_diag_pos _ _ _ _ _ HL).
    - intros x E. apply (lp_columns _ _ _ _ _ _ _ _ HP). unfold scaled. rewrite E. apply sqrt_0.
  Qed.
  Lemma scaled_pos : forall v, 0 <= scaled no A v.
  Proof. intros v. apply R_sqrt.sqrt_pos. Qed.
  Lemma rank_sq : forall v, lam * (scaled no A v) ^ 2 <= rdot (apJ A v) (apJ A v).
  Proof.
    intros v. eapply Rle_trans; [apply (lp_rank _ _ _ _ _ _ _ _ HP)|]. rewrite (nl_rnorm _ _ _ _ _ HL). cbn [pow].
    rewrite Rmult_1_r, sqrt_sqrt; [lra|]. apply (in_pos _ _ HR).
  Qed.
  Lemma lm_full_rank : full_rank no ro apJ A.
  Proof.
    intros v E. apply (lp_columns _ _ _ _ _ _ _ _ HP). pose proof (rank_sq v) as K. rewrite E, (dot_0_l _ _ HR) in K.
    pose proof (lp_lam _ _ _ _ _ _ _ _ HP) as Hl. pose proof (scaled_pos v) as Hv. destruct (Req_dec (scaled no A v) 0) as [|Hn]; [assumption|].
    exfalso. assert (0 < lam * (scaled no A v) ^ 2) by (apply Rmult_lt_0_compat; [exact Hl|]; apply pow_lt; lra). lra.
  Qed.
  Lemma damped_unique : forall mu g d d', 0 < mu -> apH (Hd mu) d = g -> apH (Hd mu) d' = g -> d = d'.
  Proof.
    intros mu g d d' Hmu E E'. apply (veq_sub vo dot HV). set (v := vadd vo d (vscale vo (-1) d')).
    assert (Z : apH (Hd mu) v = vzero vo).
    { unfold v. rewrite (lin_add _ _ _ (nl_apH _ _ _ _ _ HL (Hd mu))), (lin_scale _ _ _ (nl_apH _ _ _ _ _ HL (Hd mu))), E, E'.
      apply (dot_ext vo dot HV). intros z. rewrite (in_add _ _ HV), (in_scale _ _ HV), (dot_0_l _ _ HV). ring. }
    destruct (Req_dec (dot v v) 0) as [Hz|Hz]; [exact (in_zero _ _ HV _ Hz)|]. exfalso.
    assert (Hne : v <> vzero vo) by (intros Ev; apply Hz; rewrite Ev; apply (dot_0_l _ _ HV)).
    pose proof (full_rank_pd no ro apJ apH HL A mu ltac:(lra) lm_full_rank v Hne) as K. rewrite Z, (dot_0_r _ _ HV) in K. lra.
  Qed.
  Lemma solved_damped : forall mu g d, 0 < mu -> if_solvable (normal_exact apH) (Hd mu) g d -> apH (Hd mu) d = g.
  Proof.
    intros mu g d Hmu Hs. apply Hs. destruct (lp_solvable _ _ _ _ _ _ _ _ HP mu g Hmu) as [e Ee]. exists e. split; [exact Ee|].
    intros e' Ee'. exact (damped_unique mu g e' e Hmu Ee' Ee).
  Qed.
  Lemma damped_zero : forall mu, apH (Hd mu) (vzero vo) = vzero vo.
  Proof.
    intros mu. replace (vzero vo) with (vscale vo 0 (vzero vo)) at 1
      by (apply (dot_ext vo dot HV); intros v; rewrite (in_scale _ _ HV), (dot_0_l _ _ HV); ring).
    rewrite (lin_scale _ _ _ (nl_apH _ _ _ _ _ HL (Hd mu))). apply (dot_ext vo dot HV). intros v. rewrite (in_scale _ _ HV), (dot_0_l _ _ HV). ring.
  Qed.
  (** the gradient is A^T A (x - xs) *)
  Lemma gradient_at : forall x v, dot (n_jtr no A (F x)) v = rdot (apJ A (from no xs x)) (apJ A v).
  Proof.
    intros x v. rewrite (nl_jtr _ _ _ _ _ HL). unfold from. rewrite (apJ_add _ _ _ _ HL), (apJ_scale _ _ _ _ HL).
    assert (Z : rdot (F xs) (apJ A v) = 0) by (rewrite <- (nl_jtr _ _ _ _ _ HL), (lp_solution _ _ _ _ _ _ _ _ HP); apply (dot_0_l _ _ HV)).
    unfold affine in *. rewrite !(in_add _ _ HR) in *. rewrite (in_scale _ _ HR). lra.
  Qed.
  Lemma moved_from : forall x d, from no xs (along o no x (neg d) 1) = vadd vo (from no xs x) (neg d).
  Proof.
    intros x d. unfold from, along. apply (dot_ext vo dot HV). intros v. change (s1 o) with 1. rewrite !(in_add _ _ HV), !(in_scale _ _ HV).
    ring.
  Qed.
  Lemma lm_contracts : forall mu x d, 0 < mu -> apH (Hd mu) d = n_jtr no A (F x) ->
    err (along o no x (neg d) 1) <= mu / (lam + mu) * err x.
  Proof.
    intros mu x d Hmu E. rewrite moved_from. set (e := from no xs x). set (e' := vadd vo e (neg d)).
    pose proof (lp_lam _ _ _ _ _ _ _ _ HP) as Hl.
    assert (K : rdot (apJ A e') (apJ A e') + mu * dot e' (D e') = mu * dot e' (D e)).
    { assert (G : dot (apH (Hd mu) d) e' = rdot (apJ A e) (apJ A e')) by (rewrite E; apply gradient_at).
      rewrite (nl_adddiag _ _ _ _ _ HL), (in_add _ _ HV), (in_scale _ _ HV), (jtj_dot _ _ _ _ HL), (in_sym _ _ HV (D d)) in G.
      pose proof (nl_diag_lin _ _ _ _ _ HL (n_jtj no A A)) as Dl.
      assert (G2 : dot e' (D e') = dot e' (D e) - dot e' (D d)).
      { unfold e' at 2. rewrite (lin_add _ _ _ Dl), (lin_scale _ _ _ Dl), (dot_add_r _ _ HV), (dot_scale_r _ _ HV). lra. }
      assert (G3 : rdot (apJ A e') (apJ A e') = rdot (apJ A e) (apJ A e') - rdot (apJ A d) (apJ A e')).
      { unfold e' at 1. rewrite (apJ_add _ _ _ _ HL), (apJ_scale _ _ _ _ HL), (in_add _ _ HR), (in_scale _ _ HR). lra. }
      rewrite G2, G3. lra. }
    pose proof (rank_sq e') as Rk. pose proof (cauchy_dot vo dd scaled_inner e' e) as C. cbv beta in C.
    fold (scaled no A e') in C. fold (scaled no A e) in C. rewrite scaled_sq in K.
    pose proof (scaled_pos e') as P1. pose proof (scaled_pos e) as P2. set (p := scaled no A e') in *. set (q := scaled no A e) in *.
    assert (Q : (lam + mu) * p ^ 2 <= mu * (p * q)).
    { apply (Rmult_le_compat_l mu) in C; [|lra]. lra. }
    apply Rmult_le_reg_l with (lam + mu); [lra|]. replace ((lam + mu) * (mu / (lam + mu) * q)) with (mu * q) by (field; lra).
    destruct (Req_dec p 0) as [->|Hp]; [rewrite Rmult_0_r; apply Rmult_le_pos; lra|].
    apply Rmult_le_reg_l with p; [lra|]. cbn [pow] in Q. lra.
  Qed.
  (** the gain the code computes is at least 1, unless the solution is already reached *)
  Lemma lm_gain : forall wr mu x d, 0 < mu -> apH (Hd mu) d = n_jtr no A (F x) ->
    (x = xs /\ along o no x (neg d) 1 = xs) \/
    (half_square no (F (along o no x (neg d) 1)) < half_square no (F x) /\
     forall i : info, i_x i = x -> i_mu i = mu -> i_d i = d -> i_r i = F x -> i_j i = A ->
       1 <= gain o no (ls_objective o no wr LevMar) i (F (along o no x (neg d) 1))).
  Proof.
    intros wr mu x d Hmu E. pose proof (lm_denominator _ _ _ _ HL _ _ _ _ E) as [K1 K2]. cbv zeta in K1, K2.
    set (c := neg d) in *. set (q := rdot (apJ A c) (apJ A c)) in *.
    assert (Hq : 0 <= q) by apply (in_pos _ _ HR).
    assert (Hs : 0 <= mu * dot c (D c)) by (apply Rmult_le_pos; [lra|apply (nl_diag_pos _ _ _ _ _ HL)]).
    assert (EM : F (along o no x c 1) = model_residual ro apJ A (F x) c).
    { unfold along. change (s1 o) with 1. unfold affine, model_residual. rewrite (apJ_add _ _ _ _ HL), !(apJ_scale _ _ _ _ HL).
      apply (dot_ext ro rdot HR). intros v. rewrite !(in_add _ _ HR), !(in_scale _ _ HR). ring. }
    destruct (Req_dec q 0) as [Hz|Hz].
    - left. apply (in_zero _ _ HR) in Hz. pose proof (lm_full_rank _ Hz) as Hc.
      assert (Ed : d = vzero vo).
      { apply (dot_ext vo dot HV). intros v. rewrite (dot_0_l _ _ HV). assert (Z : dot c v = 0) by (rewrite Hc; apply (dot_0_l _ _ HV)).
        unfold c in Z. rewrite (in_scale _ _ HV) in Z. lra. }
      assert (Ex : x = xs).
      { apply (veq_sub vo dot HV). apply lm_full_rank. apply (in_zero _ _ HR).
        pose proof (gradient_at x (from no xs x)) as G. rewrite <- E, Ed in G.
        rewrite (damped_zero mu), (dot_0_l _ _ HV) in G. unfold from in G. symmetry. exact G. }
      split; [exact Ex|]. rewrite Hc, <- Ex. unfold along. change (s1 o) with 1. apply (dot_ext vo dot HV). intros v.
      rewrite (in_add _ _ HV), !(in_scale _ _ HV), (dot_0_l _ _ HV). ring.
    - right. unfold predicted in K2. rewrite <- EM in K2. fold c. split; [lra|].
      intros i E1 E2 E3 E4 E5. unfold gain. rewrite !(objective_half no ro apJ apH HL).
      change (sdiv o) with Rdiv. change (ssub o) with Rminus. change (smul o) with Rmult.
      change (sadd o) with Rplus. change (s1 o) with 1. rewrite sZ_R. unfold i_c. change (sopp o (s1 o)) with (- (1)).
      rewrite E2, E3, E4, E5. fold c. rewrite K1, K2.
      replace ((- (q / 2) - mu * dot c (D c)) / (1 / 2 * - q)) with (1 + mu * dot c (D c) * (2 / q)) by (field; lra).
      assert (0 < 2 / q) by (apply Rdiv_lt_0_compat; lra). assert (0 <= mu * dot c (D c) * (2 / q)) by (apply Rmult_le_pos; lra). lra.
  Qed.
End Steps.

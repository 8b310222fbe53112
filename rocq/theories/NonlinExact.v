(** Facts of linear algebra behind C27, C29-C31. *)
From Coq Require Import Reals ZArith List Lra.
From Verif Require Import Base RInst Laws LawInst NonlinDiag NonlinModel NonlinSpec NonlinLaws.
Import ListNotations.
Local Open Scope R_scope.

Section Inner.
  Context {eps : R} {V : Type} (vo : vops R V) (dot : V -> V -> R).
  Hypothesis HI : inner eps vo dot.
  Lemma dot_add_r : forall x y z, dot x (vadd vo y z) = dot x y + dot x z.
  Proof. intros x y z. rewrite (in_sym _ _ HI), (in_add _ _ HI), (in_sym _ _ HI y), (in_sym _ _ HI z). reflexivity. Qed.
  Lemma dot_scale_r : forall a x y, dot x (vscale vo a y) = a * dot x y.
  Proof. intros a x y. rewrite (in_sym _ _ HI), (in_scale _ _ HI), (in_sym _ _ HI y). reflexivity. Qed.
  Lemma dot_0_l : forall x, dot (vzero vo) x = 0.
  Proof.
    intros x. rewrite <- (vs_0 _ _ (in_space _ _ HI) x). rewrite (in_scale _ _ HI). change (s0 (Rops eps)) with 0. ring.
  Qed.
  Lemma dot_0_r : forall x, dot x (vzero vo) = 0.
  Proof. intros x. rewrite (in_sym _ _ HI). apply dot_0_l. Qed.
  Lemma veq_sub : forall x y, vadd vo x (vscale vo (-1) y) = vzero vo -> x = y.
  Proof.
    intros x y E. pose proof (in_space _ _ HI) as HV.
    rewrite <- (va_0_l _ _ HV x), <- (va_0_l _ _ HV y). rewrite <- E at 2.
    change (-1) with (sopp (Rops eps) (s1 (Rops eps))). vreduce (Rops eps) vo (R_field eps) HV;
    change (sadd (Rops eps)) with Rplus; change (smul (Rops eps)) with Rmult; change (s0 (Rops eps)) with 0;
      change (s1 (Rops eps)) with 1; change (sopp (Rops eps)) with Ropp; ring.
  Qed.
  (** determined by inner products *)
  Lemma dot_ext : forall x y, (forall v, dot x v = dot y v) -> x = y.
  Proof.
    intros x y E. apply veq_sub. apply (in_zero _ _ HI).
    rewrite (in_add _ _ HI), (in_scale _ _ HI), (E _). ring.
  Qed.
End Inner.

Section Exact.
  Context {eps : R} {V Rs J H : Type}.
  Variable no : nlops R V Rs J H.
  Variable ro : vops R Rs.
  Variable apJ : J -> V -> Rs.
  Variable apH : H -> V -> V.
  Hypothesis HL : nl_laws eps no ro apJ apH.
  Notation vo := (n_vo no).
  Notation dot := (n_dot no).
  Notation rdot := (n_rdot no).
  Notation neg d := (vscale vo (- (1)) d).
  Let HV := nl_v _ _ _ _ _ HL.
  Let HR := nl_r _ _ _ _ _ HL.
  Ltac dots := rewrite ?(in_add _ _ HV), ?(in_scale _ _ HV), ?(dot_add_r _ _ HV), ?(dot_scale_r _ _ HV),
                       ?(in_add _ _ HR), ?(in_scale _ _ HR), ?(dot_add_r _ _ HR), ?(dot_scale_r _ _ HR).
  Lemma apJ_add : forall j x y, apJ j (vadd vo x y) = vadd ro (apJ j x) (apJ j y).
  Proof. intros j. apply (lin_add _ _ _ (nl_apJ _ _ _ _ _ HL j)). Qed.
  Lemma apJ_scale : forall j a x, apJ j (vscale vo a x) = vscale ro a (apJ j x).
  Proof. intros j. apply (lin_scale _ _ _ (nl_apJ _ _ _ _ _ HL j)). Qed.
  Lemma apH_scale : forall h a x, apH h (vscale vo a x) = vscale vo a (apH h x).
  Proof. intros h. apply (lin_scale _ _ _ (nl_apH _ _ _ _ _ HL h)). Qed.
  Lemma jtj_dot : forall a b v w, dot (apH (n_jtj no a b) v) w = rdot (apJ b v) (apJ a w).
  Proof. intros a b v w. rewrite (nl_jtj _ _ _ _ _ HL), (nl_jtr _ _ _ _ _ HL). reflexivity. Qed.

  Lemma sqrt_mono : forall a b, a <= b -> sqrt a <= sqrt b.
  Proof. intros. apply sqrt_le_1_alt. assumption. Qed.

  (** General form: minimisation of the weighted distance. *)
  Lemma minimiser_weighted : forall wr wj j r d, weighting ro apJ wr wj -> symmetric_psd no wr ->
    apH (n_jtj no j (wj j)) d = n_jtr no j (wr r) ->
    forall e, let m c := model_residual ro apJ j r c in
      rdot (m (neg d)) (wr (m (neg d))) <= rdot (m e) (wr (m e)).
  Proof.
    intros wr wj j r d [Wl Wj] [Ws Wp] E e. unfold model_residual. cbv zeta.
    (* orthogonality *)
    assert (Ho : forall v, rdot (wr (apJ j d)) (apJ j v) = rdot (wr r) (apJ j v)).
    { intros v. rewrite <- Wj, <- jtj_dot, E, (nl_jtr _ _ _ _ _ HL). reflexivity. }
    rewrite !(lin_add _ _ _ Wl), !apJ_scale, !(lin_scale _ _ _ Wl). dots.
    pose proof (Wp (vadd ro (apJ j e) (apJ j d))) as P. rewrite (lin_add _ _ _ Wl) in P. revert P. dots. intros P.
    pose proof (Ho d) as O1. pose proof (Ho e) as O2.
    pose proof (Ws (apJ j d) (apJ j e)) as S1. pose proof (Ws r (apJ j e)) as S2. pose proof (Ws r (apJ j d)) as S3.
    rewrite (in_sym _ _ HR (apJ j d) (wr (apJ j e))) in S1.
    rewrite (in_sym _ _ HR (wr r) (apJ j e)) in S2. rewrite (in_sym _ _ HR (wr r) (apJ j d)) in S3.
    rewrite (in_sym _ _ HR (wr (apJ j d))) in O1, O2. rewrite (in_sym _ _ HR (wr r)) in O1, O2.
    rewrite (in_sym _ _ HR (wr (apJ j d)) (apJ j e)) in S1.
    rewrite (in_sym _ _ HR (wr (apJ j e))) in S1.
    lra.
  Qed.
  Lemma id_weighting : weighting ro apJ (fun r => r) (fun j => j).
  Proof. split; [split|]; reflexivity. Qed.
  Lemma id_psd : symmetric_psd no (fun r => r).
  Proof. split; [reflexivity|apply (in_pos _ _ HR)]. Qed.
  Lemma minimiser : forall j r d, apH (n_jtj no j j) d = n_jtr no j r ->
    forall e, n_rnorm no (model_residual ro apJ j r (neg d)) <= n_rnorm no (model_residual ro apJ j r e).
  Proof.
    intros j r d E e. rewrite !(nl_rnorm _ _ _ _ _ HL). apply sqrt_mono.
    exact (minimiser_weighted _ _ j r d id_weighting id_psd E e).
  Qed.
  Lemma minimiser_compact : forall wr wj j r d, weighting ro apJ wr wj ->
    apH (n_jtj no (wj j) (wj j)) d = n_jtr no (wj j) (wr r) ->
    forall e, n_rnorm no (wr (model_residual ro apJ j r (neg d))) <= n_rnorm no (wr (model_residual ro apJ j r e)).
  Proof.
    intros wr wj j r d W E e. pose proof (minimiser (wj j) (wr r) d E e) as K. destruct W as [Wl Wj].
    unfold model_residual in *. rewrite !(lin_add _ _ _ Wl), <- !Wj. exact K.
  Qed.
  (** Levenberg-Marquardt minimises the damped model. *)
  Lemma minimiser_lm : forall j r mu d, 0 <= mu -> apH (n_adddiag no (n_jtj no j j) mu) d = n_jtr no j r ->
    forall e, let q c := half_square no (model_residual ro apJ j r c)
                + mu / 2 * dot c (n_diagmul no (n_jtj no j j) c) in q (neg d) <= q e.
  Proof.
    intros j r mu d Hmu E e. unfold half_square, model_residual. cbv zeta.
    set (D := n_diagmul no (n_jtj no j j)).
    assert (Dl : linear vo vo D) by apply (nl_diag_lin _ _ _ _ _ HL).
    assert (Ds : forall v w, dot (D v) w = dot v (D w)) by apply (nl_diag_sym _ _ _ _ _ HL).
    assert (Ho : forall v, rdot (apJ j d) (apJ j v) + mu * dot (D d) v = rdot r (apJ j v)).
    { intros v. rewrite <- (nl_jtr _ _ _ _ _ HL j r v), <- E, (nl_adddiag _ _ _ _ _ HL). dots. rewrite jtj_dot. reflexivity. }
    rewrite !(lin_scale _ _ _ Dl), !apJ_scale. dots.
    pose proof (in_pos _ _ HR (vadd ro (apJ j e) (apJ j d))) as P. revert P. dots. intros P.
    pose proof (nl_diag_pos _ _ _ _ _ HL j (vadd vo e d)) as Q. fold D in Q. rewrite (lin_add _ _ _ Dl) in Q. revert Q. dots. intros Q.
    pose proof (Ho d) as O1. pose proof (Ho e) as O2.
    rewrite (in_sym _ _ HR (apJ j d) (apJ j e)) in *.
    rewrite (in_sym _ _ HR r (apJ j e)), (in_sym _ _ HR r (apJ j d)) in *.
    pose proof (Ds d e) as S1. rewrite (in_sym _ _ HV (D d) e) in S1. rewrite (in_sym _ _ HV (D d) e) in O2.
    pose proof (Ds d d) as S2. rewrite (in_sym _ _ HV (D d) d) in O1.
    apply (Rmult_le_compat_l mu) in Q; [|exact Hmu]. rewrite <- S1 in Q.
    lra.
  Qed.

  (** Descent *)
  Lemma descent_gn : forall j r d, apH (n_jtj no j j) d = n_jtr no j r ->
    n_jtr no j r <> vzero vo -> dot (n_jtr no j r) (neg d) < 0.
  Proof.
    intros j r d E Hg. dots. pose proof (jtj_dot j j d d) as K. rewrite E in K. rewrite K.
    assert (Hn : rdot (apJ j d) (apJ j d) <> 0).
    { intros E0. apply Hg. rewrite <- E. apply (in_zero _ _ HR) in E0.
      rewrite (nl_jtj _ _ _ _ _ HL), E0. apply (dot_ext vo dot HV). intros v.
      rewrite (nl_jtr _ _ _ _ _ HL), (dot_0_l _ _ HR), (dot_0_l _ _ HV). reflexivity. }
    pose proof (in_pos _ _ HR (apJ j d)). lra.
  Qed.

  (** QR *)
  Lemma psd_zero : forall wr a, linear ro ro wr -> symmetric_psd no wr -> rdot a (wr a) = 0 -> wr a = vzero ro.
  Proof.
    intros wr a Wl [Ws Wp] H0. apply (dot_ext ro rdot HR). intros s. rewrite (dot_0_l _ _ HR).
    set (b := rdot (wr a) s). set (c := rdot s (wr s)). pose proof (Wp s) as Hc. fold c in Hc.
    destruct (Req_dec b 0) as [Hb|Hb]; [exact Hb|exfalso].
    pose proof (Wp (vadd ro a (vscale ro (- b / (c + 1)) s))) as K.
    rewrite (lin_add _ _ _ Wl), (lin_scale _ _ _ Wl) in K.
    rewrite (in_add _ _ HR), !(dot_add_r _ _ HR), !(in_scale _ _ HR), !(dot_scale_r _ _ HR), H0 in K.
    rewrite <- (Ws a s) in K. rewrite (in_sym _ _ HR s (wr a)) in K. fold b c in K.
    assert (Hc1 : 0 < c + 1) by lra.
    assert (E : 0 + - b / (c + 1) * b + (- b / (c + 1) * b + - b / (c + 1) * (- b / (c + 1) * c))
                = - (b * b * (c + 2)) / ((c + 1) * (c + 1))) by (field; lra).
    rewrite E in K. assert (0 < b * b) by nra. assert (0 < b * b * (c + 2)) by nra.
    assert (0 < (c + 1) * (c + 1)) by nra.
    assert (0 < b * b * (c + 2) / ((c + 1) * (c + 1))) by (apply Rdiv_lt_0_compat; assumption).
    unfold Rdiv in K. rewrite <- Ropp_mult_distr_l in K. fold (b * b * (c + 2) / ((c + 1) * (c + 1))) in K. lra.
  Qed.
  Lemma descent_weighted : forall wr wj j r d, weighting ro apJ wr wj -> symmetric_psd no wr ->
    apH (n_jtj no j (wj j)) d = n_jtr no j (wr r) ->
    n_jtr no j (wr r) <> vzero vo -> dot (n_jtr no j (wr r)) (neg d) < 0.
  Proof.
    intros wr wj j r d [Wl Wj] Hp E Hg. dots. pose proof (jtj_dot j (wj j) d d) as K. rewrite E, Wj in K. rewrite K.
    assert (Hn : rdot (wr (apJ j d)) (apJ j d) <> 0).
    { intros E0. apply Hg. rewrite <- E, (nl_jtj _ _ _ _ _ HL), Wj.
      rewrite (in_sym _ _ HR) in E0. rewrite (psd_zero wr _ Wl Hp E0).
      apply (dot_ext vo dot HV). intros v. rewrite (nl_jtr _ _ _ _ _ HL), (dot_0_l _ _ HR), (dot_0_l _ _ HV). reflexivity. }
    pose proof (proj2 Hp (apJ j d)) as Hq. rewrite (in_sym _ _ HR) in Hq. lra.
  Qed.
  Lemma descent_lm : forall j r mu d, 0 <= mu -> apH (n_adddiag no (n_jtj no j j) mu) d = n_jtr no j r ->
    dot (n_jtr no j r) (neg d) <= 0.
  Proof.
    intros j r mu d Hmu E. dots. rewrite <- E, (nl_adddiag _ _ _ _ _ HL), (in_add _ _ HV), (in_scale _ _ HV), jtj_dot.
    pose proof (in_pos _ _ HR (apJ j d)). pose proof (nl_diag_pos _ _ _ _ _ HL j d) as K. rewrite (in_sym _ _ HV) in K.
    pose proof (Rmult_le_pos _ _ Hmu K). lra.
  Qed.
  Lemma qr_normal : forall j r d, qr_exact no apJ j r d -> apH (n_jtj no j j) d = n_jtr no j r.
  Proof.
    intros j r d [Q [U [Qt [E1 [E2 [E3 E4]]]]]]. apply (dot_ext vo dot HV). intros v.
    rewrite jtj_dot, (nl_jtr _ _ _ _ _ HL), !E1, E2, E4, E3. reflexivity.
  Qed.
  Lemma normal_unique : forall j g d d', full_rank no ro apJ j ->
    apH (n_jtj no j j) d = g -> apH (n_jtj no j j) d' = g -> d = d'.
  Proof.
    intros j g d d' Hr E E'. apply (veq_sub vo dot HV). apply Hr. rewrite apJ_add, apJ_scale.
    apply (in_zero _ _ HR). set (z := vadd vo d (vscale vo (-1) d')).
    replace (vadd ro (apJ j d) (vscale ro (-1) (apJ j d'))) with (apJ j z) by (subst z; rewrite apJ_add, apJ_scale; reflexivity).
    rewrite <- jtj_dot. assert (K : apH (n_jtj no j j) z = vzero vo).
    { subst z. rewrite (lin_add _ _ _ (nl_apH _ _ _ _ _ HL _)), apH_scale, E, E'.
      apply (dot_ext vo dot HV). intros v. dots. rewrite (dot_0_l _ _ HV). ring. }
    rewrite K. apply (dot_0_l _ _ HV).
  Qed.
  Lemma newton_unique : forall j r d d', full_rank no ro apJ j -> apJ j d = r -> apJ j d' = r -> d = d'.
  Proof.
    intros j r d d' Hr E E'. apply (veq_sub vo dot HV). apply Hr. rewrite apJ_add, apJ_scale, E, E'.
    apply (dot_ext ro _ HR). intros v. rewrite (in_add _ _ HR), (in_scale _ _ HR), (dot_0_l _ _ HR). ring.
  Qed.
  (** with full rank the solutions are unique *)
  Lemma solved_newton : forall j r d, full_rank no ro apJ j -> (exists e, apJ j e = r) ->
    if_solvable (newton_exact apJ) j r d -> apJ j d = r.
  Proof. intros j r d Hr [e He] K. apply K. exists e. split; [exact He|]. intros e' He'. exact (newton_unique j r e' e Hr He' He). Qed.
  Lemma solved_normal : forall j g d, full_rank no ro apJ j -> (exists e, apH (n_jtj no j j) e = g) ->
    if_solvable (normal_exact apH) (n_jtj no j j) g d -> apH (n_jtj no j j) d = g.
  Proof. intros j g d Hr [e He] K. apply K. exists e. split; [exact He|]. intros e' He'. exact (normal_unique j g e' e Hr He' He). Qed.
  Lemma solved_qr : forall j r d, full_rank no ro apJ j -> (exists e, qr_exact no apJ j r e) ->
    if_solvable (qr_exact no apJ) j r d -> qr_exact no apJ j r d.
  Proof.
    intros j r d Hr [e He] K. apply K. exists e. split; [exact He|]. intros e' He'.
    exact (normal_unique j _ e' e Hr (qr_normal _ _ _ He') (qr_normal _ _ _ He)).
  Qed.
  (** Compact weighting with W is weighting with W^T W. *)
  Lemma compact_is_weighted : forall wr wj wt w2r w2j, weighting ro apJ wr wj -> weighting ro apJ w2r w2j ->
    (forall r s, rdot (wt r) s = rdot r (wr s)) -> (forall r, w2r r = wt (wr r)) ->
    forall j r, (forall v, apH (n_jtj no (wj j) (wj j)) v = apH (n_jtj no j (w2j j)) v) /\
      n_jtr no (wj j) (wr r) = n_jtr no j (w2r r) /\ rdot (wr r) (wr r) = rdot r (w2r r).
  Proof.
    intros wr wj wt w2r w2j [Wl Wj] [W2l W2j] Ht H2 j r.
    assert (G : forall x, n_jtr no (wj j) (wr x) = n_jtr no j (w2r x)).
    { intros x. apply (dot_ext vo dot HV). intros v. rewrite !(nl_jtr _ _ _ _ _ HL), Wj, H2, Ht. reflexivity. }
    split; [|split].
    - intros v. rewrite !(nl_jtj _ _ _ _ _ HL), Wj, W2j. apply G.
    - apply G.
    - rewrite H2, (in_sym _ _ HR r), Ht. reflexivity.
  Qed.

  (** Affine problems *)
  Lemma affine_step : forall A b x d, affine ro apJ A b (vadd vo (vscale vo 1 x) (vscale vo 1 (neg d))) =
    vadd ro (affine ro apJ A b x) (vscale ro (-1) (apJ A d)).
  Proof.
    intros A b x d. unfold affine. rewrite apJ_add, !apJ_scale.
    apply (dot_ext ro rdot HR). intros v. dots. ring.
  Qed.
  Lemma affine_newton : forall A b x d, apJ A d = affine ro apJ A b x ->
    affine ro apJ A b (vadd vo (vscale vo 1 x) (vscale vo 1 (neg d))) = vzero ro.
  Proof.
    intros A b x d E. rewrite affine_step, E. apply (dot_ext ro rdot HR). intros v. dots. rewrite (dot_0_l _ _ HR). ring.
  Qed.
  Lemma jtr_lin_sub : forall j r s, n_jtr no j (vadd ro r (vscale ro (-1) s)) = vadd vo (n_jtr no j r) (vscale vo (-1) (n_jtr no j s)).
  Proof. intros j r s. apply (dot_ext vo dot HV). intros v. dots. rewrite !(nl_jtr _ _ _ _ _ HL). dots. reflexivity. Qed.
  Lemma affine_gn : forall A b x d, apH (n_jtj no A A) d = n_jtr no A (affine ro apJ A b x) ->
    n_jtr no A (affine ro apJ A b (vadd vo (vscale vo 1 x) (vscale vo 1 (neg d)))) = vzero vo.
  Proof.
    intros A b x d E. rewrite affine_step, jtr_lin_sub, <- E, (nl_jtj _ _ _ _ _ HL).
    apply (dot_ext vo dot HV). intros v. dots. rewrite (dot_0_l _ _ HV). ring.
  Qed.
  Lemma affine_gn_min : forall A b x d, apH (n_jtj no A A) d = n_jtr no A (affine ro apJ A b x) ->
    forall y, n_rnorm no (affine ro apJ A b (vadd vo (vscale vo 1 x) (vscale vo 1 (neg d)))) <= n_rnorm no (affine ro apJ A b y).
  Proof.
    intros A b x d E y.
    assert (K : forall c, affine ro apJ A b (vadd vo (vscale vo 1 x) (vscale vo 1 c)) = model_residual ro apJ A (affine ro apJ A b x) c).
    { intros c. unfold affine, model_residual. rewrite apJ_add, !apJ_scale. apply (dot_ext ro rdot HR). intros v. dots. ring. }
    rewrite K. replace (affine ro apJ A b y) with (model_residual ro apJ A (affine ro apJ A b x) (vadd vo y (vscale vo (-1) x))).
    - apply minimiser. exact E.
    - unfold affine, model_residual. rewrite apJ_add, apJ_scale. apply (dot_ext ro rdot HR). intros v. dots. ring.
  Qed.

  (** Levenberg-Marquardt: the denominator of the gain *)
  Lemma lm_denominator : forall j r mu d, apH (n_adddiag no (n_jtj no j j) mu) d = n_jtr no j r ->
    let c := neg d in let D := n_diagmul no (n_jtj no j j) in
    mu * dot c (D c) + dot c (n_jtr no j r) = - rdot (apJ j c) (apJ j c) /\
    predicted no ro apJ j r c = - (rdot (apJ j c) (apJ j c) / 2) - mu * dot c (D c).
  Proof.
    intros j r mu d E c D.
    assert (Dl : linear vo vo D) by apply (nl_diag_lin _ _ _ _ _ HL).
    assert (K : dot c (n_jtr no j r) = - rdot (apJ j c) (apJ j c) - mu * dot c (D c)).
    { rewrite <- E, (nl_adddiag _ _ _ _ _ HL). fold D. dots. subst c. rewrite apJ_scale, (lin_scale _ _ _ Dl). dots.
      rewrite (in_sym _ _ HV d (apH _ d)), jtj_dot. ring. }
    split; [lra|]. unfold predicted, half_square, model_residual. dots.
    rewrite (in_sym _ _ HV c), (nl_jtr _ _ _ _ _ HL) in K. rewrite (in_sym _ _ HR (apJ j c) r). lra.
  Qed.
End Exact.

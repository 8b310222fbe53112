(** C92 for matrices: independent columns are all that is needed. *)
From Coq Require Import Reals ZArith List Lra Lia.
From Verif Require Import Base RInst Laws LawInst NonlinDiag NonlinModel NonlinWp NonlinSpec NonlinLaws NonlinExact Tuples TupleMats QrModel QrSpec QrProofs QrSolve QrExts QrEnd
  NewtonSpec LmSpec LmProofs LmClaims.
Import ListNotations.
Local Open Scope R_scope.

Section Mats.
  Variable eps : R.
  Notation o := (Rops eps).
  Notation HF := (R_field eps).
  Notation dot := (tdot o).
  Lemma dot_cons n (a b : R) (v w : tup R n) : tdot o (n:=Datatypes.S n) (a, v) (b, w) = a * b + dot v w.
  Proof. reflexivity. Qed.
  Lemma apply_cons m n (a : tup R m) (A : mat (S:=R) m n) (x : R) (v : tup R n) :
    tapply o (n:=Datatypes.S n) (a, A) (x, v) = vadd (tvec o m) (vscale (tvec o m) x a) (tapply o A v).
  Proof. reflexivity. Qed.
  Lemma dot_r_add n (x y z : tup R n) : dot z (vadd (tvec o n) x y) = dot z x + dot z y.
  Proof. rewrite (tdot_sym o HF), (tdot_add o HF), !(tdot_sym o HF _ _ z). reflexivity. Qed.
  Lemma dot_r_scale n a (x z : tup R n) : dot z (vscale (tvec o n) a x) = a * dot z x.
  Proof. rewrite (tdot_sym o HF), (tdot_scale o HF), (tdot_sym o HF _ _ z). reflexivity. Qed.
  Lemma dot_r_zero n (z : tup R n) : dot z (vzero (tvec o n)) = 0.
  Proof. rewrite (tdot_sym o HF). apply (tdot_zero o HF). Qed.
  Lemma dot_sum n (x y : tup R n) : dot (vadd (tvec o n) x y) (vadd (tvec o n) x y) = dot x x + 2 * dot x y + dot y y.
  Proof. rewrite (tdot_add o HF), !dot_r_add, (tdot_sym o HF _ y x). change (sadd o) with Rplus. ring. Qed.
  Lemma dot_scaled n a (x : tup R n) : dot (vscale (tvec o n) a x) (vscale (tvec o n) a x) = a * a * dot x x.
  Proof. rewrite (tdot_scale o HF), dot_r_scale. change (smul o) with Rmult. ring. Qed.
  (** |x + y|^2 <= 2 |x|^2 + 2 |y|^2 *)
  Lemma dot_sum_le n (x y : tup R n) : dot (vadd (tvec o n) x y) (vadd (tvec o n) x y) <= 2 * dot x x + 2 * dot y y.
  Proof.
    pose proof (tdot_pos eps n (vadd (tvec o n) x (vscale (tvec o n) (- (1)) y))) as P. rewrite dot_sum, dot_scaled, dot_r_scale in P. rewrite dot_sum. lra.
  Qed.
  Lemma dot_cs n (x y : tup R n) : dot x y * dot x y <= dot x x * dot y y.
  Proof.
    destruct (Req_dec (dot y y) 0) as [E|E].
    - rewrite (tdot_zero_inv eps n y E), !dot_r_zero. lra.
    - pose proof (tdot_pos eps n y) as Py. assert (Hp : 0 < dot y y) by lra.
      pose proof (tdot_pos eps n (vadd (tvec o n) x (vscale (tvec o n) (- (dot x y / dot y y)) y))) as P.
      rewrite dot_sum, dot_scaled, dot_r_scale in P.
      assert (Q : dot x x + 2 * (- (dot x y / dot y y) * dot x y) + - (dot x y / dot y y) * - (dot x y / dot y y) * dot y y = dot x x - dot x y * dot x y / dot y y) by (field; lra).
      rewrite Q in P. apply (Rmult_le_reg_r (/ dot y y)); [apply Rinv_0_lt_compat, Hp|]. 
      replace (dot x x * dot y y * / dot y y) with (dot x x) by (field; lra). unfold Rdiv in P. lra.
  Qed.
  Lemma coordinates {X : Type} (q : X -> R) : (forall x, 0 <= q x) -> forall n (f : X -> tup R n),
    (forall e, exists C, 0 <= C /\ forall x, dot (f x) e * dot (f x) e <= C * q x) ->
    exists C, 0 <= C /\ forall x, dot (f x) (f x) <= C * q x.
  Proof.
    intros Hq. induction n as [|n IH]; intros f Hf.
    - exists 0. split; [lra|]. intros x. unfold tdot. cbn. rewrite Rmult_0_l. apply Rle_refl.
    - destruct (IH (fun x => snd (f x))) as (C & HC & H).
      + intros e. destruct (Hf (0, e)) as (C & HC & H). exists C. split; [exact HC|]. intros x. specialize (H x). destruct (f x) as [a v]. rewrite dot_cons in H. cbn [snd].
        replace (a * 0 + dot v e) with (dot v e) in H by ring. exact H.
      + destruct (Hf (1, vzero (tvec o n))) as (C1 & HC1 & H1). exists (C1 + C). split; [lra|]. intros x. specialize (H x). specialize (H1 x). destruct (f x) as [a v]. cbn [snd] in H.
        rewrite dot_cons, dot_r_zero in H1. rewrite dot_cons. lra.
  Qed.
  Lemma bounded_above m : forall n (A : mat (S:=R) m n), exists M, 0 <= M /\ forall v, dot (tapply o A v) (tapply o A v) <= M * dot v v.
  Proof.
    induction n as [|n IH]; intros A.
    - exists 0. split; [lra|]. intros v. cbn [tapply]. rewrite dot_r_zero. lra.
    - destruct A as [a A]. destruct (IH A) as (M & HM & H). exists (2 * dot a a + 2 * M). pose proof (tdot_pos eps m a) as Pa. split; [lra|].
      intros [x v]. rewrite apply_cons, dot_cons. eapply Rle_trans; [apply dot_sum_le|]. rewrite dot_scaled. specialize (H v).
      pose proof (tdot_pos eps n v) as Pv. pose proof (Rle_0_sqr x) as Px. unfold Rsqr in Px.
      pose proof (Rmult_le_pos _ _ Pa Pv). pose proof (Rmult_le_pos _ _ HM Px). lra.
  Qed.
  Notation full A := (forall v, tapply o A v = vzero (tvec o _) -> v = vzero (tvec o _)).
  Lemma gram m n (A : mat (S:=R) m n) v w : dot v (tapply o (tjtj o A A) w) = dot (tapply o A v) (tapply o A w).
  Proof. rewrite (tjtj_apply o HF), (tdot_sym o HF), (ttr_adjoint o HF), (tdot_sym o HF). reflexivity. Qed.
  Lemma gram_full m n (A : mat (S:=R) m n) : full A -> full (tjtj o A A).
  Proof. intros Hf v E. apply Hf, (tdot_zero_inv eps). rewrite <- gram, E. apply dot_r_zero. Qed.
  Lemma gram_onto m n (A : mat (S:=R) m n) : full A -> forall g, exists d, tapply o (tjtj o A A) d = g.
  Proof. intros Hf g. exact (square_onto eps n _ (gram_full m n A Hf) g). Qed.
  Lemma bounded_below m n (A : mat (S:=R) m n) : full A -> exists c, 0 < c /\ forall v, c * dot v v <= dot (tapply o A v) (tapply o A v).
  Proof.
    intros Hf. destruct (coordinates (fun v => dot (tapply o A v) (tapply o A v)) (fun v => tdot_pos eps m _) n (fun v => v)) as (C & HC & H).
    - intros e. destruct (gram_onto m n A Hf e) as [d E]. exists (dot (tapply o A d) (tapply o A d)). split; [apply tdot_pos|].
      intros v. rewrite <- E, gram. eapply Rle_trans; [apply dot_cs|]. apply Req_le. ring.
    - exists (/ (C + 1)). split; [apply Rinv_0_lt_compat; lra|]. intros v. specialize (H v). pose proof (tdot_pos eps m (tapply o A v)) as P.
      apply (Rmult_le_reg_l (C + 1)); [lra|]. rewrite <- Rmult_assoc, Rinv_r, Rmult_1_l by lra. lra.
  Qed.
  (** the squares of the lengths of the columns *)
  Definition weighted {m n} (A : mat (S:=R) m n) (v : tup R n) : R := dot v (tmap2 (smul o) v (tmap2 (tdot o) A A)).
  Lemma weighted_cons m n (a : tup R m) (A : mat (S:=R) m n) x v : weighted (n:=Datatypes.S n) (a, A) (x, v) = x * x * dot a a + weighted A v.
  Proof. unfold weighted. cbn [tmap2 fst snd]. rewrite dot_cons. change (smul o) with Rmult. ring. Qed.
  Lemma apply_zero m n (A : mat (S:=R) m n) : tapply o A (vzero (tvec o n)) = vzero (tvec o m).
  Proof. apply (lin_zero o); [apply (tvec_space o HF)|apply (tvec_space o HF)|apply (tapply_lin o HF)]. Qed.
  Lemma first_column m n (a : tup R m) (A : mat (S:=R) m n) : tapply o (n:=Datatypes.S n) (a, A) (1, vzero (tvec o n)) = a.
  Proof.
    pose proof (tvec_space o HF m) as HV. rewrite apply_cons, apply_zero. rewrite (va_comm _ _ HV), (va_0_l _ _ HV). apply (vs_1 _ _ HV).
  Qed.
  Lemma other_columns m n (a : tup R m) (A : mat (S:=R) m n) v : tapply o (n:=Datatypes.S n) (a, A) (0, v) = tapply o A v.
  Proof.
    pose proof (tvec_space o HF m) as HV. rewrite apply_cons, (vs_0 _ _ HV). apply (va_0_l _ _ HV).
  Qed.
  Lemma weighted_below m c : forall n (A : mat (S:=R) m n), (forall v, c * dot v v <= dot (tapply o A v) (tapply o A v)) -> forall v, c * dot v v <= weighted A v.
  Proof.
    induction n as [|n IH]; intros A H v; [unfold weighted, tdot; cbn; rewrite Rmult_0_r; apply Rle_refl|]. destruct A as [a A], v as [x v].
    rewrite weighted_cons, dot_cons. pose proof (H (1, vzero (tvec o n))) as H1. rewrite first_column, dot_cons, dot_r_zero in H1.
    assert (H2 : c * dot v v <= weighted A v).
    { apply IH. intros w. pose proof (H (0, w)) as H2. rewrite other_columns, dot_cons in H2. replace (0 * 0 + dot w w) with (dot w w) in H2 by ring. exact H2. }
    pose proof (Rle_0_sqr x) as Px. unfold Rsqr in Px. pose proof (Rmult_le_compat_l _ _ _ Px H1). lra.
  Qed.
  Lemma weighted_above m M : forall n (A : mat (S:=R) m n), (forall v, dot (tapply o A v) (tapply o A v) <= M * dot v v) -> forall v, weighted A v <= M * dot v v.
  Proof.
    induction n as [|n IH]; intros A H v; [unfold weighted, tdot; cbn; rewrite Rmult_0_r; apply Rle_refl|]. destruct A as [a A], v as [x v].
    rewrite weighted_cons, dot_cons. pose proof (H (1, vzero (tvec o n))) as H1. rewrite first_column, dot_cons, dot_r_zero in H1.
    assert (H2 : weighted A v <= M * dot v v).
    { apply IH. intros w. pose proof (H (0, w)) as H2. rewrite other_columns, dot_cons in H2. replace (0 * 0 + dot w w) with (dot w w) in H2 by ring. exact H2. }
    pose proof (Rle_0_sqr x) as Px. unfold Rsqr in Px. pose proof (Rmult_le_compat_l _ _ _ Px H1). lra.
  Qed.
  Lemma scaled_weighted m n (A : mat (S:=R) m n) v : scaled (tuple_ops o sqrt m n) A v = sqrt (weighted A v).
  Proof. unfold scaled, weighted. cbn [n_dot n_diagmul n_jtj tuple_ops]. rewrite (tdiag_jtj o). reflexivity. Qed.
  Lemma sq_2 a : 0 <= a -> (sqrt a) ^ 2 = a.
  Proof. intros Ha. cbn. rewrite Rmult_1_r. apply sqrt_sqrt, Ha. Qed.
  Lemma damped_onto m n (A : mat (S:=R) m n) mu : full A -> 0 < mu -> forall g, exists d, tapply o (tadddiag o mu (tjtj o A A)) d = g.
  Proof.
    intros Hf Hm g. apply square_onto. intros v E. cbn [n_vo tuple_ops]. rewrite (tadddiag_apply o HF) in E.
    apply (f_equal (fun z => dot v z)) in E. rewrite dot_r_add, dot_r_scale, gram, dot_r_zero, (tdiag_jtj o) in E. fold (weighted A v) in E.
    apply Hf, (tdot_zero_inv eps). pose proof (tdot_pos eps m (tapply o A v)) as P.
    assert (Q : 0 <= weighted A v).
    { pose proof (weighted_below m 0 n A (fun w => ltac:(rewrite Rmult_0_l; apply tdot_pos)) v) as Q. lra. }
    pose proof (Rmult_le_pos _ _ (Rlt_le _ _ Hm) Q). lra.
  Qed.
  Lemma matrices_lm m n (A : mat (S:=R) m n) (b : tup R m) : full A ->
    exists xs lam lo hi M, lm_problem (tuple_ops o sqrt m n) (tvec o m) (tapply o) (tapply o) A b xs lam /\ lm_sized (tuple_ops o sqrt m n) (tapply o) A lo hi M /\ 0 < hi.
  Proof.
    intros Hf. destruct (bounded_below m n A Hf) as (c & Hc & Bc). destruct (bounded_above m n A) as (M & HM & BM).
    destruct (gram_onto m n A Hf (vscale (tvec o n) (- (1)) (ttr o A b))) as [xs Exs].
    pose proof (weighted_below m c n A Bc) as Wc. pose proof (weighted_above m M n A BM) as WM.
    assert (Pos : forall v : tup R n, 0 <= dot v v) by apply tdot_pos.
    assert (Wp : forall v, 0 <= weighted A v) by (intros v; pose proof (Wc v); pose proof (Rmult_le_pos _ _ (Rlt_le _ _ Hc) (Pos v)); lra).
    exists xs, (c / (M + 1)), (sqrt c), (sqrt (M + 1)), (sqrt M).
    assert (Hl : 0 < c / (M + 1)) by (apply Rdiv_lt_0_compat; lra).
    split; [constructor|split].
    - exact Hl.
    - intros v. rewrite scaled_weighted, sq_2 by apply Wp. change (n_rnorm (tuple_ops o sqrt m n)) with (fun r : tup R m => sqrt (dot r r)). cbv beta. rewrite sq_2 by apply tdot_pos.
      eapply Rle_trans; [|apply Bc]. eapply Rle_trans; [apply Rmult_le_compat_l; [lra|apply WM]|].
      replace (c * dot v v) with (c / (M + 1) * ((M + 1) * dot v v)) by (field; lra). apply Rmult_le_compat_l; [lra|]. pose proof (Pos v). lra.
    - intros v E. rewrite scaled_weighted in E. apply sqrt_eq_0 in E; [|apply Wp]. apply (tdot_zero_inv eps). pose proof (Wc v) as K. pose proof (Pos v) as P. rewrite E in K.
      destruct P as [P|P]; [|symmetry; exact P]. pose proof (Rmult_lt_0_compat _ _ Hc P). lra.
    - intros mu g Hm. exact (damped_onto m n A mu Hf Hm g).
    - pose proof (ttr_lin o HF m n A) as L. pose proof (tvec_space o HF n) as HV. cbn [n_jtr n_vo tuple_ops]. unfold affine. rewrite (lin_add _ _ _ L), <- (tjtj_apply o HF), Exs.
      set (q := ttr o A b). rewrite <- (vs_1 _ _ HV q) at 2. rewrite <- (vs_add_l _ _ HV). change (sadd o) with Rplus. replace (- (1) + s1 o) with (s0 o) by (cbn; ring). apply (vs_0 _ _ HV).
    - split; [apply sqrt_lt_R0, Hc|]. split; [apply R_sqrt.sqrt_pos|]. split; [apply R_sqrt.sqrt_pos|]. intros v. rewrite scaled_weighted. cbn [n_norm n_rnorm tuple_ops].
      rewrite <- !sqrt_mult_alt by lra. split; [apply sqrt_le_1_alt, Wc|]. split; apply sqrt_le_1_alt; [|apply BM]. pose proof (WM v). pose proof (Pos v). lra.
    - apply sqrt_lt_R0. lra.
  Qed.
End Mats.

(** The solution [xs] and the factor [C] depend on the matrix (and [xs] on b) only; [N] on the starting state, tolerance, criterion and schedule too. *)
Lemma lm_matrices : forall (eps : R) (m n : nat) (A : mat (S:=R) m n) (b : tup R m),
  let o := Rops eps in let no := tuple_ops o sqrt m n in let F := affine (tvec o m) (tapply o) A b in
  (forall v, tapply o A v = vzero (tvec o m) -> v = vzero (tvec o n)) ->
  exists (xs : tup R n) (C : R), (forall v, n_rnorm no (F xs) <= n_rnorm no (F v)) /\
  forall (L W : Type) (xt : exts (tup R n) (tup R m) (mat (S:=R) m n) (mat (S:=R) n n) L)
    (rj : tup R n -> tup R m -> option (mat (S:=R) m n) -> W -> outcome unit * (tup R m * option (mat (S:=R) m n) * W)),
  computes rj F (fun _ => A) ->
  forall wr wj, weights_ok xt wr wj nothing ->
  linear_ok xt (if_solvable (normal_exact (tapply o))) (if_solvable (qr_exact no (tapply o))) (if_solvable (newton_exact (tapply o))) nothing ->
  forall st u tol x0, st = WhenAbsCorrection \/ st = WhenAbsGradient -> u = ULMSchedule1 \/ u = ULMSchedule2 -> 0 < tol -> exists N : nat,
  forall (cf : config R) (s : reg R (tup R n) (tup R m) (mat (S:=R) m n) (mat (S:=R) n n) L) (w : W) (r : outcome unit) s' (w' : W),
  f_stop cf = st -> f_update cf = u -> f_tol cf = tol -> ls_object o s -> g_x s = x0 -> (Z.of_nat N < f_max cf < int32_max)%Z ->
  exec rj (ls_solve o no xt LevMar cf) (s, w) = (r, (s', w')) ->
  r = Ok tt /\ apart no (g_x s') xs <= C * tol /\
  exists a l, g_log s' = g_log s ++ a ++ [l] /\ l_state l = g_x s' /\ line_met o cf l /\ (length a <= N)%nat.
Proof.
  intros eps m n A b o no F Hf. destruct (matrices_lm eps m n A b Hf) as (xs & lam & lo & hi & M & HP & HS & Hhi).
  pose proof HS as (Hlo & _ & HM & Hv). pose proof (lp_lam _ _ _ _ _ _ _ _ HP) as Hlam.
  exists xs, ((hi * (1 + 1 / lam) + 1 / (lam * lo)) / lo). split.
  - intros v. pose proof (lp_solution _ _ _ _ _ _ _ _ HP) as E. unfold F, no, o in *. clear - E eps. cbn [n_rnorm tuple_ops n_jtr n_vo] in *. apply sqrt_le_1_alt.
    set (o := Rops eps) in *. set (r := affine (tvec o m) (tapply o) A b xs) in *. pose proof (tvec_space o (R_field eps) m) as HV. pose proof (tvec_space o (R_field eps) n) as HX.
    assert (K : affine (tvec o m) (tapply o) A b v = vadd (tvec o m) r (tapply o A (vadd (tvec o n) v (vscale (tvec o n) (- (1)) xs)))).
    { unfold r, affine. pose proof (tapply_lin o (R_field eps) m n A) as LA. rewrite (lin_add _ _ _ LA), (lin_scale _ _ _ LA).
      pose (y := tapply o A xs). pose (z := tapply o A v). pose (bb := b). change (vadd (tvec o m) z bb = vadd (tvec o m) (vadd (tvec o m) y bb) (vadd (tvec o m) z (vscale (tvec o m) (- (1)) y))).
      clearbody y z bb. assert (R1 : vadd (tvec o m) y (vscale (tvec o m) (- (1)) y) = vzero (tvec o m)).
      { rewrite <- (vs_1 _ _ HV y) at 1. rewrite <- (vs_add_l _ _ HV). replace (sadd o (s1 o) (- (1))) with (s0 o) by (cbn; ring). apply (vs_0 _ _ HV). }
      rewrite (va_comm _ _ HV y bb), <- (va_assoc _ _ HV), (va_comm _ _ HV z (vscale _ _ _)), (va_assoc _ _ HV y), R1, (va_0_l _ _ HV). apply (va_comm _ _ HV). }
    rewrite K. unfold o. rewrite dot_sum. fold o. set (d := vadd (tvec o n) v _). pose proof (ttr_adjoint o (R_field eps) m n A r d) as Q. rewrite E, (tdot_zero o (R_field eps)) in Q.
    rewrite <- Q. pose proof (tdot_pos eps m (tapply o A d)) as P. fold o in P. change (s0 o) with 0. lra.
  - intros L W xt rj Hc wr wj Hw Hl st u tol x0 Hst Hu Ht.
    set (near := match st with WhenAbsCorrection => 2 / lo | _ => M ^ 2 / lo end).
    set (far := match st with WhenAbsCorrection => hi * (1 + 1 / lam) | _ => 1 / (lam * lo) end).
    destruct (proj2 (lm_every_tolerance u lam (scaled no A (from no xs x0)) near tol Hlam Ht)) as [N HN]. exists N.
    intros cf s w r s' w' E1 E2 E3 Ho E4 Hmax E.
    assert (Hu' : f_update cf = ULMSchedule1 \/ f_update cf = ULMSchedule2) by (rewrite E2; exact Hu).
    destruct (@lm_converges eps _ _ _ _ _ _ no (tvec o m) (tapply o) (tapply o) (tuple_laws eps m n) xt rj A b Hc wr wj Hw Hl xs lam HP cf s w r s' w' Ho Hu' ltac:(lia) E) as (ls & _ & Er & _).
    split; [exact Er|].
    destruct (@lm_finds eps _ _ _ _ _ _ no (tvec o m) (tapply o) (tapply o) (tuple_laws eps m n) xt rj A b Hc wr wj Hw Hl xs lam HP cf s w r s' w' Ho Hu' ltac:(lia) E lo hi M near far HS) with (n := N)
      as (a & l & K1 & K2 & K3 & K4 & K5).
    + rewrite E1. unfold lm_judged, near, far. destruct Hst as [-> | ->]; split; reflexivity.
    + rewrite E2, E3, E4. exact HN.
    + lia.
    + split; [|exists a, l; repeat split; assumption].
      unfold apart. destruct (Hv (from no xs (g_x s'))) as (V1 & _). rewrite E3 in K5.
      assert (F1 : far <= hi * (1 + 1 / lam) + 1 / (lam * lo)).
      { assert (0 < 1 / lam) by (apply Rdiv_lt_0_compat; lra). assert (0 < 1 / (lam * lo)) by (apply Rdiv_lt_0_compat; [lra|apply Rmult_lt_0_compat; assumption]).
        assert (0 < hi * (1 + 1 / lam)) by (apply Rmult_lt_0_compat; lra). unfold far. destruct Hst as [-> | ->]; lra. }
      apply (Rmult_le_reg_l lo); [exact Hlo|]. eapply Rle_trans; [exact V1|]. eapply Rle_trans; [exact K5|].
      eapply Rle_trans; [apply Rmult_le_compat_r; [lra|exact F1]|]. apply Req_le. field. lra.
Qed.

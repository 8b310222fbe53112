(** Nonlinear solvers and implicit steppers with the linear solver objects of the library. *)
From Coq Require Import Reals ZArith List Arith Lia Lra Bool.
From Verif Require Import Base RInst Laws LawInst AdvanceModel AdvanceSpec AdvanceProofs TargetProofs Track ExplicitModel ImplicitModel ImplicitSpec
  NonlinDiag NonlinModel NonlinWp NonlinDiagProofs NonlinSpec NonlinRuns NonlinProofs NonlinSolve NonlinLines NonlinClaims NonlinSeq NonlinFollow
  NonlinLaws NonlinExact NonlinReal NonlinTheory NonlinRest NonlinMoreSpec Tuples QrModel QrSpec QrProofs QrSolve QrExts QrEnd
  StabilitySpec LinRunSpec LinRunClaims TupleMats LinsolveModel LinsolveSpec LinsolveProofs LinGlue LinGlueProofs.
Import ListNotations.
Local Open Scope R_scope.

Section Objects.
  Variable eps : R.
  Notation o := (Rops eps).
  Variable lp : lapack R.
  Hypothesis HL : lapack_ok o lp.
  Variable n : nat.
  Hypothesis Hn : (0 < n)%nat.
  Lemma getrs_serves : serves eps n any_matrix (fun _ => True) (getrs_object eps lp).
  Proof.
    split; [exact Hn|]. intros x A b y _ Hs. unfold getrs_object, getrs_solve. rewrite to_aux_ok. cbn [andthen].
    unfold getrs_overwrite. rewrite (size_checks_ok false n) by exact Hs.
    destruct Hs as (H0 & H1 & H2 & H3 & H4). cbn [andthen rows cols ent].
    rewrite (proj2 (Nat.eqb_neq (rows A) 0)) by lia.
    destruct (lp_getrf lp (rows A) (ent A)) as [[d p] info] eqn:E. rewrite H1 in E.
    destruct (lo_getrf _ _ HL _ _ _ _ _ E) as [Hi Hsol].
    unfold check, vdeep_copy. rewrite andb_false_r. cbn [andthen size at_]. rewrite H3, H4, Nat.eqb_refl. cbn [andthen size at_].
    rewrite H1, Nat.ltb_irrefl. eexists. eexists. split; [reflexivity|]. split; [exact I|]. split; [reflexivity|].
    intros HN _. cbn. apply Hsol. apply Hi. exact HN.
  Qed.
  Lemma potrs_serves : forall up, serves eps n (spd eps n) (fun _ => True) (potrs_object eps lp up).
  Proof.
    intros up. split; [exact Hn|]. intros x A b y _ Hs. unfold potrs_object.
    destruct (potrs_release o lp false up x n A b y eq_refl Hs) as (x' & y' & E). exists x', y'. split; [exact E|]. split; [exact I|].
    assert (K : size y' = n).
    { revert E. unfold potrs_solve. rewrite to_aux_ok. cbn [andthen]. unfold potrs_overwrite. rewrite (size_checks_ok false n) by exact Hs.
      destruct Hs as (H0 & H1 & H2 & H3 & H4). cbn [andthen rows cols ent].
    rewrite (proj2 (Nat.eqb_neq (rows A) 0)) by lia.
      destruct (lp_potrf lp up (rows A) (ent A)) as [d info].
      unfold check, vdeep_copy. rewrite andb_false_r. cbn [andthen size at_]. rewrite H3, H4, Nat.eqb_refl. cbn [andthen size at_].
      rewrite H1, Nat.ltb_irrefl. intros E. injection E as _ <-. reflexivity. }
    split; [exact K|]. intros _ [Hsy HP].
    destruct (potrs_reuse o lp HL false up x n A b y Hs Hsy HP) as (x1 & y1 & E1 & _ & E2). rewrite E in E1. injection E1 as _ <-. exact E2.
  Qed.
  Lemma geqrf_serves : serves eps n any_matrix (geqrf_fit n) (geqrf_object eps lp).
  Proof.
    split; [exact Hn|]. intros x A b y Hx Hs. unfold geqrf_object, geqrf_solve. rewrite to_aux_ok. cbn [andthen].
    unfold geqrf_overwrite. rewrite (size_checks_ok false n) by exact Hs.
    destruct Hs as (H0 & H1 & H2 & H3 & H4). cbn [andthen rows cols ent].
    rewrite (proj2 (Nat.eqb_neq (rows A) 0)) by lia.
    destruct Hx as [Hw|Hw].
    - rewrite Hw, Z.eqb_refl. unfold geqrf_call at 1. rewrite Z.eqb_refl. cbn [andthen fst snd].
      rewrite H1. rewrite (geqrf_call_ok lp) by apply (lo_optimal _ _ HL). cbn [andthen].
      unfold check, vdeep_copy. cbn [Z.eqb negb andb andthen size at_]. rewrite H3, H4, Nat.eqb_refl. cbn [andthen size at_].
      rewrite Nat.ltb_irrefl. cbn [negb andb andthen size at_]. eexists. eexists. split; [reflexivity|].
      split; [right; cbn [go_lwork]; apply Nat2Z.inj_le; apply (lo_optimal _ _ HL)|]. split; [reflexivity|]. intros HN _. cbn.
      destruct (lp_geqrf lp n (ent A)) as [d t] eqn:E. cbn. apply (qr_solves o lp HL); assumption.
    - rewrite (proj2 (Z.eqb_neq (go_lwork x) (-1))) by lia. cbn [andthen fst snd].
      replace (go_lwork x) with (Z.of_nat (Z.to_nat (go_lwork x))) by lia.
      rewrite H1. rewrite (geqrf_call_ok lp) by lia. cbn [andthen].
      unfold check, vdeep_copy. cbn [Z.eqb negb andb andthen size at_]. rewrite H3, H4, Nat.eqb_refl. cbn [andthen size at_].
      rewrite Nat.ltb_irrefl. cbn [negb andb andthen size at_]. eexists. eexists. split; [reflexivity|].
      split; [right; cbn [go_lwork]; lia|]. split; [reflexivity|]. intros HN _. cbn.
      destruct (lp_geqrf lp n (ent A)) as [d t] eqn:E. cbn. apply (qr_solves o lp HL); assumption.
  Qed.
End Objects.
Lemma eigen_serves : forall (eps : R) F (d_compute : mtx R -> F) (d_solve : F -> vct R -> vct R), factorises eps d_compute d_solve ->
  forall n, (0 < n)%nat -> serves eps n any_matrix (fun _ => True) (eigen_object d_compute d_solve).
Proof.
  intros eps F dc ds HF n Hn. split; [exact Hn|]. intros x A b y _ (H0 & H1 & H2 & H3 & H4). destruct (HF n A b H1 H2 H3) as [K1 K2].
  exists (Some (dc A)), (ds (dc A) b). split; [reflexivity|]. split; [exact I|]. split; [exact K1|]. intros HN _. exact (K2 HN).
Qed.

(** Gauss-Newton with a linear solver that is only good for J^T J *)
Section Affine.
  Context {eps : R} {V Rs J H L W : Type}.
  Notation o := (Rops eps).
  Variable no : nlops R V Rs J H.
  Variable ro : vops R Rs.
  Variable apJ : J -> V -> Rs.
  Variable apH : H -> V -> V.
  Hypothesis HL : nl_laws eps no ro apJ apH.
  Variable xt : exts V Rs J H L.
  Notation info := (info R V Rs J).
  Notation vo := (n_vo no).
  Variable rj : V -> Rs -> option J -> W -> outcome unit * (Rs * option J * W).
  Variable A : J.
  Variable b : Rs.
  Notation F := (affine ro apJ A b).
  Hypothesis Hc : computes rj F (fun _ => A).
  Variable glin : H -> V -> V -> Prop.
  Variable gnewt : J -> Rs -> V -> Prop.
  Hypothesis Hlin : linear_ok xt glin (if_solvable (qr_exact no apJ)) gnewt nothing.
  Hypothesis Hgl : forall g d, glin (n_jtj no A A) g d -> if_solvable (normal_exact apH) (n_jtj no A A) g d.
  Hypothesis Hf : full_rank no ro apJ A.
  Let HV := nl_v _ _ _ _ _ HL.
  Let HR := nl_r _ _ _ _ _ HL.
  Notation grF := (fun y r => r = F y).
  Notation gjF := (fun (y : V) j => j = A).
  Variable wr : Rs -> Rs.
  Variable wj : J -> J.
  Hypothesis Hw : weights_ok xt wr wj nothing.
  Lemma gn_affine_on : forall tag cf s w r s' w',
    (forall r, exists d, match tag with GaussNewtonQr => qr_exact no apJ A r d
                         | _ => normal_exact apH (n_jtj no A A) (n_jtr no A r) d end) ->
    ls_object o s -> (tag = GaussNewton \/ tag = GaussNewtonQr) ->
    f_update cf = UStandard ->
    (f_stop cf = WhenAbsCorrection \/ f_stop cf = WhenRelCorrection \/ f_stop cf = WhenAbsGradient \/ f_stop cf = WhenRelGradient) ->
    0 < f_tol cf -> (2 <= f_max cf < int32_max)%Z ->
    exec rj (ls_solve o no xt tag cf) (s, w) = (r, (s', w')) ->
    exists ls, g_log s' = g_log s ++ ls /\ r = Ok tt /\
      ((length ls = 1%nat /\ g_x s' = g_x s) \/
       (length ls = 2%nat /\ forall y, n_rnorm no (F (g_x s')) <= n_rnorm no (F y))) /\
      exists a l, ls = a ++ [l] /\ l_state l = g_x s' /\ line_met o cf l.
  Proof.
    intros tag cf s w r s' w' Hsolv Ho Htag Hu Hstop Ht Hmax E.
    assert (Hs : ls_supported tag cf) by (unfold ls_supported; rewrite Hu; exact I).
    pose proof (ls_solve_ok o no xt (graph rj) wr wj _ _ _ _ _ _ _ (computes_ok rj _ _ Hc) Hw Hlin (ten_ends _ _ (ten_R eps)) none_linesearch tag cf s w Ho Hs) as K.
    pose proof (tri_exec _ _ _ _ _ _ _ _ _ _ _ _ _ _ K E) as [K1 [ls [K2 K3]]].
    assert (Hnorm : forall i, ls_valid no wr wj grF gjF glin (if_solvable (qr_exact no apJ)) tag i ->
      apH (n_jtj no A A) (i_d i) = n_jtr no A (F (i_x i))).
    { intros i [V1 [V2 V3]]. cbv beta in V1, V2. rewrite <- V1. rewrite V2 in V3. destruct Htag as [-> | ->].
      - exact (solved_normal _ _ _ _ HL A _ _ Hf (Hsolv _) (Hgl _ _ V3)).
      - apply (qr_normal _ _ _ _ HL). exact (solved_qr _ _ _ _ HL A _ _ Hf (Hsolv _) V3). }
    exists ls. split; [exact K2|].
    eapply one_correction with (good := fun x => n_jtr no A (F x) = vzero vo /\ forall y, n_rnorm no (F x) <= n_rnorm no (F y)) in K3.
    - destruct K3 as [R1 [R2 R3]]. split; [exact R1|]. split; [|exact R3]. destruct R2 as [R2|[R2 [_ R4]]]; [left; exact R2|right; auto].
    - cbv beta. intros i q Hv M. unfold ls_move in M. rewrite Hu in M. unfold move_full in M. subst q. cbn [fst]. specialize (Hnorm i Hv). split.
      + exact (affine_gn _ _ _ _ HL A b (i_x i) (i_d i) Hnorm).
      + exact (affine_gn_min _ _ _ _ HL A b (i_x i) (i_d i) Hnorm).
    - cbv beta. intros i m1 k Hv [Hg _]. specialize (Hnorm i Hv). rewrite Hg in Hnorm.
      assert (Hd : i_d i = vzero vo).
      { apply (normal_unique _ _ _ _ HL A (vzero vo)); [exact Hf|exact Hnorm|].
        apply (dot_ext vo _ HV). intros v. rewrite (jtj_dot _ _ _ _ HL), (dot_0_l _ _ HV).
        rewrite <- (vs_0 _ _ (in_space _ _ HV) (vzero vo)), (apJ_scale _ _ _ _ HL), (in_scale _ _ HR). change (s0 o) with 0. ring. }
      assert (Ec : i_c o no i = vzero vo) by (unfold i_c; rewrite Hd; exact (neg_zero no ro apJ apH HL)).
      destruct Hv as [V1 [V2 _]]. cbv beta in V1, V2.
      assert (Eg : n_norm no (ls_gradient no wr wj tag (i_j i) (i_r i)) = 0).
      { replace (ls_gradient no wr wj tag (i_j i) (i_r i)) with (vzero vo); [exact (norm_zero no ro apJ apH HL)|].
        rewrite V1, V2. destruct Htag as [-> | ->]; symmetry; exact Hg. }
      unfold met. destruct Hstop as [-> |[-> |[-> | ->]]]; cbn [reading ls_meas m_corr m_res m_grad m_obj];
        rewrite ?Ec, ?(norm_zero no ro apJ apH HL), ?Eg; change (sltb o) with Rltb; change (sdiv o) with Rdiv; apply zero_below; try exact Ht; exact 1.
    - unfold line_search_stuck. rewrite Hu. auto.
    - unfold trial_failures. rewrite Hu. auto.
    - apply ls_named.
    - exact Hmax.
  Qed.
End Affine.

Lemma linear_weaken : forall V Rs J H L (xt : exts V Rs J H L) (g1 g1' : H -> V -> V -> Prop) (g2 g2' g3 g3' : J -> Rs -> V -> Prop) fl,
  (forall a b c, g1 a b c -> g1' a b c) -> (forall a b c, g2 a b c -> g2' a b c) -> (forall a b c, g3 a b c -> g3' a b c) ->
  linear_ok xt g1 g2 g3 fl -> linear_ok xt g1' g2' g3' fl.
Proof.
  intros V Rs J H L xt g1 g1' g2 g2' g3 g3' fl H1 H2 H3 [A1 A2 A3 A4 A5 A6 A7 A8]. split; try assumption.
  - intros. eapply H1, A1; eassumption.
  - intros. eapply H2, A2; eassumption.
  - intros. eapply H3, A3; eassumption.
Qed.

Section Spd.
  Variable eps : R.
  Notation o := (Rops eps).
  Lemma tdot_ssum : forall n (v w : tup R n), tdot o v w = ssum o n 0 (fun i => nth i (tlist v) 0 * nth i (tlist w) 0).
  Proof.
    unfold tdot. induction n as [|n IH]; intros v w; [reflexivity|]. cbn [tmap2 tsum ssum fst snd]. rewrite ssum_shift, IH. reflexivity.
  Qed.
  Lemma tmap_nth : forall A B (f : A -> B) n (v : tup A n) i d e, (i < n)%nat -> nth i (tlist (tmap f v)) e = f (nth i (tlist v) d).
  Proof. intros A B f. induction n as [|n IH]; intros v i d e Hi; [lia|]. destruct i as [|i]; [reflexivity|]. cbn. apply IH. lia. Qed.
  Lemma jtj_ent : forall m n (a : mat (S:=R) m n) i j, (i < n)%nat -> (j < n)%nat ->
    ent (as_mtx (tjtj o a a)) i j = tdot o (nth i (tlist a) (tconst 0 m)) (nth j (tlist a) (tconst 0 m)).
  Proof.
    intros m n a i j Hi Hj. cbn [as_mtx ent]. unfold tjtj. rewrite (tmap_nth _ _ _ _ _ _ (tconst 0 m)) by exact Hj.
    unfold ttr. rewrite (tmap_nth _ _ _ _ _ _ (tconst 0 m)) by exact Hi. reflexivity.
  Qed.
  Lemma jtj_spd : forall m n (a : mat (S:=R) m n), full_rank (tuple_ops o sqrt m n) (tvec o m) (tapply o) a ->
    spd eps n (ent (as_mtx (tjtj o a a))).
  Proof.
    intros m n a Hf. split.
    - intros i j Hi Hj. rewrite !jtj_ent by assumption. apply (in_sym _ _ (tuple_inner eps m)).
    - intros y (i & Hi & Hy). set (v := of_vct n (mk_vct n y)).
      assert (E : ssum o n 0 (fun i => smul o (y i) (ssum o n 0 (fun j => smul o (ent (as_mtx (tjtj o a a)) i j) (y j)))) = tdot o v (tapply o (tjtj o a a) v)).
      { rewrite tdot_ssum. apply ssum_ext. intros k Hk. unfold v at 1. rewrite of_vct_nth by lia. cbn [at_]. rewrite entries by lia. cbn [smul Rops]. f_equal.
        apply ssum_ext. intros l Hl. unfold v. rewrite of_vct_nth by lia. reflexivity. }
      rewrite E. change (sltb o) with Rltb. apply Rltb_true. change (s0 o) with 0.
      pose proof (tuple_laws eps m n) as HL.
      pose proof (nl_jtj _ _ _ _ _ HL a a v) as E1. cbn [n_jtj n_jtr tuple_ops] in E1. rewrite E1.
      pose proof (nl_jtr _ _ _ _ _ HL a (tapply o a v) v) as E2. cbn [n_dot n_rdot n_jtr tuple_ops] in E2.
      rewrite (in_sym _ _ (tuple_inner eps n)), E2.
      destruct (Req_dec (tdot o (tapply o a v) (tapply o a v)) 0) as [Z|Z].
      + exfalso. apply Hy. apply (in_zero _ _ (tuple_inner eps m)) in Z. apply Hf in Z. cbn [n_vo tuple_ops] in Z.
        pose proof (f_equal (fun x => nth i (tlist x) 0) Z) as K. cbv beta in K. unfold v in K. rewrite of_vct_nth in K by exact Hi.
        cbn [at_ vzero tvec] in K. change (s0 o) with 0 in *. rewrite nth_const in K. exact K.
      + pose proof (in_pos _ _ (tuple_inner eps m) (tapply o a v)). lra.
  Qed.
End Spd.

Section Runs.
  Variable eps : R.
  Notation o := (Rops eps).
  Variable n : nat.
  Variable X : Type.
  Variable asked : (nat -> nat -> R) -> Prop.
  Variable fit : X -> Prop.
  Variable slv : solver X.
  Hypothesis HS : serves eps n asked fit slv.
  Lemma root_exts_linear : (forall M, asked M) -> forall L (xt : exts (tup R n) (tup R n) (mat (S:=R) n n) (mat (S:=R) n n) L) glin gqr gnewt,
    linear_ok xt glin gqr gnewt nothing ->
    linear_ok (root_exts HS xt) glin gqr (if_solvable (newton_exact (tapply o))) nothing.
  Proof.
    intros Ha L xt glin gqr gnewt HK. eapply linear_weaken; [intros ? ? ? h; exact h|intros ? ? ? h; exact h| |exact (root_linear eps n X asked fit slv HS L xt glin gqr gnewt nothing HK)].
    intros j r d K. apply K. apply Ha.
  Qed.
  Lemma ls_exts_linear : (forall M, asked M) -> forall m L (xt : exts (tup R n) (tup R m) (mat (S:=R) m n) (mat (S:=R) n n) L) glin gqr gnewt,
    linear_ok xt glin gqr gnewt nothing ->
    linear_ok (ls_exts HS xt) (if_solvable (normal_exact (tapply o))) gqr gnewt nothing.
  Proof.
    intros Ha m L xt glin gqr gnewt HK. eapply linear_weaken; [|intros ? ? ? h; exact h|intros ? ? ? h; exact h|exact (ls_linear eps n X asked fit slv HS m L xt glin gqr gnewt nothing HK)].
    intros j r d K. apply K. apply Ha.
  Qed.
  Lemma newton_served : (forall M, asked M) ->
    forall wr wj W (rj : tup R n -> tup R n -> option (mat (S:=R) n n) -> W -> outcome unit * (tup R n * option (mat (S:=R) n n) * W))
      (A : mat (S:=R) n n) (b : tup R n),
    let F := affine (tvec o n) (tapply o) A b in
    computes rj F (fun _ => A) -> nonsingular o n (ent (as_mtx A)) ->
    forall cf (s : reg R (tup R n) (tup R n) (mat (S:=R) n n) (mat (S:=R) n n) ({x | fit x} * object eps n n)) (w : W) r s' w',
    root_object o s -> root_supported cf -> f_update cf = UStandard -> 0 < f_tol cf -> (2 <= f_max cf < int32_max)%Z ->
    exec rj (root_solve o (tuple_ops o sqrt n n) (root_exts HS (mgs_exts eps n n wr wj false)) cf) (s, w) = (r, (s', w')) ->
    exists ls, g_log s' = g_log s ++ ls /\ r = Ok tt /\
      ((length ls = 1%nat /\ g_x s' = g_x s) \/ (length ls = 2%nat /\ F (g_x s') = vzero (tvec o n))) /\
      exists a l, ls = a ++ [l] /\ l_state l = g_x s' /\ line_met o cf l.
  Proof.
    intros Ha wr wj W rj A b F Hc Hn cf s w r s' w' Ho Hs Hu Ht Hmax E.
    assert (Hf : full_rank (tuple_ops o sqrt n n) (tvec o n) (tapply o) A) by exact (proj1 (nonsingular_rank eps n A) Hn).
    exact (newton_affine _ (tvec o n) (tapply o) (tapply o) (tuple_laws eps n n) _ rj A b Hc
      (root_exts_linear Ha _ _ _ _ _ (mgs_linear eps n n wr wj)) Hf cf s w r s' w' (square_onto eps n A Hf) Ho Hs Hu Ht Hmax E).
  Qed.
  Lemma gauss_newton_served : (forall M, spd eps n M -> asked M) ->
    forall m wr wj W (rj : tup R n -> tup R m -> option (mat (S:=R) m n) -> W -> outcome unit * (tup R m * option (mat (S:=R) m n) * W))
      (A : mat (S:=R) m n) (b : tup R m),
    let F := affine (tvec o m) (tapply o) A b in let no := tuple_ops o sqrt m n in
    computes rj F (fun _ => A) -> full_rank no (tvec o m) (tapply o) A ->
    forall cf (s : reg R (tup R n) (tup R m) (mat (S:=R) m n) (mat (S:=R) n n) ({x | fit x} * object eps m n)) (w : W) r s' w',
    ls_object o s -> f_update cf = UStandard ->
    f_stop cf = WhenAbsCorrection \/ f_stop cf = WhenRelCorrection \/ f_stop cf = WhenAbsGradient \/ f_stop cf = WhenRelGradient ->
    0 < f_tol cf -> (2 <= f_max cf < int32_max)%Z ->
    exec rj (ls_solve o no (ls_exts HS (mgs_exts eps m n wr wj false)) GaussNewton cf) (s, w) = (r, (s', w')) ->
    exists ls, g_log s' = g_log s ++ ls /\ r = Ok tt /\
      ((length ls = 1%nat /\ g_x s' = g_x s) \/ (length ls = 2%nat /\ forall y, n_rnorm no (F (g_x s')) <= n_rnorm no (F y))) /\
      exists a l, ls = a ++ [l] /\ l_state l = g_x s' /\ line_met o cf l.
  Proof.
    intros Ha m wr wj W rj A b F no Hc Hf cf s w r s' w' Ho Hu Hst Ht Hmax E.
    refine (gn_affine_on no (tvec o m) (tapply o) (tapply o) (tuple_laws eps m n) _ rj A b Hc _ _
      (ls_linear eps n X asked fit slv HS m _ _ _ _ _ _ (mgs_linear eps m n wr wj)) _ Hf wr wj
      (ls_weights eps n X asked fit slv HS m _ _ _ _ _ (mgs_weights eps m n wr wj false)) GaussNewton cf s w r s' w' _ Ho (or_introl eq_refl) Hu Hst Ht Hmax E).
    - intros g d K. apply K. apply Ha. exact (jtj_spd eps m n A Hf).
    - assert (K : forall r0, exists d, qr_exact no (tapply o) A r0 d).
      { intros r0. eexists. apply solution_qr. apply diag_of_indep. apply (proj1 (full_rank_indep eps m n A)). exact Hf. }
      intros r0. destruct (K r0) as [d Hd]. exists d.
      exact (qr_normal no (tvec o m) (tapply o) (tapply o) (tuple_laws eps m n) A r0 d Hd).
  Qed.
End Runs.

Lemma nonsingular_invertible : forall eps n (K : mat (S:=R) n n), nonsingular (Rops eps) n (ent (as_mtx K)) ->
  invertible (tvec (Rops eps) n) (tapply (Rops eps)) K.
Proof. intros eps n K Hn. pose proof (proj1 (nonsingular_rank eps n K) Hn) as Hf. split; [exact Hf|]. exact (square_onto eps n K Hf). Qed.
Lemma served_n_steps :
  forall (eps : R) (n : nat) (X : Type) (asked : (nat -> nat -> R) -> Prop) (fit : X -> Prop) (slv : solver X) (HS : serves eps n asked fit slv),
  (forall M, asked M) ->
  forall (W U : Type) wr wj,
  let o := Rops eps in let vo := tvec o n in let ap := tapply o (m:=n) (n:=n) in let jo := mat_ops eps n n in let jid := tid n in
  let no := tuple_ops o sqrt n n in let xt := root_exts HS (mgs_exts eps n n wr wj false) in
  forall cf, newton_settings cf ->
  forall (u : isys (S:=R) (V:=tup R n) (J:=mat (S:=R) n n) (W:=W)) (A : R -> mat (S:=R) n n) (b : R -> tup R n),
  linear_user vo ap u A b -> forall name,
  forall (obs : Z -> R -> tup R n -> U -> outcome unit * U) cs cr w0 x0 ws g0,
  root_object o ws -> implicit_create o name cs cr (mk_ppol (-1) w0) x0 ws = Ok g0 ->
  let f := linear_rhs vo ap A b in
  let step := implicit_step o (policy_std o vo jo jid u) (as_solver (root_solve o no xt cf)) name in
  let regular := fun past t dt => nonsingular o n (ent (as_mtx (step_matrix o jo (fun _ => jid) A name past t dt))) in
  let scheme := scheme_step o vo f name in
  forall pol num start y0 w, (Z.of_nat num < int32_max)%Z ->
  (forall k t y u, fst (obs k t y u) = Ok tt) -> (forall k t d u, exists dt, fst (pol k t d u) = Ok dt) ->
  exists y' g' w' tr l,
    advance_n_steps o (mk_user (split_obs obs) (pol3 (split_pol pol)) noop_guess (split_step (implicit_fn step)))
      (Z.of_nat num) start (y0, (g0, w), []) = (Ok tt, (y', (g', w'), tr)) /\
    length l = Datatypes.S num /\ reports tr = numbered l /\ hd y0 (map snd l) = y' /\
    linked_from Rplus (fun past t dt y => regular past t dt -> scheme past t dt y) start y0 l /\
    (forall m, linked_from Rplus (fun past t dt y => regular past t dt /\ scheme past t dt y) start y0 m ->
       map fst (numbered m) = map fst (reports tr) -> reports tr = numbered m).
Proof.
  intros eps n X asked fit slv HS Ha W U wr wj o vo ap jo jid no xt cf Hcf u A b HU name obs cs cr w0 x0 ws g0 Hws HE f step regular scheme pol num start y0 w Hn Ho Hp.
  assert (HJ : vspace o jo) by apply mat_space. assert (HM : matrices (n_vo no) jo jid ap) by exact (proj2 (tuple_matrices eps n)).
  assert (Hlin : linear_ok xt (if_solvable (normal_exact ap)) (if_solvable (qr_exact no ap)) (if_solvable (newton_exact ap)) nothing)
    by exact (root_exts_linear eps n X asked fit slv HS Ha _ _ _ _ _ (mgs_linear eps n n wr wj)).
  destruct (lin_exact_n_steps eps _ _ _ _ W U no ap ap (tuple_laws eps n n) jo jid HJ HM xt Hlin cf Hcf u A b HU name obs cs cr w0 x0 ws g0 Hws HE pol num start y0 w Hn Ho Hp) as (y' & g' & w' & tr & l & E & El & ER & EH & HK & HU0).
  exists y', g', w', tr, l. split; [exact E|]. split; [exact El|]. split; [exact ER|]. split; [exact EH|]. split.
  - eapply linked_weaken; [|exact HK]. cbv beta. intros past t dt y K Hns. apply K. apply nonsingular_invertible. exact Hns.
  - intros m Hm0. apply HU0. eapply linked_weaken; [|exact Hm0]. cbv beta. intros past t dt y [K1 K2]. split; [|exact K2].
    apply nonsingular_invertible. exact K1.
Qed.
Lemma served_target :
  forall (eps : R) (n : nat) (X : Type) (asked : (nat -> nat -> R) -> Prop) (fit : X -> Prop) (slv : solver X) (HS : serves eps n asked fit slv),
  (forall M, asked M) ->
  forall (W U : Type) wr wj,
  let o := Rops eps in let vo := tvec o n in let ap := tapply o (m:=n) (n:=n) in let jo := mat_ops eps n n in let jid := tid n in
  let no := tuple_ops o sqrt n n in let xt := root_exts HS (mgs_exts eps n n wr wj false) in
  forall cf, newton_settings cf ->
  forall (u : isys (S:=R) (V:=tup R n) (J:=mat (S:=R) n n) (W:=W)) (A : R -> mat (S:=R) n n) (b : R -> tup R n),
  linear_user vo ap u A b -> forall name,
  forall (obs : Z -> R -> tup R n -> U -> outcome unit * U) cs cr w0 x0 ws g0,
  root_object o ws -> implicit_create o name cs cr (mk_ppol (-1) w0) x0 ws = Ok g0 ->
  let f := linear_rhs vo ap A b in
  let step := implicit_step o (policy_std o vo jo jid u) (as_solver (root_solve o no xt cf)) name in
  let regular := fun past t dt => nonsingular o n (ent (as_mtx (step_matrix o jo (fun _ => jid) A name past t dt))) in
  let scheme := scheme_step o vo f name in
  forall pol recovery h k0 fuel start final y0 w,
  0 <= eps -> (forall k t y u, fst (obs k t y u) = Ok tt) ->
  (forall k t x u, exists dt m c, fst (pol k t x u) = Ok (dt, m, c) /\ h <= dt /\ m <= dt /\ (recovery = true -> 1 < c)) ->
  start < final -> final - start <= INR k0 * h -> (k0 < fuel)%nat -> (Z.of_nat k0 < int32_max)%Z ->
  exists y' g' w' tr l,
    to_target o (mk_user (split_obs obs) (split_pol pol) noop_guess (split_step (implicit_fn step))) recovery fuel
      start final (y0, (g0, w), []) = (Ok tt, (y', (g', w'), tr)) /\
    reports tr = numbered l /\ hd y0 (map snd l) = y' /\
    linked_from Rplus (fun past t dt y => regular past t dt -> scheme past t dt y) start y0 l /\
    (forall m, linked_from Rplus (fun past t dt y => regular past t dt /\ scheme past t dt y) start y0 m ->
       map fst (numbered m) = map fst (reports tr) -> reports tr = numbered m).
Proof.
  intros eps n X asked fit slv HS Ha W U wr wj o vo ap jo jid no xt cf Hcf u A b HU name obs cs cr w0 x0 ws g0 Hws HE f step regular scheme pol recovery h k0 fuel start final y0 w He Ho Hp Hlt Hn Hf Hm.
  assert (HJ : vspace o jo) by apply mat_space. assert (HM : matrices (n_vo no) jo jid ap) by exact (proj2 (tuple_matrices eps n)).
  assert (Hlin : linear_ok xt (if_solvable (normal_exact ap)) (if_solvable (qr_exact no ap)) (if_solvable (newton_exact ap)) nothing)
    by exact (root_exts_linear eps n X asked fit slv HS Ha _ _ _ _ _ (mgs_linear eps n n wr wj)).
  destruct (lin_exact_target eps _ _ _ _ W U no ap ap (tuple_laws eps n n) jo jid HJ HM xt Hlin cf Hcf u A b HU name obs cs cr w0 x0 ws g0 Hws HE pol recovery h k0 fuel start final y0 w He Ho Hp Hlt Hn Hf Hm) as (y' & g' & w' & tr & l & E & ER & EH & HK & HU0).
  exists y', g', w', tr, l. split; [exact E|]. split; [exact ER|]. split; [exact EH|]. split.
  - eapply linked_weaken; [|exact HK]. cbv beta. intros past t dt y K Hns. apply K. apply nonsingular_invertible. exact Hns.
  - intros m Hm0. apply HU0. eapply linked_weaken; [|exact Hm0]. cbv beta. intros past t dt y [K1 K2]. split; [|exact K2].
    apply nonsingular_invertible. exact K1.
Qed.
Lemma served_n_steps_mm :
  forall (eps : R) (n : nat) (X : Type) (asked : (nat -> nat -> R) -> Prop) (fit : X -> Prop) (slv : solver X) (HS : serves eps n asked fit slv),
  (forall M, asked M) ->
  forall (W U : Type) wr wj,
  let o := Rops eps in let vo := tvec o n in let ap := tapply o (m:=n) (n:=n) in let jo := mat_ops eps n n in let jid := tid n in
  let no := tuple_ops o sqrt n n in let xt := root_exts HS (mgs_exts eps n n wr wj false) in
  forall cf, newton_settings cf ->
  forall (u : isys (S:=R) (V:=tup R n) (J:=mat (S:=R) n n) (W:=W)) (A : R -> mat (S:=R) n n) (b : R -> tup R n),
  forall M : R -> mat (S:=R) n n, linear_ode_mm vo ap u M A b ->
  forall name, name = BDF1 \/ name = BDF2 ->
  forall (obs : Z -> R -> tup R n -> U -> outcome unit * U) cs cr p0 x0 ws g0,
  root_object o ws -> implicit_create o name cs cr p0 x0 ws = Ok g0 ->
  let f := linear_rhs vo ap A b in
  let step := implicit_step o (policy_mm o vo jo ap u) (as_solver (root_solve o no xt cf)) name in
  let regular := fun past t dt => nonsingular o n (ent (as_mtx (step_matrix o jo M A name past t dt))) in
  let scheme := scheme_step_mm o vo ap M f name in
  forall pol num start y0 w, (Z.of_nat num < int32_max)%Z ->
  (forall k t y u, fst (obs k t y u) = Ok tt) -> (forall k t d u, exists dt, fst (pol k t d u) = Ok dt) ->
  exists y' g' w' tr l,
    advance_n_steps o (mk_user (split_obs obs) (pol3 (split_pol pol)) noop_guess (split_step (implicit_fn step)))
      (Z.of_nat num) start (y0, (g0, w), []) = (Ok tt, (y', (g', w'), tr)) /\
    length l = Datatypes.S num /\ reports tr = numbered l /\ hd y0 (map snd l) = y' /\
    linked_from Rplus (fun past t dt y => regular past t dt -> scheme past t dt y) start y0 l /\
    (forall m, linked_from Rplus (fun past t dt y => regular past t dt /\ scheme past t dt y) start y0 m ->
       map fst (numbered m) = map fst (reports tr) -> reports tr = numbered m).
Proof.
  intros eps n X asked fit slv HS Ha W U wr wj o vo ap jo jid no xt cf Hcf u A b M HU name Hnm obs cs cr p0 x0 ws g0 Hws HE f step regular scheme pol num start y0 w Hn Ho Hp.
  assert (HJ : vspace o jo) by apply mat_space. assert (HM : matrices (n_vo no) jo jid ap) by exact (proj2 (tuple_matrices eps n)).
  assert (Hlin : linear_ok xt (if_solvable (normal_exact ap)) (if_solvable (qr_exact no ap)) (if_solvable (newton_exact ap)) nothing)
    by exact (root_exts_linear eps n X asked fit slv HS Ha _ _ _ _ _ (mgs_linear eps n n wr wj)).
  destruct (lin_exact_n_steps_mm eps _ _ _ _ W U no ap ap (tuple_laws eps n n) jo jid HJ HM xt Hlin cf Hcf u A b M HU name Hnm obs cs cr p0 x0 ws g0 Hws HE pol num start y0 w Hn Ho Hp) as (y' & g' & w' & tr & l & E & El & ER & EH & HK & HU0).
  exists y', g', w', tr, l. split; [exact E|]. split; [exact El|]. split; [exact ER|]. split; [exact EH|]. split.
  - eapply linked_weaken; [|exact HK]. cbv beta. intros past t dt y K Hns. apply K. apply nonsingular_invertible. exact Hns.
  - intros m Hm0. apply HU0. eapply linked_weaken; [|exact Hm0]. cbv beta. intros past t dt y [K1 K2]. split; [|exact K2].
    apply nonsingular_invertible. exact K1.
Qed.
Lemma served_target_mm :
  forall (eps : R) (n : nat) (X : Type) (asked : (nat -> nat -> R) -> Prop) (fit : X -> Prop) (slv : solver X) (HS : serves eps n asked fit slv),
  (forall M, asked M) ->
  forall (W U : Type) wr wj,
  let o := Rops eps in let vo := tvec o n in let ap := tapply o (m:=n) (n:=n) in let jo := mat_ops eps n n in let jid := tid n in
  let no := tuple_ops o sqrt n n in let xt := root_exts HS (mgs_exts eps n n wr wj false) in
  forall cf, newton_settings cf ->
  forall (u : isys (S:=R) (V:=tup R n) (J:=mat (S:=R) n n) (W:=W)) (A : R -> mat (S:=R) n n) (b : R -> tup R n),
  forall M : R -> mat (S:=R) n n, linear_ode_mm vo ap u M A b ->
  forall name, name = BDF1 \/ name = BDF2 ->
  forall (obs : Z -> R -> tup R n -> U -> outcome unit * U) cs cr p0 x0 ws g0,
  root_object o ws -> implicit_create o name cs cr p0 x0 ws = Ok g0 ->
  let f := linear_rhs vo ap A b in
  let step := implicit_step o (policy_mm o vo jo ap u) (as_solver (root_solve o no xt cf)) name in
  let regular := fun past t dt => nonsingular o n (ent (as_mtx (step_matrix o jo M A name past t dt))) in
  let scheme := scheme_step_mm o vo ap M f name in
  forall pol recovery h k0 fuel start final y0 w,
  0 <= eps -> (forall k t y u, fst (obs k t y u) = Ok tt) ->
  (forall k t x u, exists dt m c, fst (pol k t x u) = Ok (dt, m, c) /\ h <= dt /\ m <= dt /\ (recovery = true -> 1 < c)) ->
  start < final -> final - start <= INR k0 * h -> (k0 < fuel)%nat -> (Z.of_nat k0 < int32_max)%Z ->
  exists y' g' w' tr l,
    to_target o (mk_user (split_obs obs) (split_pol pol) noop_guess (split_step (implicit_fn step))) recovery fuel
      start final (y0, (g0, w), []) = (Ok tt, (y', (g', w'), tr)) /\
    reports tr = numbered l /\ hd y0 (map snd l) = y' /\
    linked_from Rplus (fun past t dt y => regular past t dt -> scheme past t dt y) start y0 l /\
    (forall m, linked_from Rplus (fun past t dt y => regular past t dt /\ scheme past t dt y) start y0 m ->
       map fst (numbered m) = map fst (reports tr) -> reports tr = numbered m).
Proof.
  intros eps n X asked fit slv HS Ha W U wr wj o vo ap jo jid no xt cf Hcf u A b M HU name Hnm obs cs cr p0 x0 ws g0 Hws HE f step regular scheme pol recovery h k0 fuel start final y0 w He Ho Hp Hlt Hn Hf Hm.
  assert (HJ : vspace o jo) by apply mat_space. assert (HM : matrices (n_vo no) jo jid ap) by exact (proj2 (tuple_matrices eps n)).
  assert (Hlin : linear_ok xt (if_solvable (normal_exact ap)) (if_solvable (qr_exact no ap)) (if_solvable (newton_exact ap)) nothing)
    by exact (root_exts_linear eps n X asked fit slv HS Ha _ _ _ _ _ (mgs_linear eps n n wr wj)).
  destruct (lin_exact_target_mm eps _ _ _ _ W U no ap ap (tuple_laws eps n n) jo jid HJ HM xt Hlin cf Hcf u A b M HU name Hnm obs cs cr p0 x0 ws g0 Hws HE pol recovery h k0 fuel start final y0 w He Ho Hp Hlt Hn Hf Hm) as (y' & g' & w' & tr & l & E & ER & EH & HK & HU0).
  exists y', g', w', tr, l. split; [exact E|]. split; [exact ER|]. split; [exact EH|]. split.
  - eapply linked_weaken; [|exact HK]. cbv beta. intros past t dt y K Hns. apply K. apply nonsingular_invertible. exact Hns.
  - intros m Hm0. apply HU0. eapply linked_weaken; [|exact Hm0]. cbv beta. intros past t dt y [K1 K2]. split; [|exact K2].
    apply nonsingular_invertible. exact K1.
Qed.

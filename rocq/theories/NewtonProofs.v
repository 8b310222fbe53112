(** C90: quadratic convergence of Newton's method and, where the residual vanishes, of
    Gauss-Newton. *)
From Coq Require Import Reals ZArith List Lra Lia Bool.
From Verif Require Import Base RInst Laws LawInst ImplicitModel ImplicitSpec NonlinDiag NonlinModel NonlinWp NonlinDiagProofs
  NonlinSpec NonlinRuns NonlinProofs NonlinSolve NonlinLines NonlinClaims NonlinSeq NonlinFollow NonlinLaws NonlinExact NonlinReal
  NonlinTheory NonlinRest DissipSpec DissipProofs NewtonSpec.
Import ListNotations.
Local Open Scope R_scope.

(** ** Norms *)
Section Norm.
  Context {eps : R} {V : Type} (vo : vops R V) (dot : V -> V -> R).
  Hypothesis HI : NonlinLaws.inner eps vo dot.
  Let HV := in_space _ _ HI.
  Lemma ip_of : DissipSpec.inner vo dot.
  Proof. constructor; apply HI. Qed.
  Notation len x := (sqrt (dot x x)).
  Lemma cauchy_dot : forall x y, dot x y <= len x * len y.
  Proof. intros x y. exact (cauchy eps vo dot ip_of x y). Qed.
  Lemma triangle : forall x y, len (vadd vo x y) <= len x + len y.
  Proof.
    intros x y. pose proof (sqrt_pos (dot x x)). pose proof (sqrt_pos (dot y y)).
    apply (len_le dot (vadd vo x y)); [lra|].
    rewrite (in_add _ _ HI), !(dot_add_r _ _ HI), (in_sym _ _ HI y x).
    pose proof (cauchy_dot x y). pose proof (sqrt_sqrt _ (in_pos _ _ HI x)). pose proof (sqrt_sqrt _ (in_pos _ _ HI y)). nra.
  Qed.
  Lemma len_opp : forall x, len (vscale vo (- (1)) x) = len x.
  Proof. intros x. f_equal. rewrite (in_scale _ _ HI), (dot_scale_r _ _ HI). ring. Qed.
  Lemma len_below : forall x y, dot x x <= dot x y -> len x <= len y.
  Proof.
    intros x y Hle. pose proof (cauchy_dot x y). pose proof (sqrt_sqrt _ (in_pos _ _ HI x)).
    pose proof (sqrt_pos (dot x x)). pose proof (sqrt_pos (dot y y)).
    destruct (Req_dec (len x) 0) as [E|E]; [rewrite E; assumption|].
    apply (Rmult_le_reg_l (len x)); [lra|]. lra.
  Qed.
  Lemma len_zero : forall x, len x <= 0 -> x = vzero vo.
  Proof.
    intros x Hx. apply (in_zero _ _ HI). pose proof (sqrt_pos (dot x x)). pose proof (sqrt_sqrt _ (in_pos _ _ HI x)) as E.
    rewrite <- E. replace (len x) with 0 by lra. ring.
  Qed.
End Norm.

(** ** Runs whose moves are quadratic steps *)
Section Quadratic.
  Context {eps : R} {V Rs J : Type}.
  Notation o := (Rops eps).
  Notation info := (info R V Rs J).
  Variable err : V -> R.
  Variables kappa rad : R.
  Hypothesis Hpos : forall x, 0 <= err x.
  Hypothesis Hk : 0 <= kappa.
  Hypothesis Hsmall : kappa * rad < 1.
  Lemma quadratic_0 : forall e, quadratic kappa e 0 = e.
  Proof. intros e. unfold quadratic. cbn. ring. Qed.
  Lemma quadratic_S : forall e k, quadratic kappa e (S k) = kappa * (quadratic kappa e k) ^ 2.
  Proof.
    intros e k. unfold quadratic. pose proof (Nat.pow_nonzero 2 k ltac:(lia)) as Hn.
    replace (2 ^ S k - 1)%nat with (S ((2 ^ k - 1) + (2 ^ k - 1)))%nat by (cbn [Nat.pow]; lia).
    cbn [pow]. rewrite pow_add. ring.
  Qed.
  Lemma quadratic_pos : forall e k, 0 <= e -> 0 <= quadratic kappa e k.
  Proof. intros e k He. unfold quadratic. apply Rmult_le_pos; [exact He|]. apply pow_le. apply Rmult_le_pos; assumption. Qed.
  Lemma step_in : forall e e', 0 <= e <= rad -> e' <= kappa * e ^ 2 -> e' <= e.
  Proof.
    intros e e' [He Hr] H. assert (kappa * e <= kappa * rad) by (apply Rmult_le_compat_l; assumption). cbn in H.
    assert (kappa * e * e <= 1 * e) by (apply Rmult_le_compat_r; lra). lra.
  Qed.
  Lemma step_bound : forall e e' b, 0 <= e <= b -> e' <= kappa * e ^ 2 -> e' <= kappa * b ^ 2.
  Proof.
    intros e e' b [He Hb] H. eapply Rle_trans; [exact H|]. apply Rmult_le_compat_l; [exact Hk|]. apply pow_incr. split; assumption.
  Qed.

  Variable cf : config R.
  Variable valid : info -> Prop.
  Variable measure : info -> meas R.
  Variable move : info -> V * R * R -> Prop.
  Variable p0 : V * R * R.
  Notation px p := (fst (fst p)).
  Hypothesis Hmove : forall i q, valid i -> err (i_x i) <= rad -> move i q -> err (px q) <= kappa * (err (i_x i)) ^ 2.
  Hypothesis H0 : err (px p0) <= rad.
  Notation steps' := (steps o cf valid measure move p0).
  Lemma steps_quadratic : forall is p, steps' is p ->
    err (px p) <= rad /\ err (px p) <= quadratic kappa (err (px p0)) (length is) /\
    (forall k x, nth_error (map i_x is ++ [px p]) k = Some x -> err x <= quadratic kappa (err (px p0)) k) /\
    (forall k x x', nth_error (map i_x is ++ [px p]) k = Some x -> nth_error (map i_x is ++ [px p]) (k + 1) = Some x' ->
       err x' <= kappa * (err x) ^ 2).
  Proof.
    intros is p K. induction K as [|is p i p' K [I1 [I2 [I3 I4]]] Ha Hv Hm Hmv].
    - cbn [map app length]. rewrite quadratic_0. split; [exact H0|]. split; [lra|]. split.
      + intros [|k] x E; cbn in E; [injection E as <-; rewrite quadratic_0; lra|destruct k; discriminate].
      + intros k x x' E E'. destruct k; cbn in E'; [discriminate|destruct k; discriminate].
    - assert (Ep : px p = i_x i) by (unfold at_point in Ha; subst p; reflexivity).
      rewrite Ep in *. pose proof (Hmove i p' Hv I1 Hmv) as Q. pose proof (Hpos (i_x i)) as Pi.
      assert (R2 : err (px p') <= quadratic kappa (err (px p0)) (length (is ++ [i]))).
      { rewrite app_length. cbn [length]. rewrite Nat.add_1_r, quadratic_S. eapply step_bound; [|exact Q]. split; assumption. }
      split; [pose proof (step_in _ _ (conj Pi I1) Q); lra|]. split; [exact R2|].
      rewrite map_app. cbn [map]. set (l := map i_x is ++ [i_x i]) in *.
      assert (Ll : length l = length (is ++ [i])) by (unfold l; rewrite !app_length, map_length; reflexivity).
      split.
      + intros k x E. destruct (Nat.lt_ge_cases k (length l)) as [Hl|Hl].
        * rewrite nth_error_app1 in E by exact Hl. eauto.
        * rewrite nth_error_app2 in E by exact Hl. destruct (k - length l)%nat as [|n] eqn:En; cbn in E; [|destruct n; discriminate].
          injection E as <-. replace k with (length (is ++ [i])) by lia. exact R2.
      + intros k x x' E E'. destruct (Nat.lt_ge_cases (k + 1) (length l)) as [Hl|Hl].
        * rewrite nth_error_app1 in E by lia. rewrite nth_error_app1 in E' by exact Hl. eauto.
        * rewrite nth_error_app2 in E' by exact Hl. destruct (k + 1 - length l)%nat as [|n] eqn:En; cbn in E'; [|destruct n; discriminate].
          injection E' as <-. assert (Hk1 : (k + 1)%nat = length l) by lia.
          rewrite nth_error_app1 in E by lia. unfold l in E. rewrite nth_error_app2 in E by (rewrite Ll in Hk1; rewrite app_length in Hk1; cbn in Hk1; rewrite map_length; lia).
          replace (k - length (map i_x is))%nat with 0%nat in E by (rewrite Ll in Hk1; rewrite app_length in Hk1; cbn in Hk1; rewrite map_length; lia).
          cbn in E. injection E as <-. exact Q.
  Qed.

  Variable stuck : info -> Prop.
  Variable ftrial : outcome unit -> Prop.
  Variable pub : list diag.
  Variable reports : bool.
  Variable file0 : option report.
  Hypothesis Hst : forall i, ~ stuck i.
  Hypothesis Htr : forall e, ~ ftrial e.
  Hypothesis Hpub : forall d, named (f_stop cf) = Some d -> In d pub.
  Hypothesis Hmax : (0 <= f_max cf < int32_max)%Z.
  Notation ends := (solve_ends o cf valid measure move p0 stuck nothing nothing ftrial residual_exn linesearch_exn pub reports file0).
  Lemma printed_state_nth : forall is k (l : line R V), nth_error (printed o measure pub is) k = Some l ->
    nth_error (map i_x is) k = Some (l_state l).
  Proof. intros is k l E. apply (map_nth_error l_state) in E. rewrite printed_states in E. exact E. Qed.
  Lemma nth_left {A} : forall (l m : list A) k x, nth_error l k = Some x -> nth_error (l ++ m) k = Some x.
  Proof. intros l m k x E. rewrite nth_error_app1; [exact E|]. apply nth_error_Some. congruence. Qed.

  Lemma ends_quadratic : forall r p ls fl, ends r p ls fl ->
    r = Ok tt /\ err (px p) <= rad /\
    (forall k l, nth_error ls k = Some l -> err (l_state l) <= quadratic kappa (err (px p0)) k) /\
    (forall k l l', nth_error ls k = Some l -> nth_error ls (k + 1) = Some l' ->
       err (l_state l') <= kappa * (err (l_state l)) ^ 2) /\
    ((exists i m1 k a l, valid i /\ i_x i = px p /\ met o cf k m1 (measure i) /\ ls = a ++ [l] /\ l_state l = px p /\ line_met o cf l) \/
     (Z.of_nat (length ls) = f_max cf /\ err (px p) <= quadratic kappa (err (px p0)) (length ls))).
  Proof.
    intros r p ls fl K.
    destruct K as [is i p Hn Hs Ha Hv Hm|is i p e Hn Hs Ha Hv Hm Hstk|is p Hn Hmx Hs|is p Hn Hn2 Hs|is p e Hn Hs He Hfe
                  |is p r Hn Hs He Hfe|is p r Hn Hs He Hfe|is i p r Hn Hs Ha Hv Hm He Hfe];
      try (destruct Hfe; fail); try (exfalso; eapply Hst; eassumption); try (exfalso; eapply Htr; eassumption); try (exfalso; lia).
    - destruct (steps_quadratic _ _ Hs) as [S1 [S2 [S3 S4]]].
      assert (Ep : px p = i_x i) by (unfold at_point in Ha; subst p; reflexivity).
      assert (El : map i_x is ++ [px p] = map i_x (is ++ [i])) by (rewrite map_app, Ep; reflexivity). rewrite El in S3, S4.
      split; [reflexivity|]. split; [exact S1|]. split; [|split].
      + intros k l E. apply printed_state_nth in E. eauto.
      + intros k l l' E E'. apply printed_state_nth in E. apply printed_state_nth in E'. eauto.
      + left. exists i, (first measure is i), (number is). eexists. eexists. split; [exact Hv|]. split; [symmetry; exact Ep|]. split; [exact Hm|].
        split; [apply printed_last|]. split; [symmetry; exact Ep|]. apply line_met_iff; assumption.
    - destruct (steps_quadratic _ _ Hs) as [S1 [S2 [S3 S4]]].
      split; [reflexivity|]. split; [exact S1|]. split; [|split].
      + intros k l E. apply printed_state_nth in E. eapply S3. apply nth_left. exact E.
      + intros k l l' E E'. apply printed_state_nth in E. apply printed_state_nth in E'. eapply S4; apply nth_left; eassumption.
      + right. rewrite printed_length. split; [lia|exact S2].
  Qed.

  (** The criterion recognises the states close enough. *)
  Variable K : nat.
  Hypothesis Hseen : forall i m1 k, valid i -> err (i_x i) <= rad -> err (i_x i) <= quadratic kappa (err (px p0)) K -> met o cf k m1 (measure i).
  Lemma steps_short : forall is p, steps' is p -> (length is <= K)%nat.
  Proof.
    intros is p Hs. induction Hs as [|is p i p' Hs IH Ha Hv Hm Hmv]; [cbn; lia|].
    rewrite app_length. cbn [length]. destruct (Nat.eq_dec (length is) K) as [E|]; [exfalso|lia].
    destruct (steps_quadratic _ _ Hs) as [S1 [S2 _]]. unfold at_point in Ha. subst p. cbn [fst] in S1, S2.
    apply Hm. apply Hseen; [exact Hv|exact S1|]. rewrite <- E. exact S2.
  Qed.
  Lemma ends_short : (Z.of_nat K < f_max cf)%Z -> forall r p ls fl, ends r p ls fl -> (length ls <= K + 1)%nat /\
    exists i m1 k a l, valid i /\ i_x i = px p /\ met o cf k m1 (measure i) /\ ls = a ++ [l] /\ l_state l = px p /\ line_met o cf l.
  Proof.
    intros HK r p ls fl Hend.
    destruct Hend as [is i p Hn Hs Ha Hv Hm|is i p e Hn Hs Ha Hv Hm Hstk|is p Hn Hmx Hs|is p Hn Hn2 Hs|is p e Hn Hs He Hfe
                  |is p r Hn Hs He Hfe|is p r Hn Hs He Hfe|is i p r Hn Hs Ha Hv Hm He Hfe];
      try (destruct Hfe; fail); try (exfalso; eapply Hst; eassumption); try (exfalso; eapply Htr; eassumption); try (exfalso; lia).
    - pose proof (steps_short _ _ Hs). rewrite printed_length, app_length. cbn [length]. split; [lia|].
      assert (Ep : px p = i_x i) by (unfold at_point in Ha; subst p; reflexivity).
      exists i, (first measure is i), (number is). eexists. eexists. split; [exact Hv|]. split; [symmetry; exact Ep|]. split; [exact Hm|].
      split; [apply printed_last|]. split; [symmetry; exact Ep|]. apply line_met_iff; assumption.
    - pose proof (steps_short _ _ Hs). exfalso. lia.
  Qed.
End Quadratic.

(** ** Newton and Gauss-Newton steps *)
Section Steps.
  Context {eps : R} {V Rs J H L W : Type}.
  Notation o := (Rops eps).
  Variable no : nlops R V Rs J H.
  Variable ro : vops R Rs.
  Variable apJ : J -> V -> Rs.
  Variable apH : H -> V -> V.
  Hypothesis HL : nl_laws eps no ro apJ apH.
  Notation vo := (n_vo no).
  Notation dot := (n_dot no).
  Notation rdot := (n_rdot no).
  Variable F : V -> Rs.
  Variable DF : V -> J.
  Variable xs : V.
  Variables rad beta gamma : R.
  Hypothesis HG : regular_near no ro apJ F DF xs rad beta gamma.
  Let HV := nl_v _ _ _ _ _ HL.
  Let HR := nl_r _ _ _ _ _ HL.
  Notation kappa := (beta * (gamma / 2)).
  Notation err x := (apart no x xs).
  Notation neg d := (vscale vo (- (1)) d).
  Lemma err_pos : forall x, 0 <= err x.
  Proof. intros x. unfold apart. rewrite (nl_norm _ _ _ _ _ HL). apply sqrt_pos. Qed.
  Lemma kappa_pos : 0 <= kappa.
  Proof. pose proof (rg_beta _ _ _ _ _ _ _ _ _ HG). pose proof (rg_gamma _ _ _ _ _ _ _ _ _ HG). apply Rmult_le_pos; lra. Qed.
  Lemma rank_near : forall x, err x <= rad -> full_rank no ro apJ (DF x).
  Proof.
    intros x Hx v E. apply (len_zero vo dot HV). rewrite <- (nl_norm _ _ _ _ _ HL).
    pose proof (rg_inverse _ _ _ _ _ _ _ _ _ HG x Hx v) as K. rewrite E, (nl_rnorm _ _ _ _ _ HL), (dot_0_l _ _ HR), sqrt_0 in K. lra.
  Qed.
  Lemma moved : forall x d, from no xs (along o no x (neg d) 1) = vadd vo (from no xs x) (neg d).
  Proof.
    intros x d. apply (dot_ext vo dot HV). intros v. unfold from, along. change (s1 o) with 1.
    rewrite ?(in_add _ _ HV), ?(in_scale _ _ HV), ?(in_add _ _ HV), ?(in_scale _ _ HV). ring.
  Qed.
  (** the step d satisfies the normal equations of J d = F(x) *)
  Lemma error_step : forall x d, err x <= rad ->
    (forall v, rdot (apJ (DF x) d) (apJ (DF x) v) = rdot (F x) (apJ (DF x) v)) ->
    err (along o no x (neg d) 1) <= kappa * (err x) ^ 2.
  Proof.
    intros x d Hx Hd. unfold apart at 1. rewrite moved. set (e' := vadd vo (from no xs x) (neg d)).
    eapply Rle_trans; [apply (rg_inverse _ _ _ _ _ _ _ _ _ HG x Hx)|]. rewrite Rmult_assoc.
    apply Rmult_le_compat_l; [apply (rg_beta _ _ _ _ _ _ _ _ _ HG)|].
    eapply Rle_trans; [|apply (rg_smooth _ _ _ _ _ _ _ _ _ HG x Hx)]. rewrite !(nl_rnorm _ _ _ _ _ HL).
    apply (len_below ro rdot HR). apply Req_le.
    pose proof (Hd e') as E. set (w := apJ (DF x) e') in *. unfold w at 1, e'. rewrite (apJ_add _ _ _ _ HL), (apJ_scale _ _ _ _ HL).
    rewrite (in_sym _ _ HR w), !(in_add _ _ HR), !(in_scale _ _ HR), E. reflexivity.
  Qed.
  Lemma correction_below : forall x d, err x <= rad -> err (along o no x (neg d) 1) <= kappa * (err x) ^ 2 ->
    n_norm no (neg d) <= 2 * err x.
  Proof.
    intros x d Hx Hq. pose proof (err_pos x) as Px. pose proof (rg_small _ _ _ _ _ _ _ _ _ HG) as Hs.
    pose proof (step_in kappa rad kappa_pos Hs _ _ (conj Px Hx) Hq) as Hi.
    assert (E : neg d = vadd vo (from no xs (along o no x (neg d) 1)) (neg (from no xs x))).
    { rewrite moved. apply (dot_ext vo dot HV). intros v. rewrite !(in_add _ _ HV), !(in_scale _ _ HV). ring. }
    rewrite E, (nl_norm _ _ _ _ _ HL). eapply Rle_trans; [apply (triangle vo dot HV)|].
    rewrite (len_opp vo dot HV), <- !(nl_norm _ _ _ _ _ HL). fold (err x) (err (along o no x (neg d) 1)). lra.
  Qed.
  Lemma far_correction : forall x d tol, err x <= rad -> err (along o no x (neg d) 1) <= kappa * (err x) ^ 2 ->
    n_norm no (neg d) < tol -> err x < 1 / (1 - kappa * rad) * tol.
  Proof.
    intros x d tol Hx Hq Ht. pose proof (err_pos x) as Px. pose proof (rg_small _ _ _ _ _ _ _ _ _ HG) as Hs.
    assert (E : from no xs x = vadd vo (from no xs (along o no x (neg d) 1)) (neg (neg d))).
    { rewrite moved. apply (dot_ext vo dot HV). intros v. rewrite !(in_add _ _ HV), !(in_scale _ _ HV). ring. }
    assert (Hb : err x <= err (along o no x (neg d) 1) + n_norm no (neg d)).
    { unfold apart at 1. rewrite E, (nl_norm _ _ _ _ _ HL). eapply Rle_trans; [apply (triangle vo dot HV)|].
      rewrite (len_opp vo dot HV), <- !(nl_norm _ _ _ _ _ HL). apply Rle_refl. }
    assert (kappa * err x <= kappa * rad) by (apply Rmult_le_compat_l; [exact kappa_pos|exact Hx]).
    assert (kappa * err x * err x <= kappa * rad * err x) by (apply Rmult_le_compat_r; assumption).
    cbn in Hq. apply (Rmult_lt_reg_l (1 - kappa * rad)); [lra|]. replace ((1 - kappa * rad) * (1 / (1 - kappa * rad) * tol)) with tol by (field; lra). lra.
  Qed.
  Lemma residual_below : forall x M, err x <= rad -> (forall v, n_rnorm no (apJ (DF x) v) <= M * n_norm no v) ->
    n_rnorm no (F x) <= (M + gamma / 2 * rad) * err x.
  Proof.
    intros x M Hx HM. pose proof (err_pos x) as Px. pose proof (rg_smooth _ _ _ _ _ _ _ _ _ HG x Hx) as K.
    set (e := vadd ro (apJ (DF x) (from no xs x)) (vscale ro (- (1)) (F x))) in *.
    assert (E : F x = vadd ro (apJ (DF x) (from no xs x)) (vscale ro (- (1)) e)).
    { unfold e. apply (dot_ext ro rdot HR). intros v. rewrite ?(in_add _ _ HR), ?(in_scale _ _ HR), ?(in_add _ _ HR), ?(in_scale _ _ HR). ring. }
    rewrite E, (nl_rnorm _ _ _ _ _ HL). eapply Rle_trans; [apply (triangle ro rdot HR)|].
    rewrite (len_opp ro rdot HR), <- !(nl_rnorm _ _ _ _ _ HL). pose proof (HM (from no xs x)) as Hm. fold (err x) in Hm.
    pose proof (rg_gamma _ _ _ _ _ _ _ _ _ HG). assert (gamma / 2 * (err x) ^ 2 <= gamma / 2 * rad * err x).
    { cbn. rewrite Rmult_1_r, <- Rmult_assoc. apply Rmult_le_compat_r; [exact Px|]. apply Rmult_le_compat_l; lra. }
    lra.
  Qed.
  Lemma far_residual : forall x tol, err x <= rad -> n_rnorm no (F x) < tol -> err x <= beta / (1 - kappa * rad) * tol.
  Proof.
    intros x tol Hx Ht.
    pose proof (err_pos x) as Px. pose proof (rg_small _ _ _ _ _ _ _ _ _ HG) as Hs. pose proof (rg_beta _ _ _ _ _ _ _ _ _ HG) as Hb.
    pose proof (rg_smooth _ _ _ _ _ _ _ _ _ HG x Hx) as K. pose proof (rg_inverse _ _ _ _ _ _ _ _ _ HG x Hx (from no xs x)) as Ki. fold (err x) in Ki.
    set (e := vadd ro (apJ (DF x) (from no xs x)) (vscale ro (- (1)) (F x))) in *.
    assert (E : apJ (DF x) (from no xs x) = vadd ro (F x) e).
    { unfold e. apply (dot_ext ro rdot HR). intros v. rewrite ?(in_add _ _ HR), ?(in_scale _ _ HR), ?(in_add _ _ HR), ?(in_scale _ _ HR). ring. }
    rewrite E in Ki. assert (Kt : n_rnorm no (vadd ro (F x) e) <= n_rnorm no (F x) + n_rnorm no e).
    { rewrite !(nl_rnorm _ _ _ _ _ HL). apply (triangle ro rdot HR). }
    assert (err x <= beta * tol + kappa * (err x) ^ 2).
    { eapply Rle_trans; [exact Ki|]. rewrite Rmult_assoc, <- Rmult_plus_distr_l. apply Rmult_le_compat_l; lra. }
    assert (kappa * err x <= kappa * rad) by (apply Rmult_le_compat_l; [exact kappa_pos|exact Hx]).
    assert (kappa * err x * err x <= kappa * rad * err x) by (apply Rmult_le_compat_r; assumption).
    apply (Rmult_le_reg_l (1 - kappa * rad)); [lra|].
    replace ((1 - kappa * rad) * (beta / (1 - kappa * rad) * tol)) with (beta * tol) by (field; lra). cbn in *. lra.
  Qed.
End Steps.

(** ** Where the quadratic bound comes from *)
Section Lipschitz.
  Context {eps : R} {V Rs J H : Type}.
  Variable no : nlops R V Rs J H.
  Variable ro : vops R Rs.
  Variable apJ : J -> V -> Rs.
  Variable apH : H -> V -> V.
  Hypothesis HL : nl_laws eps no ro apJ apH.
  Notation vo := (n_vo no).
  Notation dot := (n_dot no).
  Notation rdot := (n_rdot no).
  Let HV := nl_v _ _ _ _ _ HL.
  Let HR := nl_r _ _ _ _ _ HL.
  Variable F : V -> Rs.
  Variable DF : V -> J.
  Variable xs : V.
  Variables rad gamma : R.
  Hypothesis Hroot : F xs = vzero ro.
  Hypothesis Hg : 0 <= gamma.
  Hypothesis Hd : derivative_near no apJ F DF xs rad.
  Hypothesis Hl : lipschitz_near no ro apJ DF xs rad gamma.
  Notation err x := (apart no x xs).
  Lemma len_scale : forall a x, 0 <= a -> n_norm no (vscale vo a x) = a * n_norm no x.
  Proof.
    intros a x Ha. rewrite !(nl_norm _ _ _ _ _ HL), (in_scale _ _ HV), (dot_scale_r _ _ HV).
    rewrite <- Rmult_assoc, sqrt_mult; [|nra|apply (in_pos _ _ HV)]. rewrite sqrt_square by exact Ha. reflexivity.
  Qed.
  Ltac vx := apply (dot_ext vo dot HV); intros; unfold between, from; rewrite ?(in_add _ _ HV), ?(in_scale _ _ HV), ?(in_add _ _ HV), ?(in_scale _ _ HV), ?(in_add _ _ HV), ?(in_scale _ _ HV), ?(in_add _ _ HV), ?(in_scale _ _ HV); ring.
  Lemma between_1 : forall x, between no xs x 1 = x.
  Proof. intros x. vx. Qed.
  Lemma between_0 : forall x, between no xs x 0 = xs.
  Proof. intros x. vx. Qed.
  Lemma between_err : forall x t, 0 <= t -> err (between no xs x t) = t * err x.
  Proof. intros x t Ht. unfold apart. rewrite <- len_scale by exact Ht. f_equal. vx. Qed.
  Lemma between_apart : forall x t, t <= 1 -> apart no x (between no xs x t) = (1 - t) * err x.
  Proof. intros x t Ht. unfold apart. rewrite <- len_scale by lra. f_equal. vx. Qed.
  Lemma lipschitz_smooth : forall x, err x <= rad ->
    n_rnorm no (vadd ro (apJ (DF x) (from no xs x)) (vscale ro (- (1)) (F x))) <= gamma / 2 * (err x) ^ 2.
  Proof.
    intros x Hx. set (e := from no xs x). set (rem := vadd ro (apJ (DF x) e) (vscale ro (- (1)) (F x))).
    assert (P0 : 0 <= err x) by (unfold apart; rewrite (nl_norm _ _ _ _ _ HL); apply sqrt_pos).
    set (C := gamma * err x * err x * n_rnorm no rem).
    set (phi := fun u => rdot (F (between no xs x u)) rem).
    set (h := fun t => (t * rdot (apJ (DF x) e) rem - phi t) - C * (t - t * t / 2)).
    set (h' := fun t => (rdot (apJ (DF x) e) rem - rdot (apJ (DF (between no xs x t)) e) rem) - C * (1 - t)).
    assert (Hder : forall c, 0 <= c <= 1 -> derivable_pt_lim h c (h' c)).
    { intros c Hc. unfold h, h'. apply (derivable_pt_lim_minus (fun t => t * rdot (apJ (DF x) e) rem - phi t) (fun t => C * (t - t * t / 2))).
      - apply (derivable_pt_lim_minus (fun t => t * rdot (apJ (DF x) e) rem) phi); [|exact (Hd x rem c Hx Hc)].
        replace (rdot (apJ (DF x) e) rem) with (1 * rdot (apJ (DF x) e) rem + c * 0) at 1 by ring.
        apply (derivable_pt_lim_mult id (fct_cte (rdot (apJ (DF x) e) rem))); [apply derivable_pt_lim_id|apply derivable_pt_lim_const].
      - apply (derivable_pt_lim_scal (fun t => t - t * t / 2) C c (1 - c)).
        apply (derivable_pt_lim_minus id (fun t => t * t / 2)); [apply derivable_pt_lim_id|].
        replace c with ((1 * c + c * 1) * / 2 + c * c * 0) at 2 by field.
        apply (derivable_pt_lim_mult (fun t => t * t) (fct_cte (/ 2))); [|apply derivable_pt_lim_const].
        apply (derivable_pt_lim_mult id id); apply derivable_pt_lim_id. }
    destruct (MVT_cor2 h h' 0 1 Rlt_0_1 Hder) as [c [Ec Hc]].
    assert (Hneg : h' c <= 0).
    { unfold h'. set (z := vadd ro (apJ (DF x) e) (vscale ro (- (1)) (apJ (DF (between no xs x c)) e))).
      assert (Ez : rdot (apJ (DF x) e) rem - rdot (apJ (DF (between no xs x c)) e) rem = rdot z rem).
      { unfold z. rewrite (in_add _ _ HR), (in_scale _ _ HR). ring. }
      rewrite Ez. pose proof (cauchy_dot ro rdot HR z rem) as Cy. rewrite <- !(nl_rnorm _ _ _ _ _ HL) in Cy.
      assert (Hin : err (between no xs x c) <= rad) by (rewrite between_err by lra; nra).
      pose proof (Hl x (between no xs x c) e Hx Hin) as Lz. fold z in Lz. rewrite between_apart in Lz by lra. fold (err x) in Lz.
      assert (Pr : 0 <= n_rnorm no rem) by (rewrite (nl_rnorm _ _ _ _ _ HL); apply sqrt_pos).
      change (n_norm no e) with (err x) in Lz.
      assert (n_rnorm no z * n_rnorm no rem <= gamma * ((1 - c) * err x) * err x * n_rnorm no rem) by (apply Rmult_le_compat_r; assumption).
      unfold C. lra. }
    assert (Hh : h 1 <= h 0) by lra.
    unfold h, phi in Hh. rewrite between_1, between_0, Hroot, (dot_0_l _ _ HR) in Hh.
    assert (Er : rdot rem rem = rdot (apJ (DF x) e) rem - rdot (F x) rem).
    { unfold rem at 1. rewrite (in_add _ _ HR), (in_scale _ _ HR). ring. }
    assert (Hq : rdot rem rem <= gamma / 2 * (err x) ^ 2 * n_rnorm no rem) by (unfold C in Hh; lra).
    assert (Hs : rdot rem rem = n_rnorm no rem * n_rnorm no rem).
    { rewrite (nl_rnorm _ _ _ _ _ HL). symmetry. apply sqrt_sqrt. apply (in_pos _ _ HR). }
    assert (Pr : 0 <= n_rnorm no rem) by (rewrite (nl_rnorm _ _ _ _ _ HL); apply sqrt_pos).
    destruct (Req_dec (n_rnorm no rem) 0) as [E0|E0].
    - rewrite E0. apply Rmult_le_pos; [lra|]. apply pow_le. exact P0.
    - apply (Rmult_le_reg_r (n_rnorm no rem)); [lra|]. lra.
  Qed.
  Lemma lipschitz_regular : forall beta, 0 <= beta ->
    (forall x, err x <= rad -> forall v, n_norm no v <= beta * n_rnorm no (apJ (DF x) v)) ->
    beta * (gamma / 2) * rad < 1 -> regular_near no ro apJ F DF xs rad beta gamma.
  Proof. intros beta Hb Hi Hs. constructor; try assumption. exact lipschitz_smooth. Qed.
End Lipschitz.

(** Every tolerance is reached. *)
Lemma quadratic_vanishes : forall kappa e near tol, 0 <= kappa -> 0 <= e -> kappa * e < 1 -> 0 < tol -> 0 <= near ->
  exists n, near * quadratic kappa e n < tol.
Proof.
  intros kappa e near tol Hk He Hq Ht Hn.
  assert (Hke : 0 <= kappa * e) by (apply Rmult_le_pos; assumption).
  destruct (pow_lt_1_zero (kappa * e) ltac:(rewrite Rabs_right; lra) (tol / (near * e + 1))) as [N HN].
  { apply Rmult_lt_0_compat; [exact Ht|]. apply Rinv_0_lt_compat. assert (0 <= near * e) by (apply Rmult_le_pos; assumption). lra. }
  assert (Pne : 0 <= near * e) by (apply Rmult_le_pos; assumption).
  exists N. unfold quadratic. pose proof (Nat.pow_gt_lin_r 2 N ltac:(lia)) as Hp.
  assert (HN2 : (2 ^ N - 1 >= N)%nat) by lia. specialize (HN _ HN2).
  rewrite Rabs_right in HN by (apply Rle_ge, pow_le; exact Hke). set (q := (kappa * e) ^ (2 ^ N - 1)) in *.
  assert (0 <= q) by (apply pow_le; exact Hke).
  assert (q * (near * e + 1) < tol).
  { apply (Rmult_lt_compat_r (near * e + 1)) in HN; [|lra]. replace (tol / (near * e + 1) * (near * e + 1)) with tol in HN by (field; lra). exact HN. }
  nra.
Qed.

(** C96: Gauss-Newton near a least-squares solution. *)
From Coq Require Import Reals ZArith List Lra Lia Bool.
From Verif Require Import Base RInst Laws LawInst ImplicitModel ImplicitSpec NonlinDiag NonlinModel NonlinWp NonlinDiagProofs
  NonlinSpec NonlinRuns NonlinProofs NonlinSolve NonlinLines NonlinClaims NonlinSeq NonlinFollow NonlinLaws NonlinExact NonlinReal
  NonlinTheory NonlinRest DissipSpec DissipProofs NewtonSpec NewtonProofs GaussSpec.
Import ListNotations.
Local Open Scope R_scope.

(** ** Runs whose moves are steps e -> (sigma + kappa e) e *)
Section Shrinking.
  Context {eps : R} {V Rs J : Type}.
  Notation o := (Rops eps).
  Notation info := (info R V Rs J).
  Variable err : V -> R.
  Variables sigma kappa rad : R.
  Hypothesis Hpos : forall x, 0 <= err x.
  Hypothesis Hs0 : 0 <= sigma.
  Hypothesis Hk : 0 <= kappa.
  Hypothesis Hsmall : sigma + kappa * rad < 1.
  Notation step e := ((sigma + kappa * e) * e).
  Lemma shrunk_S : forall e k, shrunk sigma kappa e (S k) = step (shrunk sigma kappa e k).
  Proof. reflexivity. Qed.
  Lemma step_in : forall e e', 0 <= e <= rad -> e' <= step e -> e' <= e.
  Proof.
    intros e e' [He Hr] H. assert (kappa * e <= kappa * rad) by (apply Rmult_le_compat_l; assumption).
    assert ((sigma + kappa * e) * e <= 1 * e) by (apply Rmult_le_compat_r; lra). lra.
  Qed.
  Lemma step_bound : forall e e' b, 0 <= e <= b -> e' <= step e -> e' <= step b.
  Proof.
    intros e e' b [He Hb] H. eapply Rle_trans; [exact H|]. assert (kappa * e <= kappa * b) by (apply Rmult_le_compat_l; assumption).
    assert (0 <= kappa * e) by (apply Rmult_le_pos; assumption). apply Rmult_le_compat; lra.
  Qed.

  Variable cf : config R.
  Variable valid : info -> Prop.
  Variable measure : info -> meas R.
  Variable move : info -> V * R * R -> Prop.
  Variable p0 : V * R * R.
  Notation px p := (fst (fst p)).
  Hypothesis Hmove : forall i q, valid i -> err (i_x i) <= rad -> move i q -> err (px q) <= step (err (i_x i)).
  Hypothesis H0 : err (px p0) <= rad.
  Notation steps' := (steps o cf valid measure move p0).
  Lemma steps_shrink : forall is p, steps' is p ->
    err (px p) <= rad /\ err (px p) <= shrunk sigma kappa (err (px p0)) (length is) /\
    (forall k x, nth_error (map i_x is ++ [px p]) k = Some x -> err x <= shrunk sigma kappa (err (px p0)) k) /\
    (forall k x x', nth_error (map i_x is ++ [px p]) k = Some x -> nth_error (map i_x is ++ [px p]) (k + 1) = Some x' ->
       err x' <= step (err x)).
  Proof.
    intros is p K. induction K as [|is p i p' K [I1 [I2 [I3 I4]]] Ha Hv Hm Hmv].
    - cbn [map app length]. cbn [shrunk]. split; [exact H0|]. split; [lra|]. split.
      + intros [|k] x E; cbn in E; [injection E as <-; cbn [shrunk]; lra|destruct k; discriminate].
      + intros k x x' E E'. destruct k; cbn in E'; [discriminate|destruct k; discriminate].
    - assert (Ep : px p = i_x i) by (unfold at_point in Ha; subst p; reflexivity).
      rewrite Ep in *. pose proof (Hmove i p' Hv I1 Hmv) as Q. pose proof (Hpos (i_x i)) as Pi.
      assert (R2 : err (px p') <= shrunk sigma kappa (err (px p0)) (length (is ++ [i]))).
      { rewrite app_length. cbn [length]. rewrite Nat.add_1_r, shrunk_S. eapply step_bound; [|exact Q]. split; assumption. }
      split; [pose proof (step_in _ _ (conj Pi I1) Q); lra|]. split; [exact R2|].
      rewrite map_app. cbn [map]. set (l := map i_x is ++ [i_x i]) in *.
      assert (Ll : length l = length (is ++ [i])) by (unfold l; rewrite !app_length, map_length; reflexivity).
      split.
      + intros k x E. destruct (Nat.lt_ge_cases k (length l)) as [Hl|Hl].
        * rewrite nth_error_app1 in E by exact Hl. eauto.
        * rewrite nth_error_app2 in E by exact Hl. destruct (k - length l)%nat as [|n] eqn:En; cbn in E; [|destruct n; discriminate].
          injection E as <-. replace k with (length (is ++ [i])) by lia. exact R2.
      + intros k x x' E E'. destruct (Nat.lt_ge_cases (k + 1) (length l)) as [Hl|Hl].
        * rewrite nth_error_app1 in E by lia. rewrite nth_error_app1 in E' by exact Hl. eauto.
        * rewrite nth_error_app2 in E' by exact Hl. destruct (k + 1 - length l)%nat as [|n] eqn:En; cbn in E'; [|destruct n; discriminate].
          injection E' as <-. assert (Hk1 : (k + 1)%nat = length l) by lia.
          rewrite nth_error_app1 in E by lia. unfold l in E. rewrite nth_error_app2 in E by (rewrite Ll in Hk1; rewrite app_length in Hk1; cbn in Hk1; rewrite map_length; lia).
          replace (k - length (map i_x is))%nat with 0%nat in E by (rewrite Ll in Hk1; rewrite app_length in Hk1; cbn in Hk1; rewrite map_length; lia).
          cbn in E. injection E as <-. exact Q.
  Qed.

  Variable stuck : info -> Prop.
  Variable ftrial : outcome unit -> Prop.
  Variable pub : list diag.
  Variable reports : bool.
  Variable file0 : option report.
  Hypothesis Hst : forall i, ~ stuck i.
  Hypothesis Htr : forall e, ~ ftrial e.
  Hypothesis Hpub : forall d, named (f_stop cf) = Some d -> In d pub.
  Hypothesis Hmax : (0 <= f_max cf < int32_max)%Z.
  Notation ends := (solve_ends o cf valid measure move p0 stuck nothing nothing ftrial residual_exn linesearch_exn pub reports file0).
  Lemma printed_state_nth : forall is k (l : line R V), nth_error (printed o measure pub is) k = Some l ->
    nth_error (map i_x is) k = Some (l_state l).
  Proof. intros is k l E. apply (map_nth_error l_state) in E. rewrite printed_states in E. exact E. Qed.
  Lemma nth_left {A} : forall (l m : list A) k x, nth_error l k = Some x -> nth_error (l ++ m) k = Some x.
  Proof. intros l m k x E. rewrite nth_error_app1; [exact E|]. apply nth_error_Some. congruence. Qed.

  Lemma ends_shrink : forall r p ls fl, ends r p ls fl ->
    r = Ok tt /\ err (px p) <= rad /\
    (forall k l, nth_error ls k = Some l -> err (l_state l) <= shrunk sigma kappa (err (px p0)) k) /\
    (forall k l l', nth_error ls k = Some l -> nth_error ls (k + 1) = Some l' ->
       err (l_state l') <= step (err (l_state l))) /\
    ((exists i m1 k a l, valid i /\ i_x i = px p /\ met o cf k m1 (measure i) /\ ls = a ++ [l] /\ l_state l = px p /\ line_met o cf l) \/
     (Z.of_nat (length ls) = f_max cf /\ err (px p) <= shrunk sigma kappa (err (px p0)) (length ls))).
  Proof.
    intros r p ls fl K.
    destruct K as [is i p Hn Hs Ha Hv Hm|is i p e Hn Hs Ha Hv Hm Hstk|is p Hn Hmx Hs|is p Hn Hn2 Hs|is p e Hn Hs He Hfe
                  |is p r Hn Hs He Hfe|is p r Hn Hs He Hfe|is i p r Hn Hs Ha Hv Hm He Hfe];
      try (destruct Hfe; fail); try (exfalso; eapply Hst; eassumption); try (exfalso; eapply Htr; eassumption); try (exfalso; lia).
    - destruct (steps_shrink _ _ Hs) as [S1 [S2 [S3 S4]]].
      assert (Ep : px p = i_x i) by (unfold at_point in Ha; subst p; reflexivity).
      assert (El : map i_x is ++ [px p] = map i_x (is ++ [i])) by (rewrite map_app, Ep; reflexivity). rewrite El in S3, S4.
      split; [reflexivity|]. split; [exact S1|]. split; [|split].
      + intros k l E. apply printed_state_nth in E. eauto.
      + intros k l l' E E'. apply printed_state_nth in E. apply printed_state_nth in E'. eauto.
      + left. exists i, (first measure is i), (number is). eexists. eexists. split; [exact Hv|]. split; [symmetry; exact Ep|]. split; [exact Hm|].
        split; [apply printed_last|]. split; [symmetry; exact Ep|]. apply line_met_iff; assumption.
    - destruct (steps_shrink _ _ Hs) as [S1 [S2 [S3 S4]]].
      split; [reflexivity|]. split; [exact S1|]. split; [|split].
      + intros k l E. apply printed_state_nth in E. eapply S3. apply nth_left. exact E.
      + intros k l l' E E'. apply printed_state_nth in E. apply printed_state_nth in E'. eapply S4; apply nth_left; eassumption.
      + right. rewrite printed_length. split; [lia|exact S2].
  Qed.

  (** The criterion recognises the states close enough. *)
  Variable K : nat.
  Hypothesis Hseen : forall i m1 k, valid i -> err (i_x i) <= rad -> err (i_x i) <= shrunk sigma kappa (err (px p0)) K -> met o cf k m1 (measure i).
  Lemma steps_short : forall is p, steps' is p -> (length is <= K)%nat.
  Proof.
    intros is p Hs. induction Hs as [|is p i p' Hs IH Ha Hv Hm Hmv]; [cbn; lia|].
    rewrite app_length. cbn [length]. destruct (Nat.eq_dec (length is) K) as [E|]; [exfalso|lia].
    destruct (steps_shrink _ _ Hs) as [S1 [S2 _]]. unfold at_point in Ha. subst p. cbn [fst] in S1, S2.
    apply Hm. apply Hseen; [exact Hv|exact S1|]. rewrite <- E. exact S2.
  Qed.
  Lemma ends_short : (Z.of_nat K < f_max cf)%Z -> forall r p ls fl, ends r p ls fl -> (length ls <= K + 1)%nat /\
    exists i m1 k a l, valid i /\ i_x i = px p /\ met o cf k m1 (measure i) /\ ls = a ++ [l] /\ l_state l = px p /\ line_met o cf l.
  Proof.
    intros HK r p ls fl Hend.
    destruct Hend as [is i p Hn Hs Ha Hv Hm|is i p e Hn Hs Ha Hv Hm Hstk|is p Hn Hmx Hs|is p Hn Hn2 Hs|is p e Hn Hs He Hfe
                  |is p r Hn Hs He Hfe|is p r Hn Hs He Hfe|is i p r Hn Hs Ha Hv Hm He Hfe];
      try (destruct Hfe; fail); try (exfalso; eapply Hst; eassumption); try (exfalso; eapply Htr; eassumption); try (exfalso; lia).
    - pose proof (steps_short _ _ Hs). rewrite printed_length, app_length. cbn [length]. split; [lia|].
      assert (Ep : px p = i_x i) by (unfold at_point in Ha; subst p; reflexivity).
      exists i, (first measure is i), (number is). eexists. eexists. split; [exact Hv|]. split; [symmetry; exact Ep|]. split; [exact Hm|].
      split; [apply printed_last|]. split; [symmetry; exact Ep|]. apply line_met_iff; assumption.
    - pose proof (steps_short _ _ Hs). exfalso. lia.
  Qed.
End Shrinking.

(** ** One step *)
Section Steps.
  Context {eps : R} {V Rs J H : Type}.
  Notation o := (Rops eps).
  Variable no : nlops R V Rs J H.
  Variable ro : vops R Rs.
  Variable apJ : J -> V -> Rs.
  Variable apH : H -> V -> V.
  Hypothesis HL : nl_laws eps no ro apJ apH.
  Notation vo := (n_vo no).
  Notation dot := (n_dot no).
  Notation rdot := (n_rdot no).
  Variable F : V -> Rs.
  Variable DF : V -> J.
  Variable xs : V.
  Variables rad beta gamma rho : R.
  Hypothesis HG : regular_minimum no ro apJ F DF xs rad beta gamma rho.
  Let HV := nl_v _ _ _ _ _ HL.
  Let HR := nl_r _ _ _ _ _ HL.
  Notation kappa := (beta * (gamma / 2)).
  Notation sigma := (beta ^ 2 * gamma * rho).
  Notation q := (sigma + kappa * rad).
  Notation err x := (apart no x xs).
  Notation neg d := (vscale vo (- (1)) d).
  Notation step e := ((sigma + kappa * e) * e).
  Let Hb := rm_beta _ _ _ _ _ _ _ _ _ _ HG.
  Let Hg := rm_gamma _ _ _ _ _ _ _ _ _ _ HG.
  Let Hpos := err_pos no ro apJ apH HL xs.
  Lemma rnorm_pos : forall z, 0 <= n_rnorm no z.
  Proof. intros z. rewrite (nl_rnorm _ _ _ _ _ HL). apply R_sqrt.sqrt_pos. Qed.
  Lemma norm_pos : forall z, 0 <= n_norm no z.
  Proof. intros z. rewrite (nl_norm _ _ _ _ _ HL). apply R_sqrt.sqrt_pos. Qed.
  Lemma rnorm_sq : forall z, rdot z z = n_rnorm no z * n_rnorm no z.
  Proof. intros z. rewrite (nl_rnorm _ _ _ _ _ HL). symmetry. apply sqrt_sqrt. apply (in_pos _ _ HR). Qed.
  Lemma norm_sq : forall z, dot z z = n_norm no z * n_norm no z.
  Proof. intros z. rewrite (nl_norm _ _ _ _ _ HL). symmetry. apply sqrt_sqrt. apply (in_pos _ _ HV). Qed.
  Lemma rcs : forall x y, rdot x y <= n_rnorm no x * n_rnorm no y.
  Proof. intros x y. rewrite !(nl_rnorm _ _ _ _ _ HL). apply (cauchy_dot ro rdot HR). Qed.
  Lemma vcs : forall x y, dot x y <= n_norm no x * n_norm no y.
  Proof. intros x y. rewrite !(nl_norm _ _ _ _ _ HL). apply (cauchy_dot vo dot HV). Qed.
  Lemma rho_pos : 0 <= rho.
  Proof. eapply Rle_trans; [apply rnorm_pos|]. apply (rm_residual _ _ _ _ _ _ _ _ _ _ HG). Qed.
  Lemma sigma_pos : 0 <= sigma.
  Proof. pose proof rho_pos. apply Rmult_le_pos; [apply Rmult_le_pos; [apply pow_le; exact Hb|exact Hg]|assumption]. Qed.
  Lemma kappa_nonneg : 0 <= kappa.
  Proof. apply Rmult_le_pos; lra. Qed.
  Lemma rank_minimum : forall x, err x <= rad -> full_rank no ro apJ (DF x).
  Proof.
    intros x Hx v E. apply (len_zero vo dot HV). rewrite <- (nl_norm _ _ _ _ _ HL).
    pose proof (rm_inverse _ _ _ _ _ _ _ _ _ _ HG x Hx v) as K. rewrite E, (nl_rnorm _ _ _ _ _ HL), (dot_0_l _ _ HR), sqrt_0 in K. lra.
  Qed.
  Lemma cancel : forall a b, 0 <= a -> 0 <= b -> a * a <= b * a -> a <= b.
  Proof. intros a b Ha Hb' Hab. destruct (Req_dec a 0) as [->|Hn]; [exact Hb'|]. apply (Rmult_le_reg_r a); lra. Qed.
  Lemma minimum_step : forall x d, err x <= rad ->
    (forall v, rdot (apJ (DF x) d) (apJ (DF x) v) = rdot (F x) (apJ (DF x) v)) ->
    err (along o no x (neg d) 1) <= step (err x).
  Proof.
    intros x d Hx Hd. unfold apart at 1. rewrite (moved no ro apJ apH HL xs). set (e' := vadd vo (from no xs x) (neg d)).
    pose proof (rm_inverse _ _ _ _ _ _ _ _ _ _ HG x Hx e') as Hi. pose proof (rm_smooth _ _ _ _ _ _ _ _ _ _ HG x Hx) as Hsm.
    pose proof (rm_lipschitz _ _ _ _ _ _ _ _ _ _ HG x e' Hx) as Hlp. pose proof (rm_residual _ _ _ _ _ _ _ _ _ _ HG) as Hr.
    pose proof (rm_gradient _ _ _ _ _ _ _ _ _ _ HG e') as Hgr.
    set (rm := vadd ro (apJ (DF x) (from no xs x)) (vscale ro (- (1)) (vadd ro (F x) (vscale ro (- (1)) (F xs))))) in *.
    set (df := vadd ro (apJ (DF x) e') (vscale ro (- (1)) (apJ (DF xs) e'))) in *.
    pose proof (Hd e') as Ed. set (w := apJ (DF x) e') in *.
    assert (Ew : rdot w w = rdot rm w - rdot (F xs) df).
    { unfold df. rewrite (dot_add_r _ _ HR), (dot_scale_r _ _ HR), Hgr. unfold rm. unfold w at 1, e'.
      rewrite (apJ_add _ _ _ _ HL), (apJ_scale _ _ _ _ HL).
      rewrite ?(in_add _ _ HR), ?(in_scale _ _ HR), ?(in_add _ _ HR), ?(in_scale _ _ HR), Ed. ring. }
    assert (Hf : - rdot (F xs) df <= rho * (gamma * err x * (beta * n_rnorm no w))).
    { replace (- rdot (F xs) df) with (rdot (vscale ro (- (1)) (F xs)) df) by (rewrite (in_scale _ _ HR); ring).
      eapply Rle_trans; [apply rcs|]. apply Rmult_le_compat; [apply rnorm_pos|apply rnorm_pos| |].
      - rewrite (nl_rnorm _ _ _ _ _ HL), (len_opp ro rdot HR), <- (nl_rnorm _ _ _ _ _ HL). exact Hr.
      - eapply Rle_trans; [exact Hlp|]. apply Rmult_le_compat_l; [|exact Hi]. apply Rmult_le_pos; [exact Hg|apply Hpos]. }
    assert (Hm : rdot rm w <= gamma / 2 * err x ^ 2 * n_rnorm no w).
    { eapply Rle_trans; [apply rcs|]. apply Rmult_le_compat_r; [apply rnorm_pos|exact Hsm]. }
    pose proof (Hpos x) as Px. pose proof rho_pos as Pr.
    assert (Hw : n_rnorm no w <= gamma / 2 * err x ^ 2 + rho * gamma * err x * beta).
    { apply cancel; [apply rnorm_pos| |rewrite <- rnorm_sq, Ew; lra].
      assert (0 <= gamma / 2 * err x ^ 2) by (apply Rmult_le_pos; [lra|apply pow_le; exact Px]).
      assert (0 <= rho * gamma * err x * beta) by (repeat apply Rmult_le_pos; assumption). lra. }
    eapply Rle_trans; [exact Hi|]. eapply Rle_trans; [apply Rmult_le_compat_l; [exact Hb|exact Hw]|].
    apply Req_le. cbn. field.
  Qed.
  Lemma step_q : forall x, err x <= rad -> step (err x) <= q * err x.
  Proof.
    intros x Hx. apply Rmult_le_compat_r; [apply Hpos|]. apply Rplus_le_compat_l. apply Rmult_le_compat_l; [exact kappa_nonneg|exact Hx].
  Qed.
  Let Hs := rm_small _ _ _ _ _ _ _ _ _ _ HG.
  Lemma correction_near : forall x d, err x <= rad -> err (along o no x (neg d) 1) <= step (err x) ->
    n_norm no (neg d) <= 2 * err x.
  Proof.
    intros x d Hx Hq. pose proof (Hpos x) as Px. pose proof (step_in sigma kappa rad kappa_nonneg Hs _ _ (conj Px Hx) Hq) as Hi.
    assert (E : neg d = vadd vo (from no xs (along o no x (neg d) 1)) (neg (from no xs x))).
    { rewrite (moved no ro apJ apH HL xs). apply (dot_ext vo dot HV). intros v. rewrite !(in_add _ _ HV), !(in_scale _ _ HV). ring. }
    rewrite E, (nl_norm _ _ _ _ _ HL). eapply Rle_trans; [apply (triangle vo dot HV)|].
    rewrite (len_opp vo dot HV), <- !(nl_norm _ _ _ _ _ HL). fold (err x) (err (along o no x (neg d) 1)). lra.
  Qed.
  Lemma correction_far : forall x d, err x <= rad -> err (along o no x (neg d) 1) <= step (err x) ->
    (1 - q) * err x <= n_norm no (neg d).
  Proof.
    intros x d Hx Hq. pose proof (Hpos x) as Px.
    assert (E : from no xs x = vadd vo (from no xs (along o no x (neg d) 1)) (neg (neg d))).
    { rewrite (moved no ro apJ apH HL xs). apply (dot_ext vo dot HV). intros v. rewrite !(in_add _ _ HV), !(in_scale _ _ HV). ring. }
    assert (Hbd : err x <= err (along o no x (neg d) 1) + n_norm no (neg d)).
    { unfold apart at 1. rewrite E, (nl_norm _ _ _ _ _ HL). eapply Rle_trans; [apply (triangle vo dot HV)|].
      rewrite (len_opp vo dot HV), <- !(nl_norm _ _ _ _ _ HL). apply Rle_refl. }
    pose proof (step_q x Hx). lra.
  Qed.
  (** the gradient is J^T J d *)
  Lemma gradient_above : forall x d g M, 0 <= M -> (forall v, n_rnorm no (apJ (DF x) v) <= M * n_norm no v) ->
    (forall v, dot g v = rdot (apJ (DF x) d) (apJ (DF x) v)) -> n_norm no g <= M ^ 2 * n_norm no (neg d).
  Proof.
    intros x d g M HM0 HM Hd. replace (n_norm no (neg d)) with (n_norm no d) by (rewrite !(nl_norm _ _ _ _ _ HL), (len_opp vo dot HV); reflexivity).
    apply cancel; [apply norm_pos|apply Rmult_le_pos; [apply pow_le; exact HM0|apply norm_pos]|].
    rewrite <- norm_sq, Hd. eapply Rle_trans; [apply rcs|].
    eapply Rle_trans; [apply Rmult_le_compat; [apply rnorm_pos|apply rnorm_pos|apply HM|apply HM]|]. apply Req_le. cbn. ring.
  Qed.
  Lemma gradient_below : forall x d g, err x <= rad ->
    (forall v, dot g v = rdot (apJ (DF x) d) (apJ (DF x) v)) -> n_norm no (neg d) <= beta ^ 2 * n_norm no g.
  Proof.
    intros x d g Hx Hd. replace (n_norm no (neg d)) with (n_norm no d) by (rewrite !(nl_norm _ _ _ _ _ HL), (len_opp vo dot HV); reflexivity).
    pose proof (rm_inverse _ _ _ _ _ _ _ _ _ _ HG x Hx d) as Hi.
    assert (Ha : n_rnorm no (apJ (DF x) d) <= beta * n_norm no g).
    { apply cancel; [apply rnorm_pos|apply Rmult_le_pos; [exact Hb|apply norm_pos]|]. rewrite <- rnorm_sq, <- Hd.
      eapply Rle_trans; [apply vcs|]. eapply Rle_trans; [apply Rmult_le_compat_l; [apply norm_pos|exact Hi]|]. apply Req_le. ring. }
    eapply Rle_trans; [exact Hi|]. eapply Rle_trans; [apply Rmult_le_compat_l; [exact Hb|exact Ha]|]. apply Req_le. cbn. ring.
  Qed.
End Steps.

(** ** Where the bounds come from *)
Section Lipschitz.
  Context {eps : R} {V Rs J H : Type}.
  Variable no : nlops R V Rs J H.
  Variable ro : vops R Rs.
  Variable apJ : J -> V -> Rs.
  Variable apH : H -> V -> V.
  Hypothesis HL : nl_laws eps no ro apJ apH.
  Notation vo := (n_vo no).
  Notation rdot := (n_rdot no).
  Let HV := nl_v _ _ _ _ _ HL.
  Let HR := nl_r _ _ _ _ _ HL.
  Variable F : V -> Rs.
  Variable DF : V -> J.
  Variable xs : V.
  Variables rad beta gamma rho : R.
  Hypothesis Hgrad : forall v, rdot (F xs) (apJ (DF xs) v) = 0.
  Hypothesis Hres : n_rnorm no (F xs) <= rho.
  Hypothesis Hb : 0 <= beta.
  Hypothesis Hg : 0 <= gamma.
  Hypothesis Hr : 0 <= rad.
  Hypothesis Hinv : forall x, apart no x xs <= rad -> forall v, n_norm no v <= beta * n_rnorm no (apJ (DF x) v).
  Hypothesis Hd : derivative_near no apJ F DF xs rad.
  Hypothesis Hl : lipschitz_near no ro apJ DF xs rad gamma.
  Hypothesis Hs : beta ^ 2 * gamma * rho + beta * (gamma / 2) * rad < 1.
  Lemma apart_self : apart no xs xs = 0.
  Proof.
    unfold apart. rewrite (nl_norm _ _ _ _ _ HL). replace (from no xs xs) with (vzero vo); [rewrite (dot_0_l _ _ HV); apply sqrt_0|].
    apply (dot_ext vo (n_dot no) HV). intros v. unfold from. rewrite (in_add _ _ HV), (in_scale _ _ HV), (dot_0_l _ _ HV). ring.
  Qed.
  Lemma lipschitz_minimum : regular_minimum no ro apJ F DF xs rad beta gamma rho.
  Proof.
    constructor; try assumption.
    - set (F' := fun x => vadd ro (F x) (vscale ro (- (1)) (F xs))). intros x Hx.
      apply (lipschitz_smooth no ro apJ apH HL F' DF xs rad gamma); try assumption.
      + apply (dot_ext ro rdot HR). intros v. unfold F'. rewrite (in_add _ _ HR), (in_scale _ _ HR), (dot_0_l _ _ HR). ring.
      + intros y w t Hy Ht. unfold F'.
        apply (derivable_pt_lim_ext (fun u => rdot (F (between no xs y u)) w - rdot (F xs) w));
          [intros u; rewrite (in_add _ _ HR), (in_scale _ _ HR); ring|].
        replace (rdot (apJ (DF (between no xs y t)) (from no xs y)) w) with (rdot (apJ (DF (between no xs y t)) (from no xs y)) w - 0) by ring.
        apply (derivable_pt_lim_minus (fun u => rdot (F (between no xs y u)) w) (fct_cte (rdot (F xs) w))); [exact (Hd y w t Hy Ht)|apply derivable_pt_lim_const].
    - intros x v Hx. apply Hl; [exact Hx|rewrite apart_self; exact Hr].
  Qed.
End Lipschitz.

(** Every tolerance is reached. *)
Lemma shrunk_geometric : forall sigma kappa rad e, 0 <= sigma -> 0 <= kappa -> 0 <= e <= rad -> sigma + kappa * rad < 1 ->
  forall n, 0 <= shrunk sigma kappa e n <= rad /\ shrunk sigma kappa e n <= (sigma + kappa * rad) ^ n * e.
Proof.
  intros sigma kappa rad e Hs Hk He Hq. induction n as [|n [I1 I2]]; [cbn; lra|]. cbn [shrunk pow].
  set (b := shrunk sigma kappa e n) in *. assert (0 <= kappa * b <= kappa * rad) by (split; [apply Rmult_le_pos; lra|apply Rmult_le_compat_l; lra]).
  assert (P : 0 <= (sigma + kappa * b) * b) by (apply Rmult_le_pos; lra).
  assert (L : (sigma + kappa * b) * b <= (sigma + kappa * rad) * b) by (apply Rmult_le_compat_r; lra).
  assert (Q : 0 <= sigma + kappa * rad) by lra.
  split; [split; [exact P|]|].
  - assert ((sigma + kappa * rad) * b <= 1 * b) by (apply Rmult_le_compat_r; lra). lra.
  - eapply Rle_trans; [exact L|]. rewrite Rmult_assoc. apply Rmult_le_compat_l; assumption.
Qed.
Lemma shrunk_vanishes : forall sigma kappa rad e near tol, 0 <= sigma -> 0 <= kappa -> 0 <= e <= rad -> sigma + kappa * rad < 1 ->
  0 < tol -> 0 <= near -> exists n, near * shrunk sigma kappa e n < tol.
Proof.
  intros sigma kappa rad e near tol Hs Hk He Hq Ht Hn. set (q := sigma + kappa * rad) in *.
  assert (Hq0 : 0 <= q) by (assert (0 <= kappa * rad) by (apply Rmult_le_pos; lra); unfold q; lra).
  assert (Pne : 0 <= near * e) by (apply Rmult_le_pos; lra).
  destruct (pow_lt_1_zero q ltac:(rewrite Rabs_right; lra) (tol / (near * e + 1))) as [N HN].
  { apply Rmult_lt_0_compat; [exact Ht|]. apply Rinv_0_lt_compat. lra. }
  exists N. specialize (HN N (le_n N)). rewrite Rabs_right in HN by (apply Rle_ge, pow_le; exact Hq0).
  destruct (shrunk_geometric sigma kappa rad e Hs Hk He Hq N) as [_ G]. fold q in G.
  assert (0 <= q ^ N) by (apply pow_le; exact Hq0). set (t := q ^ N) in *.
  assert (t * (near * e + 1) < tol).
  { apply (Rmult_lt_compat_r (near * e + 1)) in HN; [|lra]. replace (tol / (near * e + 1) * (near * e + 1)) with tol in HN by (field; lra). exact HN. }
  assert (near * shrunk sigma kappa e N <= near * (t * e)) by (apply Rmult_le_compat_l; assumption). lra.
Qed.

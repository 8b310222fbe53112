(** C77: two runs; mass matrices; backward Euler against a solution. *)
From Coq Require Import ZArith List Reals Lra Lia Field FunctionalExtensionality.
From Verif Require Import Base RInst Laws LawInst AdvanceModel AdvanceSpec ExplicitModel ImplicitModel ImplicitSpec ImplicitMore Track
  StabilitySpec StabilityOrder DissipSpec DissipProofs DissipChain DissipClaims.
Import ListNotations.
Local Open Scope R_scope.

Section Pair.
  Context {V : Type} (eps0 : R) (vo : vops R V) (ip : V -> V -> R) (f : V -> R -> V).
  Notation o := (Rops eps0).
  Hypotheses (HV : vspace o vo) (HI : inner vo ip) (HD : dissipative eps0 vo ip f).
  Notation len := (length_of ip).
  Notation "x -- y" := (vminus (Rops eps0) vo x y) (at level 50, left associativity).
  Variables (tol tol' start start' : R) (y0 y0' : V) (tr tr' : list (call R V)).
  Hypothesis Hst : same_times tr tr'.
  Hypothesis Hfw : forward_in_time tr.
  Lemma other_entry k t y : In (k, t, y) (reports tr') -> exists y', In (k, t, y') (reports tr).
  Proof.
    intros H. apply (in_map fst) in H. rewrite <- Hst in H. apply in_map_iff in H.
    destruct H as ([[k' t'] y'] & E & H). injection E as -> ->. exists y'. exact H.
  Qed.
  Lemma other_entry' k t y : In (k, t, y) (reports tr) -> exists y', In (k, t, y') (reports tr').
  Proof.
    intros H. apply (in_map fst) in H. rewrite Hst in H. apply in_map_iff in H.
    destruct H as ([[k' t'] y'] & E & H). injection E as -> ->. exists y'. exact H.
  Qed.
  Lemma second near : run_of tol' near start' y0' tr' ->
    exists n rs z, z 0%nat = y0' /\ near rs (fun _ => tol') n z /\ rs 0%nat = start' /\
      (forall k, (k < n)%nat -> rs k <= rs (Datatypes.S k)) /\ times_are tr rs /\
      (forall k, (k <= n)%nat -> exists y, In (Z.of_nat k, rs k, y) (reports tr)) /\
      forall k t y, In (k, t, y) (reports tr') -> exists j, k = Z.of_nat j /\ (j <= n)%nat /\ y = z j.
  Proof.
    intros (n & rs & z & E1 & E2 & HR & HN). exists n, rs, z. split; [exact E2|]. split; [exact HN|]. split; [exact E1|].
    assert (HT : forall k, (k <= n)%nat -> exists y, In (Z.of_nat k, rs k, y) (reports tr)).
    { intros k Hk. apply (other_entry _ _ (z k)). apply HR. exists k. repeat split; lia. }
    split; [|split; [|split; [exact HT|]]].
    - intros k Hk. destruct (HT k ltac:(lia)) as (a & Ha). destruct (HT (Datatypes.S k) ltac:(lia)) as (b & Hb).
      rewrite Nat2Z.inj_succ, <- Z.add_1_r in Hb. exact (Hfw _ _ _ _ _ Ha Hb).
    - intros k t y H. destruct (other_entry' _ _ _ H) as (y' & H'). apply HR in H'.
      destruct H' as (j & Ej & _ & Et & _). apply Nat2Z.inj in Ej. subst. reflexivity.
    - intros k t y H. apply HR in H. destruct H as (j & Ej & Hj & _ & Ey). exists j. repeat split; assumption.
  Qed.
  Lemma tols k : INR k * tol + elapsed (fun _ => tol') k = IZR (Z.of_nat k) * (tol + tol').
  Proof. rewrite elapsed_const, <- INR_IZR_INZ. ring. Qed.
  Lemma pair_bdf1 : run_of tol (near_bdf1 eps0 vo ip f) start y0 tr -> run_of tol' (near_bdf1 eps0 vo ip f) start' y0' tr' ->
    apart eps0 vo ip (fun k => len (y0 -- y0') + IZR k * (tol + tol')) tr tr'.
  Proof.
    intros HR HR'. destruct (second _ HR') as (n & rs & z & E2 & HN & _ & Hts & Htr & _ & HZ).
    intros k t y t' y' H H'. destruct (HZ _ _ _ H') as (j & -> & Hj & ->). rewrite <- tols, <- E2.
    eapply against_bdf1; eassumption.
  Qed.
  Lemma pair_bdf2 : run_of tol (near_bdf2 eps0 vo ip f) start y0 tr -> run_of tol' (near_bdf2 eps0 vo ip f) start' y0' tr' ->
    apart eps0 vo ip (fun k => sqrt 2 * len (y0 -- y0') + 6 * (IZR k * (tol + tol'))) tr tr'.
  Proof.
    intros HR HR'. destruct (second _ HR') as (n & rs & z & E2 & HN & _ & Hts & Htr & _ & HZ).
    intros k t y t' y' H H'. destruct (HZ _ _ _ H') as (j & -> & Hj & ->). rewrite <- tols, <- E2.
    eapply against_bdf2; eassumption.
  Qed.
  Lemma pair_cn : run_of tol (near_cn eps0 vo ip f) start y0 tr -> run_of tol' (near_cn eps0 vo ip f) start' y0' tr' ->
    steps_not_growing tr -> forall t1 s1, In (1%Z, t1, s1) (reports tr) ->
    apart eps0 vo ip (fun k => len (y0 -- y0' -- vscale vo (1 / 2 * (t1 - start)) (f y0 start -- f y0' start)) + IZR k * (tol + tol')) tr tr'.
  Proof.
    intros HR HR' Hng t1 s1 H1. destruct (second _ HR') as (n & rs & z & E2 & HN & _ & Hts & Htr & HT & HZ).
    assert (Es : rs 0%nat = start).
    { destruct HR as (m & rr & yy & A & _ & B & _). symmetry. apply (Htr 0%nat _ (yy 0%nat)). apply B. exists 0%nat. repeat split; [lia|congruence]. }
    assert (E1 : t1 = rs 1%nat) by (apply (Htr 1%nat _ s1); exact H1).
    assert (Hn1 : (0 < n)%nat).
    { destruct (other_entry' _ _ _ H1) as (s1' & H1'). destruct (HZ _ _ _ H1') as (j & Ej & Hj & _). lia. }
    assert (Hh : forall k, (Datatypes.S k < n)%nat -> rs (Datatypes.S (Datatypes.S k)) - rs (Datatypes.S k) <= rs (Datatypes.S k) - rs k).
    { intros k Hk. destruct (HT k ltac:(lia)) as (a & Ha). destruct (HT (Datatypes.S k) ltac:(lia)) as (b & Hb).
      destruct (HT (Datatypes.S (Datatypes.S k)) ltac:(lia)) as (c & Hc).
      replace (Z.of_nat (Datatypes.S (Datatypes.S k))) with (Z.of_nat k + 2)%Z in Hc by lia.
      replace (Z.of_nat (Datatypes.S k)) with (Z.of_nat k + 1)%Z in Hb by lia. exact (Hng _ _ _ _ _ _ _ Ha Hb Hc). }
    intros k t y t' y' H H'. destruct (HZ _ _ _ H') as (j & -> & Hj & ->). rewrite <- tols, <- E2, E1, <- Es.
    destruct j as [|j].
    - assert (Ey : y = y0).
      { destruct HR as (m & rr & yy & _ & A & B & _). apply B in H. destruct H as (i & Ei & _ & _ & ->).
        replace i with 0%nat by lia. exact A. }
      subst y. cbn [elapsed INR]. rewrite Rmult_0_l, !Rplus_0_r.
      apply (len_cn eps0 vo ip HI); [specialize (Hts 0%nat Hn1); lra|apply HD].
    - eapply against_cn; try eassumption. lia.
  Qed.
End Pair.

(** ** Constant mass matrices *)
Section Mass.
  Context {V J W Ws U : Type} (eps0 : R) (vo : vops R V) (jo : vops R J) (japp : J -> V -> V) (ip : V -> V -> R).
  Notation o := (Rops eps0).
  Variables (u : isys (S:=R) (V:=V) (J:=J) (W:=W)) (solver : Ws -> V -> sol V V J Ws).
  Hypotheses (HV : vspace o vo) (HJ : vspace o jo) (HI : inner vo ip).
  Let HF := R_field eps0.
  Let HC := R_char0 eps0.
  Variables (m : J) (minv : V -> V) (f : V -> R -> V) (tol : R).
  Hypothesis Hf : rhs_mass_is u (fun _ _ => m) f.
  Hypotheses (Hlin : linear vo vo (japp m)) (Hli : forall x, minv (japp m x) = x) (Hri : forall x, japp m (minv x) = x).
  Hypotheses (Hsym : forall x y, ip (japp m x) y = ip x (japp m y)) (Hpos : forall x, 0 <= ip (japp m x) x).
  Notation ipm := (fun x y => ip (japp m x) y).
  Notation fm := (fun y t => minv (f y t)).
  Notation Acc := (fun r => length_of ipm (minv r) <= tol).
  Lemma mass_inner : inner vo ipm.
  Proof.
    split.
    - intros x y. rewrite Hsym. apply (ip_sym _ _ HI).
    - intros x y z. rewrite (lin_add _ _ _ Hlin). apply (ip_add _ _ HI).
    - intros a x z. rewrite (lin_scale _ _ _ Hlin). apply (ip_scale _ _ HI).
    - exact Hpos.
  Qed.
  Lemma minv_linear : linear vo vo minv.
  Proof.
    split.
    - intros x y. rewrite <- (Hri x) at 1. rewrite <- (Hri y) at 1. rewrite <- (lin_add _ _ _ Hlin). apply Hli.
    - intros a x. rewrite <- (Hri x) at 1. rewrite <- (lin_scale _ _ _ Hlin). apply Hli.
  Qed.
  Lemma minv_minus x y : minv (vminus o vo x y) = vminus o vo (minv x) (minv y).
  Proof. unfold vminus. rewrite (lin_add _ _ _ minv_linear), (lin_scale _ _ _ minv_linear). reflexivity. Qed.
  Lemma mass_dissipative : dissipative eps0 vo ip f -> dissipative eps0 vo ipm fm.
  Proof. intros HD y z t. cbv beta. rewrite <- minv_minus, Hri. apply HD. Qed.
  Lemma mass_bdf1 a hh g c : minv (bdf1_R_mm o vo japp a hh m g c) = bdf1_R o vo a hh (minv g) c.
  Proof. unfold bdf1_R_mm, bdf1_R. rewrite minv_minus, Hli, (lin_scale _ _ _ minv_linear). reflexivity. Qed.
  Lemma mass_bdf2 a p hh g c : minv (bdf2_R_mm o vo japp a p hh m g c) = bdf2_R o vo a p hh (minv g) c.
  Proof. unfold bdf2_R_mm, bdf2_R. rewrite minv_minus, Hli, (lin_scale _ _ _ minv_linear). reflexivity. Qed.
  Lemma run_bdf1_mm start y0 tr : completed_mm U o vo jo japp u solver BDF1 Acc start y0 tr ->
    run_of tol (near_bdf1 eps0 vo ipm fm) start y0 tr.
  Proof.
    intros H. assert (G : exists l, linked_from (sadd o) (accepted_bdf1_mm o vo japp Acc (fun _ _ => m) f) start y0 l /\ reports tr = numbered l).
    { inversion H; subst;
      (assert (HL : length (t_st g0) = 1%nat) by (match goal with h : implicit_create _ _ _ _ _ _ _ = _ |- _ => injection h as <- end; reflexivity)).
      - edestruct (bdf1_mm_n_steps (U:=U) o vo jo japp u solver HF HV HJ) as (t' & d' & l & _ & E1 & E2); [eassumption|exact Hf|exact HL|eassumption|eassumption|].
        exists ((t', d', y') :: l). split; [exact E1|exact E2].
      - edestruct (bdf1_mm_target (U:=U) o vo jo japp u solver HF HV HJ) as (t' & d' & l & E1 & E2); [eassumption|eassumption|exact Hf|exact HL|eassumption|eassumption|].
        exists ((t', d', y') :: l). split; [exact E1|exact E2]. }
    destruct G as (l & A & B). eapply (chain_run eps0); [exact A|exact B|].
    intros n ts ys HP k Hk. specialize (HP k Hk). unfold accepted_bdf1_mm in HP.
    destruct k; cbn [past] in HP; cbn [sadd Rops] in HP; rewrite mass_bdf1 in HP;
      match type of HP with context[f _ (?a + (?c - ?a))] => replace (a + (c - a)) with c in HP by ring end; exact HP.
  Qed.
  Lemma run_bdf2_mm start y0 tr : completed_mm U o vo jo japp u solver BDF2 Acc start y0 tr ->
    run_of tol (near_bdf2 eps0 vo ipm fm) start y0 tr.
  Proof.
    intros H. assert (G : exists l, linked_from (sadd o) (accepted_bdf2_mm o vo japp Acc (fun _ _ => m) f) start y0 l /\ reports tr = numbered l).
    { inversion H; subst;
      (assert (HL : length (t_st g0) = 2%nat) by (match goal with h : implicit_create _ _ _ _ _ _ _ = _ |- _ => injection h as <- end; reflexivity)).
      - edestruct (bdf2_mm_n_steps (U:=U) o vo jo japp u solver HF HC HV HJ) as (t' & d' & l & _ & E1 & E2); [eassumption|exact Hf|exact HL|eassumption|eassumption|].
        exists ((t', d', y') :: l). split; [exact E1|exact E2].
      - edestruct (bdf2_mm_target (U:=U) o vo jo japp u solver HF HC HV HJ) as (t' & d' & l & E1 & E2); [eassumption|eassumption|exact Hf|exact HL|eassumption|eassumption|].
        exists ((t', d', y') :: l). split; [exact E1|exact E2]. }
    destruct G as (l & A & B). eapply (chain_run eps0); [exact A|exact B|].
    intros n ts ys HP. split.
    - intros Hn. specialize (HP 0%nat Hn). unfold accepted_bdf2_mm, accepted_bdf1_mm in HP. cbn [past] in HP; cbn [sadd Rops] in HP. rewrite mass_bdf1 in HP.
      match type of HP with context[f _ (?a + (?c - ?a))] => replace (a + (c - a)) with c in HP by ring end; exact HP.
    - intros k Hk. specialize (HP (Datatypes.S k) Hk). unfold accepted_bdf2_mm in HP.
      destruct k; cbn [past] in HP; cbn [sadd Rops] in HP; rewrite mass_bdf2 in HP;
        match type of HP with context[f _ (?a + (?c - ?a))] => replace (a + (c - a)) with c in HP by ring end; exact HP.
  Qed.
End Mass.

(** ** Scalar equations *)
Lemma mult_inner eps0 : inner (self_v (Rops eps0)) Rmult.
Proof. split; intros; cbn; try ring. nra. Qed.
Lemma mult_length : length_of Rmult = Rabs.
Proof. apply functional_extensionality. intros x. unfold length_of. apply sqrt_Rsqr_abs. Qed.
Lemma euler_defect eps0 (f : R -> R -> R) (sol : R -> R) C a h0 hm : 0 <= h0 <= hm ->
  (forall t, a <= t -> derivable_pt_lim sol t (f (sol t) t)) ->
  (forall s t, a <= s -> a <= t -> Rabs (f (sol s) s - f (sol t) t) <= C * Rabs (s - t)) ->
  Rabs (bdf1_R (Rops eps0) (self_v (Rops eps0)) (sol a) h0 (f (sol (a + h0)) (a + h0)) (sol (a + h0))) <= C * (hm * hm).
Proof.
  intros Hh Hd Hc. unfold bdf1_R, vminus, neg1. cbn.
  assert (HC : 0 <= C).
  { specialize (Hc (a + 1) a ltac:(lra) ltac:(lra)). pose proof (Rabs_pos (f (sol (a + 1)) (a + 1) - f (sol a) a)) as P.
    replace (a + 1 - a) with 1 in Hc by ring. rewrite Rabs_R1 in Hc. lra. }
  destruct (Rle_lt_or_eq_dec 0 h0 (proj1 Hh)) as [Hp|<-].
  - destruct (MVT_cor2 sol (fun t => f (sol t) t) a (a + h0)) as (c & E & Hcc); [lra|intros c Hcc; apply Hd; lra|].
    replace (a + h0 - a) with h0 in E by ring.
    replace (sol (a + h0) + - (1) * sol a + - (1) * (h0 * f (sol (a + h0)) (a + h0)))
      with (h0 * (f (sol c) c - f (sol (a + h0)) (a + h0))) by (rewrite Rmult_minus_distr_l; lra).
    rewrite Rabs_mult, (Rabs_pos_eq h0) by lra. specialize (Hc c (a + h0) ltac:(lra) ltac:(lra)).
    rewrite (Rabs_left1 (c - (a + h0))) in Hc by lra.
    assert (Q : Rabs (f (sol c) c - f (sol (a + h0)) (a + h0)) <= C * h0) by (eapply Rle_trans; [exact Hc|apply Rmult_le_compat_l; lra]).
    apply Rle_trans with (h0 * (C * h0)); [apply Rmult_le_compat_l; lra|]. assert (h0 * h0 <= hm * hm) by nra. nra.
  - rewrite Rplus_0_r. replace (sol a + - (1) * sol a + - (1) * (0 * f (sol a) a)) with 0 by ring. rewrite Rabs_R0. nra.
Qed.
Lemma backward_euler_error {J W Ws : Type} (U : Type) (eps0 : R) (jo : vops R J) (jid : J)
    (u : isys (S:=R) (V:=R) (J:=J) (W:=W)) (solver : Ws -> R -> sol R R J Ws) (f : R -> R -> R) (tol : R) :
  vspace (Rops eps0) jo -> rhs_is u f -> (forall y z t, (f y t - f z t) * (y - z) <= 0) ->
  forall start y0 tr, completed_std U (Rops eps0) (self_v (Rops eps0)) jo jid u solver BDF1 (fun r => Rabs r <= tol) start y0 tr ->
  forward_in_time tr ->
  forall sol C hm, (forall t, start <= t -> derivable_pt_lim sol t (f (sol t) t)) ->
  (forall s t, start <= s -> start <= t -> Rabs (f (sol s) s - f (sol t) t) <= C * Rabs (s - t)) ->
  (forall k t s t' s', In (k, t, s) (reports tr) -> In ((k + 1)%Z, t', s') (reports tr) -> t' - t <= hm) ->
  forall k t y, In (k, t, y) (reports tr) -> Rabs (y - sol t) <= Rabs (y0 - sol start) + IZR k * (tol + C * (hm * hm)).
Proof.
  intros HJ Hf Hd start y0 tr H Hfw so C hm Hso Hc Hhm k t y Hin. pose (o := Rops eps0). pose (vo := self_v o).
  rewrite <- mult_length in H.
  pose proof (run_bdf1 (U:=U) eps0 vo jo jid Rmult u solver (self_space o (R_field eps0)) HJ f tol Hf _ _ _ H) as HR.
  pose proof HR as (n & rs & ys & E1 & E2 & HRI & _).
  assert (HT : forall k, (k <= n)%nat -> In (Z.of_nat k, rs k, ys k) (reports tr)).
  { intros i Hi. apply HRI. exists i. repeat split; lia. }
  assert (HS : forall k, (k < n)%nat -> In ((Z.of_nat k + 1)%Z, rs (Datatypes.S k), ys (Datatypes.S k)) (reports tr)).
  { intros i Hi. replace (Z.of_nat i + 1)%Z with (Z.of_nat (Datatypes.S i)) by lia. apply HT. lia. }
  assert (Hts : forall k, (k < n)%nat -> rs k <= rs (Datatypes.S k)).
  { intros i Hi. exact (Hfw _ _ _ _ _ (HT i ltac:(lia)) (HS i Hi)). }
  assert (Hst : forall k, (k <= n)%nat -> start <= rs k).
  { induction k0 as [|i IH]; intros Hi; [rewrite E1; lra|]. specialize (IH ltac:(lia)). specialize (Hts i ltac:(lia)). lra. }
  assert (Htr : times_are tr rs).
  { intros i t' y' H'. apply HRI in H'. destruct H' as (j & Ej & _ & Et & _). apply Nat2Z.inj in Ej. subst. reflexivity. }
  apply HRI in Hin as Hin'. destruct Hin' as (j & -> & Hj & Et & _).
  pose proof (against_bdf1 eps0 vo Rmult f (self_space o (R_field eps0)) (mult_inner eps0)) as A.
  assert (HD : dissipative eps0 vo Rmult f).
  { intros a b c. specialize (Hd a b c). unfold vminus, neg1. cbn. lra. }
  assert (Hz : near_bdf1 eps0 vo Rmult f rs (fun _ => C * (hm * hm)) n (fun i => so (rs i))).
  { intros i Hi. rewrite mult_length. specialize (Hts i Hi). pose proof (Hhm _ _ _ _ _ (HT i ltac:(lia)) (HS i Hi)) as Q.
    pose proof (euler_defect eps0 f so C (rs i) (rs (Datatypes.S i) - rs i) hm ltac:(lra)) as D.
    replace (rs i + (rs (Datatypes.S i) - rs i)) with (rs (Datatypes.S i)) in D by ring. apply D.
    - intros s Hs. apply Hso. specialize (Hst i ltac:(lia)). lra.
    - intros s s' Hs Hs'. specialize (Hst i ltac:(lia)). apply Hc; lra. }
  specialize (A HD tol start y0 tr rs (fun _ => C * (hm * hm)) n (fun i => so (rs i)) Hts Htr HR Hz j t y Hj Hin).
  rewrite mult_length, elapsed_const, E1 in A. unfold vminus, neg1 in A. cbn in A.
  rewrite <- INR_IZR_INZ, Et. replace (y - so (rs j)) with (y + - (1) * so (rs j)) by ring.
  replace (y0 - so start) with (y0 + - (1) * so start) by ring. lra.
Qed.

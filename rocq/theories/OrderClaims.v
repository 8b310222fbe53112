(** C94: the claims. *)
From Coq Require Import Reals ZArith List Lra Lia.
From Verif Require Import Base RInst Laws LawInst AdvanceModel AdvanceSpec ExplicitModel ExplicitSpec ExplicitExtra ImplicitModel ImplicitSpec
  StabilitySpec StabilityRuns StabilityOrder DissipSpec DissipProofs DissipClaims DissipPairs RomErrorRuns OrderSpec OrderCalculus OrderTrees OrderProofs.
Import ListNotations.
Local Open Scope R_scope.

(** ** States with their times *)
Section Pairs.
  Context {V : Type} (eps0 : R) (vo : vops R V) (ip : V -> V -> R).
  Notation o := (Rops eps0).
  Hypotheses (HV : vspace o vo) (HI : inner vo ip).
  Notation len := (length_of ip).
  Notation po := (pairs vo).
  Notation pip := (pair_ip ip).
  Notation size := (length_of pip).
  Notation "a -- b" := (vminus o vo a b) (at level 50, left associativity).
  Ltac vr := unfold vminus, neg1; vreduce (Rops eps0) vo (R_field eps0) HV; cbn.
  Lemma pairs_space : vspace o po.
  Proof.
    split; unfold pairs; cbn; intros; repeat match goal with x : V * R |- _ => destruct x end; cbn; f_equal; try ring;
      [apply (va_comm _ _ HV)|apply (va_assoc _ _ HV)|apply (va_0_l _ _ HV)|apply (vs_1 _ _ HV)|apply (vs_0 _ _ HV)|apply (vs_mul _ _ HV)|apply (vs_add_l _ _ HV)|apply (vs_add_r _ _ HV)].
  Qed.
  Lemma pairs_inner : inner po pip.
  Proof.
    split; unfold pair_ip, pairs; cbn; intros.
    - rewrite (ip_sym _ _ HI). ring.
    - rewrite (ip_add _ _ HI). ring.
    - rewrite (ip_scale _ _ HI). ring.
    - pose proof (ip_pos _ _ HI (fst x)). pose proof (Rle_0_sqr (snd x)) as Q. unfold Rsqr in Q. lra.
  Qed.
  Lemma size_0 v : size (v, 0) = len v.
  Proof. unfold length_of, pair_ip. cbn. f_equal. ring. Qed.
  Lemma len_fst x : len (fst x) <= size x.
  Proof. unfold length_of, pair_ip. apply sqrt_le_1_alt. pose proof (Rle_0_sqr (snd x)) as Q. unfold Rsqr in Q. lra. Qed.
  Lemma size_1 v : size (v, 1) <= len v + 1.
  Proof.
    replace (v, 1) with (vadd po (v, 0) (vzero vo, 1)).
    - eapply Rle_trans; [apply (tri eps0 po pip pairs_space pairs_inner)|]. rewrite size_0. apply Rplus_le_compat_l.
      unfold length_of, pair_ip. cbn. right. replace (ip (vzero vo) (vzero vo)) with 0; [replace (0 + 1 * 1) with 1 by ring; apply sqrt_1|].
      rewrite <- (vs_0 _ _ HV (vzero vo)), (ip_scale _ _ HI). cbn. ring.
    - unfold pairs. cbn. f_equal; [|ring]. rewrite (va_comm _ _ HV). apply (va_0_l _ _ HV).
  Qed.
  Variables (f : V -> R -> V) (sol : R -> V) (t0 T B : R).
  Hypothesis HT : 0 <= T.
  Hypothesis Hs : solution ip f sol t0 T.
  Notation F := (fun x : V * R => (f (fst x) (snd x), 1)).
  Notation p := (fun t => (sol t, t)).
  Notation up D := (D, 0).
  Notation during t := (t0 <= t <= t0 + T).
  Lemma p_solution : differentiates pip p (fun t => F (p t)) t0 T.
  Proof.
    intros w t Ht. unfold pair_ip. cbn. apply (plus_lim (fun s => ip (sol s) (fst w)) (fun s => s * snd w)); [apply Hs, Ht|].
    apply (is_lim (fun s => s * snd w) t (snd w + t * 0)); [apply (by_s_lim (fun _ => snd w)), const_lim|ring].
  Qed.
  Lemma linear_up (D : V * R -> V) : linear po vo D -> linear po po (fun x => up (D x)).
  Proof. intros HD. split; intros; unfold pairs; cbn; f_equal; try ring; [apply (lin_add _ _ _ HD)|apply (lin_scale _ _ _ HD)]. Qed.
  Lemma B_pos : (forall t, during t -> len (f (sol t) t) <= B) -> 0 <= B.
  Proof. intros H. eapply Rle_trans; [apply (pos_len eps0 vo ip HV HI (f (sol t0) t0))|apply H; lra]. Qed.
  Lemma more x y : 0 <= y -> x <= B * y -> x <= (B + 1) * y.
  Proof. intros. lra. Qed.
  Lemma size_pos x : 0 <= size x. Proof. apply (pos_len eps0 po pip pairs_space pairs_inner). Qed.

  Lemma ssp_form y t h k2 k3 : k2 = f (vadd vo y (vscale vo h (f y t))) (t + h * 1) ->
    k3 = f (vadd vo y (vscale vo h (vscale vo (1 / 4) (vadd vo (f y t) k2)))) (t + h * (1 / 4 * (1 + 1))) ->
    erk_next o vo f (tab_ssprk3 o) y t h = vadd vo y (vscale vo h (vadd vo (vadd vo (vscale vo (1 / 6) (f y t)) (vscale vo (1 / 6) k2)) (vscale vo (2 / 3) k3))).
  Proof.
    intros E2 E3. unfold erk_next. cbn. replace (t + 0 * h) with t by ring.
    match goal with |- context [f (vadd vo y (vscale vo (h * 1) ?k)) ?s] =>
      replace (f (vadd vo y (vscale vo (h * 1) k)) s) with k2 by (rewrite E2; f_equal; [vr; ring|ring]) end.
    match goal with |- context [f (vadd vo (vadd vo y ?a) ?b) ?s] => replace (f (vadd vo (vadd vo y a) b) s) with k3 by (rewrite E3; f_equal; [vr; field|field]) end.
    vr; field.
  Qed.
  Lemma rk4_form y t h k2 k3 k4 : k2 = f (vadd vo y (vscale vo h (vscale vo (1 / 2) (f y t)))) (t + h * (1 / 2 * 1)) ->
    k3 = f (vadd vo y (vscale vo h (vscale vo (1 / 2) k2))) (t + h * (1 / 2 * 1)) -> k4 = f (vadd vo y (vscale vo h k3)) (t + h * 1) ->
    erk_next o vo f (tab_rk4 o) y t h =
    vadd vo y (vscale vo h (vadd vo (vadd vo (vadd vo (vscale vo (1 / 6) (f y t)) (vscale vo (1 / 3) k2)) (vscale vo (1 / 3) k3)) (vscale vo (1 / 6) k4))).
  Proof.
    intros E2 E3 E4. unfold erk_next. cbn. replace (t + 0 * h) with t by ring.
    match goal with |- context [f (vadd vo y (vscale vo ?c (f y t))) ?s] =>
      replace (f (vadd vo y (vscale vo c (f y t))) s) with k2 by (rewrite E2; f_equal; [vr; field|field]) end.
    match goal with |- context [f (vadd vo (vadd vo y ?a) (vscale vo ?c k2)) ?s] =>
      replace (f (vadd vo (vadd vo y a) (vscale vo c k2)) s) with k3 by (rewrite E3; f_equal; [vr; field|field]) end.
    match goal with |- context [f (vadd vo (vadd vo (vadd vo y ?a) ?b) ?c) ?s] =>
      replace (f (vadd vo (vadd vo (vadd vo y a) b) c) s) with k4 by (rewrite E4; f_equal; [vr; field|field]) end.
    vr; field.
  Qed.
  Lemma ssp_local : expands_2 vo ip eps0 f sol t0 T B -> exists C, local_order eps0 vo len f (tab_ssprk3 o) sol t0 T C 3.
  Proof.
    intros (D1 & D2 & E). assert (HB : forall t, during t -> len (f (sol t) t) <= B) by (intros t Ht; apply (E t Ht)).
    pose proof (B_pos HB) as B0.
    destruct (ssp_order eps0 po pip pairs_space pairs_inner t0 T HT F p (B + 1)) with (D1 := fun t x => up (D1 t x)) (D2 := fun t x y => up (D2 t x y)) as (C & HC & A).
    - intros t Ht. eapply Rle_trans; [apply size_1|]. specialize (HB t Ht). cbn. lra.
    - exact p_solution.
    - intros t Ht. apply linear_up, (mu_1 _ _ _ _ _ (proj1 (proj2 (E t Ht)))).
    - intros t x Ht. apply linear_up, (mu_2 _ _ _ _ _ (proj1 (proj2 (E t Ht)))).
    - intros t x y Ht. f_equal. apply (mu_sym _ _ _ _ _ (proj1 (proj2 (E t Ht)))).
    - intros t x Ht. rewrite size_0. apply more; [apply size_pos|]. apply (mu_bound_1 _ _ _ _ _ (proj1 (proj2 (E t Ht)))).
    - intros t x y Ht. rewrite size_0. apply more; [apply Rmult_le_pos; apply size_pos|]. apply (mu_bound_2 _ _ _ _ _ (proj1 (proj2 (E t Ht)))).
    - intros v (C & HC & A). exists (B * C ^ 3). split; [apply Rmult_le_pos; [exact B0|apply pow_le, HC]|]. intros t h H.
      specialize (A t h H). destruct (E t (proj2 (inside_h t0 T t h H))) as (_ & _ & Q). destruct (v t h) as [v1 tau] eqn:Ev. specialize (Q v1 tau).
      match goal with |- length_of _ ?x <= _ => replace x with (fst x, 0) end.
      + rewrite size_0. eapply Rle_trans; [exact Q|]. rewrite Rmult_assoc. apply Rmult_le_compat_l; [exact B0|]. rewrite <- Rpow_mult_distr. apply pow_incr.
        split; [apply size_pos|]. rewrite pow_1 in A. exact A.
      + unfold vminus, pairs, neg1. cbn. f_equal. ring.
    - exists C. intros t h Ht Hh He. unfold dist. eapply Rle_trans; [|apply (A t h); repeat split; assumption].
      eapply Rle_trans; [|apply len_fst]. right. unfold ssp, vminus. cbn [fst pairs vadd vscale]. f_equal. f_equal. f_equal. apply ssp_form; reflexivity.
  Qed.
  Lemma rk_local : expands_3 vo ip eps0 f sol t0 T B -> exists C, local_order eps0 vo len f (tab_rk4 o) sol t0 T C 4.
  Proof.
    intros (D1 & D2 & D3 & E). assert (HB : forall t, during t -> len (f (sol t) t) <= B) by (intros t Ht; apply (E t Ht)).
    pose proof (B_pos HB) as B0. pose proof pairs_space as HX. pose proof pairs_inner as HXI.
    assert (M : forall t, during t -> multilinear vo ip B (D1 t) (D2 t)) by (intros t Ht; apply (E t Ht)).
    assert (M3 : forall t, during t -> trilinear vo ip B (D3 t)) by (intros t Ht; apply (E t Ht)).
    assert (b3 : forall t x y z, during t -> size (up (D3 t x y z)) <= (B + 1) * (size x * size y * size z)).
    { intros t x y z Ht. rewrite size_0. apply more; [repeat apply Rmult_le_pos; apply size_pos|]. apply (tr_bound _ _ _ _ (M3 t Ht)). }
    assert (Tay : forall v, small pip t0 T 1 v -> close eps0 po pip t0 T 4 (fun t h => F (vadd po (p t) (v t h)))
      (fun t h => vadd po (vadd po (vadd po (F (p t)) (up (D1 t (v t h)))) (vscale po (1 / 2) (up (D2 t (v t h) (v t h))))) (vscale po (1 / 6) (up (D3 t (v t h) (v t h) (v t h)))))).
    { intros v (C & HC & A). exists (B * C ^ 4). split; [apply Rmult_le_pos; [exact B0|apply pow_le, HC]|]. intros t h H.
      specialize (A t h H). destruct (E t (proj2 (inside_h t0 T t h H))) as (_ & _ & _ & Q). destruct (v t h) as [v1 tau] eqn:Ev. specialize (Q v1 tau).
      match goal with |- length_of _ ?x <= _ => replace x with (fst x, 0) end.
      - rewrite size_0. eapply Rle_trans; [exact Q|]. rewrite Rmult_assoc. apply Rmult_le_compat_l; [exact B0|]. rewrite <- Rpow_mult_distr. apply pow_incr.
        split; [apply size_pos|]. rewrite pow_1 in A. exact A.
      - unfold vminus, pairs, neg1. cbn. f_equal. ring. }
    destruct (rk_order eps0 po pip HX HXI t0 T HT F p (B + 1)) with (D1 := fun t x => up (D1 t x)) (D2 := fun t x y => up (D2 t x y))
      (D3 := fun t x y z => up (D3 t x y z)) as (C & HC & A).
    - intros t Ht. eapply Rle_trans; [apply size_1|]. specialize (HB t Ht). cbn. lra.
    - exact p_solution.
    - intros t Ht. apply linear_up, (mu_1 _ _ _ _ _ (M t Ht)).
    - intros t x Ht. apply linear_up, (mu_2 _ _ _ _ _ (M t Ht)).
    - intros t x y Ht. f_equal. apply (mu_sym _ _ _ _ _ (M t Ht)).
    - intros t x Ht. rewrite size_0. apply more; [apply size_pos|]. apply (mu_bound_1 _ _ _ _ _ (M t Ht)).
    - intros t x y Ht. rewrite size_0. apply more; [apply Rmult_le_pos; apply size_pos|]. apply (mu_bound_2 _ _ _ _ _ (M t Ht)).
    - intros v Hv. eapply (close_trans eps0 po pip HX HXI); [apply (close_weaken eps0 po pip t0 T HT 4 3); [lia|apply Tay, Hv]|].
      apply (close_small eps0 po pip). apply (small_ext pip t0 T 3 (fun t h => vscale po (1 / 6) (up (D3 t (v t h) (v t h) (v t h))))).
      + intros t h _. unfold vminus, neg1. vreduce (Rops eps0) (pairs vo) (R_field eps0) HX; cbn; field.
      + apply (small_scale eps0 po pip HX HXI).
        apply (D3_small eps0 po pip HX HXI t0 T HT F p (B + 1)) with (D3 := fun t x y z => up (D3 t x y z)) (m := 1%nat) (k := 1%nat) (l := 1%nat); try exact Hv; [|exact b3].
        intros t Ht. eapply Rle_trans; [apply size_1|]. specialize (HB t Ht). cbn. lra.
    - intros t x y Ht. apply linear_up, (tr_lin _ _ _ _ (M3 t Ht)).
    - intros t x y z Ht. f_equal. apply (tr_sym' _ _ _ _ (M3 t Ht)).
    - intros t x y z Ht. f_equal. apply (tr_sym _ _ _ _ (M3 t Ht)).
    - exact b3.
    - exact Tay.
    - exists C. intros t h Ht Hh He. unfold dist. eapply Rle_trans; [|apply (A t h); repeat split; assumption].
      eapply Rle_trans; [|apply len_fst]. right. unfold rk, vminus. cbn [fst pairs vadd vscale]. f_equal. f_equal. f_equal. apply rk4_form; reflexivity.
  Qed.
End Pairs.

(** ** Explicit integrations *)
Section Explicit.
  Context {V M W : Type} (eps0 : R) (vo : vops R V) (ip : V -> V -> R) (u : @esys R V M W).
  Notation o := (Rops eps0).
  Hypotheses (HV : vspace o vo) (HI : inner vo ip).
  Notation len := (length_of ip).
  Variables (good : W -> Prop) (f : V -> R -> V) (L : R).
  Hypothesis HU : computes u good f.
  Hypothesis HL : lipschitz eps0 vo len L f.
  Variables (sol : R -> V) (t0 T : R).
  Hypothesis HT : 0 <= T.
  Hypothesis Hs : solution ip f sol t0 T.
  Notation advance name num g :=
    (advance_n_steps o (mk_user noop_obs (pol3 (fun _ _ _ w => (Ok (T / INR num), w))) noop_guess
                          (stepper_fn (explicit_step o vo u name))) (Z.of_nat num) t0 (sol t0, g, [])).
  Notation converges name k c p := (forall g num, used k (explicit_step o vo u name) g -> good (x_w g) -> (0 < num)%nat -> (Z.of_nat num < int32_max)%Z ->
    exists y g' tr, advance name num g = (Ok tt, (y, g', tr)) /\ len (vminus o vo y (sol (t0 + T))) <= c * (T / INR num) ^ p).
  Let HN := inner_normed eps0 vo HV ip HI.
  Lemma fe_local K : twice_smooth ip f sol t0 T K -> local_order eps0 vo len f (tab_fe o) sol t0 T (K / 2) 1.
  Proof.
    intros Hk t h Ht Hh He. unfold dist, erk_next. cbn [ycomb tab_fe tb_b tb_stages erk_stages map st_k].
    replace (sadd o t (smul o (sZ o 0) h)) with t by (cbn; ring). replace (smul o h (sZ o 1)) with h by (cbn; ring).
    apply (euler_local eps0 vo ip HV HI f sol t0 T Hs K Hk); assumption.
  Qed.
  Lemma fe_converges K : twice_smooth ip f sol t0 T K -> converges ForwardEuler 1%nat (exp (L * T) * (K / 2 * T)) 1%nat.
  Proof.
    intros Hk g num Hg Hw Hn Hm.
    destruct (erk_convergence eps0 vo len u HV HN good f L HU HL ForwardEuler (tab_fe o) 1 sol t0 T _ 1 eq_refl eq_refl HT (fe_local K Hk) g num Hg Hw Hn Hm) as (y & g' & tr & E & D).
    exists y, g', tr. split; [exact E|]. eapply Rle_trans; [exact D|right; ring].
  Qed.
  Lemma ab_converges K2 K3 : twice_smooth ip f sol t0 T K2 -> thrice_smooth ip f sol t0 T K3 ->
    converges AdamsBashforth2 2%nat (exp (2 * L * T) * (K2 / 2 + 5 / 12 * K3 * T)) 2%nat.
  Proof.
    intros Hk Hk3 g num Hg Hw Hn Hm. pose proof (M3_pos eps0 vo ip HV HI f sol t0 T K3 Hk3 HT) as P.
    destruct (ab2_convergence eps0 vo len u HV HN good f L HU HL sol t0 T (K2 / 2) (5 / 12 * K3) HT ltac:(lra) (fe_local K2 Hk)
      (ab2_local eps0 vo ip HV HI f sol t0 T Hs K3 Hk3) g num Hg Hw Hn Hm) as (y & g' & tr & E & D).
    exists y, g', tr. split; [exact E|]. eapply Rle_trans; [exact D|right; ring].
  Qed.
  Lemma ssp_converges B : expands_2 vo ip eps0 f sol t0 T B -> exists C, converges SSPRungeKutta3 1%nat C 3%nat.
  Proof.
    intros HB. destruct (ssp_local eps0 vo ip HV HI f sol t0 T B HT Hs HB) as (C & HC). exists (exp (L * T) * (C * T)). intros g num Hg Hw Hn Hm.
    destruct (erk_convergence eps0 vo len u HV HN good f L HU HL SSPRungeKutta3 (tab_ssprk3 o) 1 sol t0 T C 3 eq_refl eq_refl HT HC g num Hg Hw Hn Hm) as (y & g' & tr & E & D).
    exists y, g', tr. split; [exact E|]. eapply Rle_trans; [exact D|right; ring].
  Qed.
  Lemma rk4_converges B : expands_3 vo ip eps0 f sol t0 T B -> exists C, converges RungeKutta4 4%nat C 4%nat.
  Proof.
    intros HB. destruct (rk_local eps0 vo ip HV HI f sol t0 T B HT Hs HB) as (C & HC). exists (exp (L * T) * (C * T)). intros g num Hg Hw Hn Hm.
    destruct (erk_convergence eps0 vo len u HV HN good f L HU HL RungeKutta4 (tab_rk4 o) 4 sol t0 T C 4 eq_refl eq_refl HT HC g num Hg Hw Hn Hm) as (y & g' & tr & E & D).
    exists y, g', tr. split; [exact E|]. eapply Rle_trans; [exact D|right; ring].
  Qed.
End Explicit.

(** ** Implicit integrations of dissipative equations *)
Section Implicit.
  Context {V : Type} (eps0 : R) (vo : vops R V) (ip : V -> V -> R) (f : V -> R -> V).
  Notation o := (Rops eps0).
  Hypotheses (HV : vspace o vo) (HI : inner vo ip) (HD : dissipative eps0 vo ip f).
  Notation len := (length_of ip).
  Notation "x -- y" := (vminus (Rops eps0) vo x y) (at level 50, left associativity).
  Variables (tol start T : R) (y0 : V) (tr : list (call R V)) (sol : R -> V).
  Hypothesis Hs : solution ip f sol start T.
  Hypothesis Hfw : forward_in_time tr.
  (** what is known of the reports up to the one considered *)
  Lemma until near k t y : run_of tol near start y0 tr -> In (k, t, y) (reports tr) -> t <= start + T ->
    exists j ts, k = Z.of_nat j /\ t = ts j /\ ts 0%nat = start /\ times_are tr ts /\ (forall i, (i <= j)%nat -> exists y, In (Z.of_nat i, ts i, y) (reports tr)) /\
      (forall i, (i < j)%nat -> exists y y', In (Z.of_nat i, ts i, y) (reports tr) /\ In ((Z.of_nat i + 1)%Z, ts (Datatypes.S i), y') (reports tr)) /\
      (forall i, (i < j)%nat -> ts i <= ts (Datatypes.S i)) /\ (forall i, (i <= j)%nat -> start <= ts i <= start + T).
  Proof.
    intros (n & rs & ys & E1 & E2 & HRI & _) Hin Ht.
    assert (HT : forall k, (k <= n)%nat -> In (Z.of_nat k, rs k, ys k) (reports tr)) by (intros i Hi; apply HRI; exists i; repeat split; lia).
    assert (HS : forall k, (k < n)%nat -> In ((Z.of_nat k + 1)%Z, rs (Datatypes.S k), ys (Datatypes.S k)) (reports tr))
      by (intros i Hi; replace (Z.of_nat i + 1)%Z with (Z.of_nat (Datatypes.S i)) by lia; apply HT; lia).
    apply HRI in Hin. destruct Hin as (j & -> & Hj & -> & _).
    assert (Hm : forall i, (i < n)%nat -> rs i <= rs (Datatypes.S i)) by (intros i Hi; exact (Hfw _ _ _ _ _ (HT i ltac:(lia)) (HS i Hi))).
    assert (Hlo : forall i, (i <= n)%nat -> start <= rs i) by (induction i as [|i IH]; intros Hi; [rewrite E1; lra|specialize (IH ltac:(lia)); specialize (Hm i ltac:(lia)); lra]).
    assert (Hup : forall d i, (i + d = j)%nat -> rs i <= rs j)
      by (induction d as [|d IH]; intros i Hi; [rewrite Nat.add_0_r in Hi; subst; lra|specialize (IH (Datatypes.S i) ltac:(lia)); specialize (Hm i ltac:(lia)); lra]).
    exists j, rs. split; [reflexivity|]. split; [reflexivity|]. split; [exact E1|]. split.
    { intros i t' y' H'. apply HRI in H'. destruct H' as (i' & Ei & _ & Et & _). apply Nat2Z.inj in Ei. subst. reflexivity. }
    split; [intros i Hi; exists (ys i); apply HT; lia|]. split; [intros i Hi; exists (ys i), (ys (Datatypes.S i)); split; [apply HT; lia|apply HS; lia]|].
    split; [intros i Hi; apply Hm; lia|]. intros i Hi. split; [apply Hlo; lia|]. pose proof (Hup (j - i)%nat i ltac:(lia)). lra.
  Qed.
  Lemma summed (ts err : nat -> R) c j : (forall i, (i < j)%nat -> err i <= c * (ts (Datatypes.S i) - ts i)) -> elapsed err j <= c * (ts j - ts 0%nat).
  Proof.
    induction j as [|j IH]; intros H; cbn [elapsed]; [lra|]. specialize (IH (fun i Hi => H i ltac:(lia))). specialize (H j ltac:(lia)). lra.
  Qed.
  Notation at_most hm := (forall k t s t' s', In (k, t, s) (reports tr) -> In ((k + 1)%Z, t', s') (reports tr) -> t' - t <= hm).
  Lemma bdf1_order K hm : twice_smooth ip f sol start T K -> at_most hm -> run_of tol (near_bdf1 eps0 vo ip f) start y0 tr ->
    forall k t y, In (k, t, y) (reports tr) -> t <= start + T -> len (y -- sol t) <= len (y0 -- sol start) + (IZR k * tol + K / 2 * hm * (t - start)).
  Proof.
    intros Hk Hh HR k t y Hin Ht. destruct (until _ k t y HR Hin Ht) as (j & ts & -> & -> & E0 & Htr & HI1 & HI2 & Hm & Hb).
    pose (err := fun i => K / 2 * (ts (Datatypes.S i) - ts i) ^ 2).
    assert (Hz : near_bdf1 eps0 vo ip f ts err j (fun i => sol (ts i))).
    { intros i Hi. pose proof (Hb i ltac:(lia)). pose proof (Hb (Datatypes.S i) ltac:(lia)). specialize (Hm i Hi).
      apply (backward_local eps0 vo ip HV HI f sol start T Hs K Hk); lra. }
    pose proof (against_bdf1 eps0 vo ip f HV HI HD tol start y0 tr ts err j (fun i => sol (ts i)) Hm Htr HR Hz j (ts j) y (le_n _) Hin) as Q. cbv beta in Q.
    rewrite E0 in Q. rewrite <- INR_IZR_INZ. eapply Rle_trans; [exact Q|]. apply Rplus_le_compat_l, Rplus_le_compat_l. rewrite <- E0. apply summed.
    intros i Hi. unfold err. destruct (HI2 i Hi) as (a & b & Ha & Hb'). pose proof (Hh _ _ _ _ _ Ha Hb') as Q1. specialize (Hm i Hi).
    pose proof (M2_pos eps0 vo ip HV HI f sol start T K Hk ltac:(specialize (Hb 0%nat ltac:(lia)); lra)) as P.
    replace (K / 2 * (ts (Datatypes.S i) - ts i) ^ 2) with (K / 2 * ((ts (Datatypes.S i) - ts i) * (ts (Datatypes.S i) - ts i))) by ring.
    rewrite (Rmult_assoc (K / 2) hm). apply Rmult_le_compat_l; [lra|]. apply Rmult_le_compat_r; lra.
  Qed.
  Lemma cn_order K hm : thrice_smooth ip f sol start T K -> at_most hm -> steps_not_growing tr -> run_of tol (near_cn eps0 vo ip f) start y0 tr ->
    forall t1 s1, In (1%Z, t1, s1) (reports tr) -> t1 <= start + T ->
    forall k t y, In (k, t, y) (reports tr) -> t <= start + T ->
    len (y -- sol t) <= len (y0 -- sol start -- vscale vo (1 / 2 * (t1 - start)) (f y0 start -- f (sol start) start)) + (IZR k * tol + K / 12 * hm ^ 2 * (t - start)).
  Proof.
    intros Hk Hh Hg HR t1 s1 H1 Ht1 k t y Hin Ht. destruct (until _ k t y HR Hin Ht) as (j & ts & -> & -> & E0 & Htr & HI1 & HI2 & Hm & Hb).
    pose proof (Htr 1%nat _ _ H1) as E1.
    destruct j as [|j'].
    { assert (Ey : y = y0).
      { destruct HR as (m & rr & yy & _ & A & B & _). apply B in Hin. destruct Hin as (i & Ei & _ & _ & ->). replace i with 0%nat by lia. exact A. }
      subst y. rewrite E0. change (Z.of_nat 0) with 0%Z. replace (IZR 0 * tol + K / 12 * hm ^ 2 * (start - start)) with 0 by ring. rewrite Rplus_0_r.
      apply (len_cn eps0 vo ip HI); [|apply HD]. destruct (until _ _ _ _ HR H1 Ht1) as (j & ts' & Ej & E1' & E0' & _ & _ & _ & Hm' & _).
      replace j with 1%nat in * by lia. specialize (Hm' 0%nat ltac:(lia)). lra. }
    set (j := Datatypes.S j') in *.
    pose (err := fun i => K / 12 * (ts (Datatypes.S i) - ts i) ^ 3).
    assert (Hz : near_cn eps0 vo ip f ts err j (fun i => sol (ts i))).
    { intros i Hi. pose proof (Hb i ltac:(lia)). pose proof (Hb (Datatypes.S i) ltac:(lia)). specialize (Hm i Hi).
      apply (trapezoid_local eps0 vo ip HV HI f sol start T Hs K Hk); lra. }
    assert (Hg' : forall i, (Datatypes.S i < j)%nat -> ts (Datatypes.S (Datatypes.S i)) - ts (Datatypes.S i) <= ts (Datatypes.S i) - ts i).
    { intros i Hi. destruct (HI1 i ltac:(lia)) as (a & Ha). destruct (HI1 (Datatypes.S i) ltac:(lia)) as (b & Hb'). destruct (HI1 (Datatypes.S (Datatypes.S i)) ltac:(lia)) as (c & Hc).
      replace (Z.of_nat (Datatypes.S (Datatypes.S i))) with (Z.of_nat i + 2)%Z in Hc by lia.
      replace (Z.of_nat (Datatypes.S i)) with (Z.of_nat i + 1)%Z in Hb' by lia. exact (Hg _ _ _ _ _ _ _ Ha Hb' Hc). }
    pose proof (against_cn eps0 vo ip f HV HI HD tol start y0 tr ts err j (fun i => sol (ts i)) Hm Htr HR Hz Hg' j (ts j) y (le_n _) ltac:(unfold j; lia) Hin) as Q. cbv beta in Q.
    rewrite E0, <- E1 in Q. rewrite <- INR_IZR_INZ. eapply Rle_trans; [exact Q|]. apply Rplus_le_compat_l, Rplus_le_compat_l. rewrite <- E0. apply summed.
    intros i Hi. unfold err. destruct (HI2 i Hi) as (a & b & Ha & Hb'). pose proof (Hh _ _ _ _ _ Ha Hb') as Q1. specialize (Hm i Hi).
    pose proof (M3_pos eps0 vo ip HV HI f sol start T K Hk ltac:(specialize (Hb 0%nat ltac:(lia)); lra)) as P. set (d := ts (Datatypes.S i) - ts i) in *.
    replace (K / 12 * d ^ 3) with (K / 12 * d ^ 2 * d) by ring. apply Rmult_le_compat_r; [unfold d; lra|]. apply Rmult_le_compat_l; [lra|]. apply pow_incr. unfold d in *; lra.
  Qed.
  Lemma bdf2_order K2 K3 h : twice_smooth ip f sol start T K2 -> thrice_smooth ip f sol start T K3 -> 
    (forall k t s t' s', In (k, t, s) (reports tr) -> In ((k + 1)%Z, t', s') (reports tr) -> t' - t = h) -> run_of tol (near_bdf2 eps0 vo ip f) start y0 tr ->
    forall k t y, In (k, t, y) (reports tr) -> t <= start + T ->
    len (y -- sol t) <= sqrt 2 * len (y0 -- sol start) + 6 * (IZR k * tol + (K2 / 2 + 2 / 9 * K3 * (t - start)) * h ^ 2).
  Proof.
    intros Hk2 Hk Hh HR k t y Hin Ht. destruct (until _ k t y HR Hin Ht) as (j & ts & -> & -> & E0 & Htr & HI1 & HI2 & Hm & Hb).
    assert (Hst : forall i, (i < j)%nat -> ts (Datatypes.S i) - ts i = h) by (intros i Hi; destruct (HI2 i Hi) as (a & b & Ha & Hb'); exact (Hh _ _ _ _ _ Ha Hb')).
    assert (Tp : 0 <= T) by (specialize (Hb 0%nat ltac:(lia)); lra).
    pose proof (M2_pos eps0 vo ip HV HI f sol start T K2 Hk2 Tp) as P2. pose proof (M3_pos eps0 vo ip HV HI f sol start T K3 Hk Tp) as P3.
    pose (err := fun i : nat => match i with O => K2 / 2 * h ^ 2 | _ => 2 / 9 * K3 * h ^ 3 end).
    assert (Hz : near_bdf2 eps0 vo ip f ts err j (fun i => sol (ts i))).
    { split.
      - intros Hj. cbn [err]. rewrite <- (Hst 0%nat Hj). pose proof (Hb 0%nat ltac:(lia)). pose proof (Hb 1%nat ltac:(lia)). specialize (Hm 0%nat Hj).
        apply (backward_local eps0 vo ip HV HI f sol start T Hs K2 Hk2); lra.
      - intros i Hi. cbn [err]. rewrite <- (Hst (Datatypes.S i) Hi). pose proof (Hb i ltac:(lia)). pose proof (Hb (Datatypes.S (Datatypes.S i)) ltac:(lia)).
        pose proof (Hst i ltac:(lia)). pose proof (Hst (Datatypes.S i) ltac:(lia)). pose proof (Hm i ltac:(lia)).
        apply (bdf2_local eps0 vo ip HV HI f sol start T Hs K3 Hk); lra. }
    pose proof (against_bdf2 eps0 vo ip f HV HI HD tol start y0 tr ts err j (fun i => sol (ts i)) Hm Htr HR Hz j (ts j) y (le_n _) Hin) as Q. cbv beta in Q.
    rewrite E0 in Q. rewrite <- INR_IZR_INZ. eapply Rle_trans; [exact Q|]. apply Rplus_le_compat_l, Rmult_le_compat_l; [lra|]. apply Rplus_le_compat_l.
    assert (H0 : forall i, (i <= j)%nat -> elapsed err i <= K2 / 2 * h ^ 2 + 2 / 9 * K3 * h ^ 2 * (ts i - start)).
    { assert (Sq : 0 <= h ^ 2) by (apply pow2_ge_0). assert (Sq2 : 0 <= K2 / 2 * h ^ 2) by (apply Rmult_le_pos; lra).
      induction i as [|i IH]; intros Hi; [cbn [elapsed]; rewrite E0; lra|]. specialize (IH ltac:(lia)). pose proof (Hst i ltac:(lia)) as Si.
      destruct i as [|i].
      - cbn [elapsed err]. specialize (Hm 0%nat ltac:(lia)). assert (0 <= 2 / 9 * K3 * h ^ 2 * (ts 1%nat - start)); [|lra].
        apply Rmult_le_pos; [apply Rmult_le_pos; lra|lra].
      - change (elapsed err (Datatypes.S (Datatypes.S i))) with (elapsed err (Datatypes.S i) + 2 / 9 * K3 * h ^ 3). replace (2 / 9 * K3 * h ^ 3) with (2 / 9 * K3 * h ^ 2 * h) by ring. replace (ts (Datatypes.S (Datatypes.S i)) - start) with (ts (Datatypes.S i) - start + h) by lra.
        set (A := 2 / 9 * K3 * h ^ 2) in *. lra. }
    specialize (H0 j (le_n _)). lra.
  Qed.
End Implicit.

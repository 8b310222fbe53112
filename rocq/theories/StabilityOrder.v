(** C76: convergence of explicit integrations with constant steps. *)
From Coq Require Import ZArith List Reals Lra Lia Field.
From Verif Require Import Base RInst Laws LawInst AdvanceModel AdvanceSpec ExplicitModel ExplicitSpec ExplicitProofs ExplicitOrder ExplicitExtra
  ImplicitModel ImplicitSpec RomExactProofs StabilitySpec StabilityProofs StabilityRuns.
Import ListNotations.
Local Open Scope R_scope.

Lemma elapsed_const h n : elapsed (fun _ => h) n = INR n * h.
Proof. induction n as [|n IH]; cbn [elapsed]; [cbn; ring|]. rewrite IH, S_INR. ring. Qed.
Lemma fixed_time_R eps0 t0 h n : fixed_time (sadd (Rops eps0)) t0 h n = t0 + INR n * h.
Proof. induction n as [|n IH]; cbn [fixed_time]; [cbn; ring|]. rewrite IH, S_INR. cbn. ring. Qed.

Section Order.
  Context {V M W : Type} (eps0 : R) (vo : vops R V) (norm : V -> R) (u : @esys R V M W).
  Notation o := (Rops eps0).
  Hypotheses (HV : vspace o vo) (HN : normed vo norm).
  Notation dist := (dist eps0 vo norm).
  Variables (good : W -> Prop) (f : V -> R -> V) (L : R).
  Hypothesis HU : computes u good f.
  Hypothesis HL : lipschitz eps0 vo norm L f.
  Notation advance name num t0 y0 h g :=
    (advance_n_steps o (mk_user noop_obs (pol3 (fun _ _ _ w => (Ok h, w))) noop_guess
                          (stepper_fn (explicit_step o vo u name))) (Z.of_nat num) t0 (y0, g, [])).

  Lemma fixed_iter (tab : tableau R) t0 h y0 n :
    fixed_state (sadd o) (fun y t _ h => erk_next o vo f tab y t h) t0 h y0 n =
    erk_iter o vo f tab (fixed_time (sadd o) t0 h) (fun _ => h) n y0.
  Proof. induction n as [|n IH]; [reflexivity|]. cbn [fixed_state erk_iter]. rewrite IH. reflexivity. Qed.

  Lemma erk_convergence name tab k sol t0 T C p : tab_of o name = Some tab -> explicit_num_bufs name = Ok k ->
    0 <= T -> local_order eps0 vo norm f tab sol t0 T C p ->
    forall g num, used k (explicit_step o vo u name) g -> good (x_w g) -> (0 < num)%nat -> (Z.of_nat num < int32_max)%Z ->
    exists y g' tr, advance name num t0 (sol t0) (T / INR num) g = (Ok tt, (y, g', tr)) /\
      dist y (sol (t0 + T)) <= exp (L * T) * (C * T * (T / INR num) ^ p).
  Proof.
    intros HT Hk H0 Hlo g num Hg Hw Hnum Hmax. set (h := T / INR num).
    assert (Hn : 0 < INR num) by (apply lt_0_INR; exact Hnum).
    assert (Hh : 0 <= h) by (apply Rmult_le_pos; [exact H0|left; apply Rinv_0_lt_compat; exact Hn]).
    assert (ET : INR num * h = T) by (unfold h; field; lra).
    destruct (erk_advance o vo u (R_field eps0) (R_char0 eps0) HV good f HU name tab k g num t0 h (sol t0) HT Hk Hg Hw Hmax)
      as (g' & tr & E).
    eexists _, g', tr. split; [exact E|]. rewrite fixed_iter.
    pose (w := fun n => sol (fixed_time (sadd o) t0 h n)).
    replace (sol (t0 + T)) with (w num) by (unfold w; rewrite fixed_time_R, ET; reflexivity).
    eapply Rle_trans; [apply (erk_iter_near eps0 vo norm HV HN L f HL _ _ (fun _ => C * h ^ (Datatypes.S p)) (fun _ => Hh) name tab w)|].
    - exact HT.
    - intros j Hj. unfold w. cbn [fixed_time]. apply Hlo; [|exact Hh|]; rewrite fixed_time_R.
      + pose proof (pos_INR j). pose proof (Rmult_le_pos _ _ H Hh). lra.
      + rewrite <- ET. apply le_INR in Hj. rewrite S_INR in Hj. pose proof (Rmult_le_compat_r _ _ _ Hh Hj). lra.
    - unfold bound. rewrite !elapsed_const, ET. right. f_equal.
      replace (dist (sol t0) (w 0%nat)) with 0.
      + rewrite <- ET. cbn [pow]. ring.
      + unfold w. cbn [fixed_time]. unfold StabilitySpec.dist.
        replace (vminus o vo (sol t0) (sol t0)) with (vscale vo 0 (sol t0)); [rewrite (n_scale _ _ HN), Rabs_R0; ring|].
        unfold vminus, neg1. vreduce (Rops eps0) vo (R_field eps0) HV; cbn; lra.
  Qed.

  Lemma ab2_convergence sol t0 T C1 C : 0 <= T -> 0 <= C ->
    local_order eps0 vo norm f (tab_fe o) sol t0 T C1 1 -> local_ab2 eps0 vo norm f sol t0 T C ->
    forall g num, used 2 (explicit_step o vo u AdamsBashforth2) g -> good (x_w g) -> (0 < num)%nat -> (Z.of_nat num < int32_max)%Z ->
    exists y g' tr, advance AdamsBashforth2 num t0 (sol t0) (T / INR num) g = (Ok tt, (y, g', tr)) /\
      dist y (sol (t0 + T)) <= exp (2 * L * T) * ((C1 + C * T) * (T / INR num) ^ 2).
  Proof.
    intros H0 HC Hlo Hla g num Hg Hw Hnum Hmax. set (h := T / INR num).
    assert (Hn : 0 < INR num) by (apply lt_0_INR; exact Hnum).
    assert (Hh : 0 <= h) by (apply Rmult_le_pos; [exact H0|left; apply Rinv_0_lt_compat; exact Hn]).
    assert (ET : INR num * h = T) by (unfold h; field; lra).
    destruct (ab2_exists o vo f (fixed_time (sadd o) t0 h) (fun _ => h) (sol t0)) as (ys & Hs & Hy0).
    destruct (ab2_advance o vo u (R_field eps0) (R_char0 eps0) HV good f HU g num t0 h (sol t0) ys Hg Hw Hmax Hs Hy0)
      as (g' & tr & E).
    eexists _, g', tr. split; [exact E|].
    pose (w := fun n => sol (fixed_time (sadd o) t0 h n)).
    pose (err := fun n : nat => match n with O => C1 * h ^ 2 | _ => C * h ^ 3 end).
    replace (sol (t0 + T)) with (w num) by (unfold w; rewrite fixed_time_R, ET; reflexivity).
    assert (Hle : forall j, (j <= num)%nat -> t0 + INR j * h <= t0 + T).
    { intros j Hj. rewrite <- ET. apply le_INR in Hj. pose proof (Rmult_le_compat_r _ _ _ Hh Hj). lra. }
    assert (Hge : forall j, t0 <= t0 + INR j * h).
    { intros j. pose proof (pos_INR j). pose proof (Rmult_le_pos _ _ H Hh). lra. }
    eapply Rle_trans; [apply (ab2_near eps0 vo norm HV HN L f HL _ _ err (fun _ => Hh) ys w Hs)|].
    - split.
      + intros _. unfold w. cbn [fixed_time err].
        specialize (Hlo t0 h (Rle_refl _) Hh). 
        replace (vadd vo (sol t0) (vscale vo h (f (sol t0) t0))) with (erk_next o vo f (tab_fe o) (sol t0) t0 h).
        * apply Hlo. specialize (Hle 1%nat ltac:(lia)). cbn [INR] in Hle. lra.
        * unfold erk_next. cbn. f_equal. f_equal; [lra|]. f_equal. lra.
      + intros j Hj. unfold w. replace (j + 2)%nat with (Datatypes.S (Datatypes.S j)) by lia. replace (j + 1)%nat with (Datatypes.S j) by lia.
        cbn [fixed_time err]. apply Hla; [|exact Hh|]; rewrite fixed_time_R; [apply Hge|].
        specialize (Hle (Datatypes.S (Datatypes.S j)) ltac:(lia)). rewrite !S_INR in Hle. lra.
    - unfold bound. rewrite elapsed_const, ET, Hy0. apply Rmult_le_compat_l; [left; apply exp_pos|].
      replace (dist (sol t0) (w 0%nat)) with 0.
      + assert (Q : forall n, elapsed err (Datatypes.S n) = C1 * h ^ 2 + INR n * (C * h ^ 3)).
        { induction n as [|n IH]; [cbn; ring|]. change (elapsed err (Datatypes.S (Datatypes.S n))) with (elapsed err (Datatypes.S n) + C * h ^ 3).
          rewrite IH, S_INR. ring. }
        destruct num as [|m]; [lia|]. rewrite Q. rewrite <- ET, S_INR.
        assert (0 <= C * h ^ 3) by (apply Rmult_le_pos; [exact HC|apply pow_le; exact Hh]).
        apply Rle_trans with (C1 * h ^ 2 + (INR m + 1) * (C * h ^ 3)); [lra|]. right. ring.
      + unfold w. cbn [fixed_time]. unfold StabilitySpec.dist.
        replace (vminus o vo (sol t0) (sol t0)) with (vscale vo 0 (sol t0)); [rewrite (n_scale _ _ HN), Rabs_R0; ring|].
        unfold vminus, neg1. vreduce (Rops eps0) vo (R_field eps0) HV; cbn; lra.
  Qed.
End Order.

(** ** Scalar equations: forward Euler has local order 1 along every solution whose derivative is
    Lipschitz. *)
Lemma abs_normed eps0 : normed (self_v (Rops eps0)) Rabs.
Proof. split; [apply Rabs_pos|intros; apply Rabs_triang|intros; apply Rabs_mult]. Qed.
Lemma euler_local_order eps0 (f : R -> R -> R) (sol : R -> R) t0 T C :
  (forall t, t0 <= t <= t0 + T -> derivable_pt_lim sol t (f (sol t) t)) ->
  (forall s t, t0 <= s <= t0 + T -> t0 <= t <= t0 + T -> Rabs (f (sol s) s - f (sol t) t) <= C * Rabs (s - t)) ->
  local_order eps0 (self_v (Rops eps0)) Rabs f (tab_fe (Rops eps0)) sol t0 T C 1.
Proof.
  intros Hd Hc t h Ht Hh He. unfold dist, erk_next, vminus, neg1. cbn.
  replace (h * 1 * f (sol t) (t + 0 * h)) with (h * f (sol t) t) by (rewrite Rmult_1_r, Rmult_0_l, Rplus_0_r; reflexivity).
  destruct (Rle_lt_or_eq_dec 0 h Hh) as [Hp|<-].
  2: { replace (sol (t + 0)) with (sol t) by (f_equal; lra). replace (sol t + - (1) * (sol t + 0 * f (sol t) t)) with 0 by ring. rewrite Rabs_R0. lra. }
  destruct (MVT_cor2 sol (fun t => f (sol t) t) t (t + h)) as (c & E & Hcc); [lra|intros c Hcc; apply Hd; lra|].
  replace (t + h - t) with h in E by ring.
  replace (sol (t + h) + - (1) * (sol t + h * f (sol t) t)) with (h * (f (sol c) c - f (sol t) t)) by (rewrite Rmult_minus_distr_l; lra).
  rewrite Rabs_mult, (Rabs_pos_eq h) by lra.
  specialize (Hc c t ltac:(lra) ltac:(lra)). rewrite (Rabs_pos_eq (c - t)) in Hc by lra.
  assert (HC : 0 <= C * (c - t)) by (eapply Rle_trans; [apply Rabs_pos|exact Hc]).
  assert (0 <= C) by nra.
  assert (Hb : Rabs (f (sol c) c - f (sol t) t) <= C * h).
  { eapply Rle_trans; [exact Hc|]. apply Rmult_le_compat_l; lra. }
  apply Rle_trans with (h * (C * h)); [apply Rmult_le_compat_l; lra|right; ring].
Qed.

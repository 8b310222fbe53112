(** C95: explicit Galerkin ROMs against the solution of the FOM's equations. *)
From Coq Require Import Reals ZArith List Lra Lia.
From Verif Require Import Base RInst Laws LawInst AdvanceModel AdvanceSpec ExplicitModel ExplicitSpec ExplicitProofs ExplicitOrder ExplicitExtra
  ImplicitModel ImplicitSpec LspgModel RomSpec GalerkinModel GalerkinSpec GalerkinProofs GalerkinClaims RomExactProofs RomExactClaims
  StabilitySpec StabilityProofs StabilityRuns StabilityOrder DissipSpec DissipProofs RomErrorProofs RomErrorRuns OrderSpec OrderCalculus OrderProofs OrderClaims.
Import ListNotations.
Local Open Scope R_scope.

Section Explicit.
  Context {X Y M W : Type} (eps0 : R) (xo : vops R X) (yo : vops R Y) (norm : Y -> R) (u : @esys R X M W).
  Notation o := (Rops eps0).
  Hypotheses (HX : vspace o xo) (HY : vspace o yo) (HN : normed yo norm).
  Notation dist := (dist eps0 yo norm).
  Let HF := R_field eps0.
  Let HC := R_char0 eps0.
  Variables (recon bapp : X -> Y) (off : Y).
  Hypothesis Hlin : linear xo yo bapp.
  Hypothesis Hrec : forall x, recon x = vadd yo (bapp x) off.
  Variables (L del : R) (f : Y -> R -> Y) (d : X -> R -> X) (good : W -> Prop).
  Hypothesis HL : lipschitz eps0 yo norm L f.
  Hypothesis HU : computes u good d.
  Hypothesis Hdel : forall x t, dist (f (recon x) t) (bapp (d x t)) <= del.
  Variables (sol : R -> Y) (t0 T : R) (x0 : X).
  Hypothesis H0 : 0 <= T.
  Notation advance name num g :=
    (advance_n_steps o (mk_user noop_obs (pol3 (fun _ _ _ w => (Ok (T / INR num), w))) noop_guess
                          (stepper_fn (explicit_step o xo u name))) (Z.of_nat num) t0 (x0, g, [])).
  Lemma dist_self y : dist y y = 0.
  Proof.
    unfold StabilitySpec.dist. replace (vminus o yo y y) with (vscale yo 0 y); [rewrite (n_scale _ _ HN), Rabs_R0; ring|].
    unfold vminus, neg1. vreduce (Rops eps0) yo (R_field eps0) HY; cbn; lra.
  Qed.
  Lemma between y a b : dist a b <= dist y a + dist y b.
  Proof.
    rewrite (dist_sym eps0 yo norm HY HN y a). apply (dist_tri eps0 yo norm HY HN).
  Qed.
  Lemma rom_erk name tab k C p : tab_of o name = Some tab -> explicit_num_bufs name = Ok k -> local_order eps0 yo norm f tab sol t0 T C p ->
    forall g num, used k (explicit_step o xo u name) g -> good (x_w g) -> (0 < num)%nat -> (Z.of_nat num < int32_max)%Z ->
    exists x g' tr, advance name num g = (Ok tt, (x, g', tr)) /\
      dist (recon x) (sol (t0 + T)) <= exp (L * T) * (dist (recon x0) (sol t0) + T * (del + C * (T / INR num) ^ p)).
  Proof.
    intros HT Hk Hlo g num Hg Hw Hnum Hmax. set (h := T / INR num).
    assert (Hn : 0 < INR num) by (apply lt_0_INR; exact Hnum).
    assert (Hh : 0 <= h) by (apply Rmult_le_pos; [exact H0|left; apply Rinv_0_lt_compat; exact Hn]).
    assert (ET : INR num * h = T) by (unfold h; field; lra).
    destruct (erk_advance o xo u HF HC HX good d HU name tab k g num t0 h x0 HT Hk Hg Hw Hmax) as (g' & tr & E).
    eexists _, g', tr. split; [exact E|]. rewrite fixed_iter.
    pose (w := fun n => sol (fixed_time (sadd o) t0 h n)).
    replace (sol (t0 + T)) with (w num) by (unfold w; rewrite fixed_time_R, ET; reflexivity).
    pose proof (erk_iter_d eps0 xo yo norm HY HN recon bapp off Hlin Hrec L del f d HL Hdel (fixed_time (sadd o) t0 h) (fun _ => h) (fun _ => Hh) name tab (recon x0) x0 num HT) as A.
    assert (B : dist (erk_iter o yo f tab (fixed_time (sadd o) t0 h) (fun _ => h) num (recon x0)) (w num) <=
      exp (L * elapsed (fun _ => h) num) * (dist (recon x0) (w 0%nat) + elapsed (fun _ => C * h ^ (Datatypes.S p)) num)).
    { apply (erk_iter_near eps0 yo norm HY HN L f HL _ _ (fun _ => C * h ^ (Datatypes.S p)) (fun _ => Hh) name tab w); [exact HT|].
      intros j Hj. unfold w. cbn [fixed_time]. apply Hlo; [|exact Hh|]; rewrite fixed_time_R.
      - pose proof (pos_INR j). pose proof (Rmult_le_pos _ _ H Hh). lra.
      - rewrite <- ET. apply le_INR in Hj. rewrite S_INR in Hj. pose proof (Rmult_le_compat_r _ _ _ Hh Hj). lra. }
    rewrite !elapsed_const, ET, ?dist_self in A. rewrite !elapsed_const, ET in B. change (w 0%nat) with (sol t0) in B.
    eapply Rle_trans; [apply between|]. eapply Rle_trans; [apply Rplus_le_compat; [exact A|exact B]|]. right.
    replace (INR num * (C * h ^ Datatypes.S p)) with (T * (C * h ^ p)) by (rewrite <- ET; cbn [pow]; ring). ring.
  Qed.
  Lemma rom_ab2 C1 C : 0 <= C -> local_order eps0 yo norm f (tab_fe o) sol t0 T C1 1 -> local_ab2 eps0 yo norm f sol t0 T C ->
    forall g num, used 2 (explicit_step o xo u AdamsBashforth2) g -> good (x_w g) -> (0 < num)%nat -> (Z.of_nat num < int32_max)%Z ->
    exists x g' tr, advance AdamsBashforth2 num g = (Ok tt, (x, g', tr)) /\
      dist (recon x) (sol (t0 + T)) <= exp (2 * L * T) * (dist (recon x0) (sol t0) + 2 * (T * del) + (C1 + C * T) * (T / INR num) ^ 2).
  Proof.
    intros HC' Hlo Hla g num Hg Hw Hnum Hmax. set (h := T / INR num).
    assert (Hn : 0 < INR num) by (apply lt_0_INR; exact Hnum).
    assert (Hh : 0 <= h) by (apply Rmult_le_pos; [exact H0|left; apply Rinv_0_lt_compat; exact Hn]).
    assert (ET : INR num * h = T) by (unfold h; field; lra).
    destruct (ab2_exists o xo d (fixed_time (sadd o) t0 h) (fun _ => h) x0) as (xs & Hxs & Hx0).
    destruct (ab2_exists o yo f (fixed_time (sadd o) t0 h) (fun _ => h) (recon x0)) as (ys & Hs & Hy0).
    destruct (ab2_advance o xo u HF HC HX good d HU g num t0 h x0 xs Hg Hw Hmax Hxs Hx0) as (g' & tr & E).
    eexists _, g', tr. split; [exact E|].
    pose (w := fun n => sol (fixed_time (sadd o) t0 h n)).
    pose (err := fun n : nat => match n with O => C1 * h ^ 2 | _ => C * h ^ 3 end).
    replace (sol (t0 + T)) with (w num) by (unfold w; rewrite fixed_time_R, ET; reflexivity).
    assert (Hle : forall j, (j <= num)%nat -> t0 + INR j * h <= t0 + T).
    { intros j Hj. rewrite <- ET. apply le_INR in Hj. pose proof (Rmult_le_compat_r _ _ _ Hh Hj). lra. }
    assert (Hge : forall j, t0 <= t0 + INR j * h).
    { intros j. pose proof (pos_INR j). pose proof (Rmult_le_pos _ _ H Hh). lra. }
    pose proof (ab2_near eps0 yo norm HY HN L f HL _ _ _ (fun _ => Hh) ys _ Hs num
      (ab2_reduced eps0 xo yo norm HY HN recon bapp off Hlin Hrec f d (fixed_time (sadd o) t0 h) (fun _ => h) (fun _ => Hh) xs num Hxs)) as A.
    assert (B : dist (ys num) (w num) <= bound (fun _ => h) err (2 * L) (dist (ys 0%nat) (w 0%nat)) num).
    { apply (ab2_near eps0 yo norm HY HN L f HL _ _ err (fun _ => Hh) ys w Hs). split.
      - intros _. unfold w. cbn [fixed_time err].
        specialize (Hlo t0 h (Rle_refl _) Hh).
        replace (vadd yo (sol t0) (vscale yo h (f (sol t0) t0))) with (erk_next o yo f (tab_fe o) (sol t0) t0 h).
        + apply Hlo. specialize (Hle 1%nat ltac:(lia)). cbn [INR] in Hle. lra.
        + unfold erk_next. cbn. f_equal. f_equal; [lra|]. f_equal. lra.
      - intros j Hj. unfold w. replace (j + 2)%nat with (Datatypes.S (Datatypes.S j)) by lia. replace (j + 1)%nat with (Datatypes.S j) by lia.
        cbn [fixed_time err]. apply Hla; [|exact Hh|]; rewrite fixed_time_R; [apply Hge|].
        specialize (Hle (Datatypes.S (Datatypes.S j)) ltac:(lia)). rewrite !S_INR in Hle. lra. }
    unfold bound in A, B. cbv beta in A. rewrite elapsed_const, ET, Hy0 in A, B. rewrite Hx0, dist_self in A. change (w 0%nat) with (sol t0) in B.
    match type of A with _ <= _ * (_ + elapsed ?e num) => assert (Q1 : forall n, elapsed e n <= INR n * (h * (2 * del))) end.
    { induction n as [|n IH]; [cbn; lra|]. rewrite S_INR. cbn [elapsed]. pose proof (del_pos eps0 yo norm HN recon bapp del f d Hdel x0) as D0.
      assert (G : forall e, e <= 2 * del -> h * e <= h * (2 * del)) by (intros e He; apply Rmult_le_compat_l; assumption).
      match goal with |- _ + h * ?e <= _ => assert (Q : e <= 2 * del) end.
      { destruct n as [|n]; [pose proof (Hdel x0 (fixed_time (sadd o) t0 h 0%nat)); lra|].
        pose proof (Hdel (xs (Datatypes.S n)) (fixed_time (sadd o) t0 h (Datatypes.S n))). pose proof (Hdel (xs n) (fixed_time (sadd o) t0 h n)). lra. }
      specialize (G _ Q). lra. }
    specialize (Q1 num). replace (INR num * (h * (2 * del))) with (2 * (T * del)) in Q1 by (rewrite <- ET; ring).
    assert (Q : forall n, elapsed err (Datatypes.S n) = C1 * h ^ 2 + INR n * (C * h ^ 3)).
    { induction n as [|n IH]; [cbn; ring|]. change (elapsed err (Datatypes.S (Datatypes.S n))) with (elapsed err (Datatypes.S n) + C * h ^ 3).
      rewrite IH, S_INR. ring. }
    assert (Q2 : elapsed err num <= (C1 + C * T) * h ^ 2).
    { destruct num as [|m]; [lia|]. rewrite Q. rewrite <- ET, S_INR.
      assert (0 <= C * h ^ 3) by (apply Rmult_le_pos; [exact HC'|apply pow_le; exact Hh]).
      apply Rle_trans with (C1 * h ^ 2 + (INR m + 1) * (C * h ^ 3)); [lra|]. right. ring. }
    eapply Rle_trans; [apply between|]. eapply Rle_trans; [apply Rplus_le_compat; [exact A|exact B]|].
    rewrite <- Rmult_plus_distr_l. apply Rmult_le_compat_l; [left; apply exp_pos|]. lra.
  Qed.
End Explicit.

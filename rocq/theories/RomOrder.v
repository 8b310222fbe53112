(** C95: Galerkin ROMs against the solution of the FOM's equations. *)
From Coq Require Import Reals ZArith List Lra Lia.
From Verif Require Import Base RInst Laws LawInst AdvanceModel AdvanceSpec Track ExplicitModel ExplicitSpec ImplicitModel ImplicitSpec LspgModel RomSpec
  GalerkinModel GalerkinSpec StabilitySpec StabilityRuns StabilityOrder DissipSpec DissipProofs DissipChain DissipClaims RomErrorRuns OrderSpec OrderCalculus OrderProofs OrderClaims.
Import ListNotations.
Local Open Scope R_scope.

Section Implicit.
  Context {X Y : Type} (eps0 : R) (xo : vops R X) (yo : vops R Y) (ip : Y -> Y -> R) (xip : X -> X -> R).
  Notation o := (Rops eps0).
  Hypotheses (HY : vspace o yo) (HI : inner yo ip).
  Variables (recon bapp : X -> Y) (off : Y).
  Hypothesis Hlin : linear xo yo bapp.
  Hypothesis Hrec : forall x, recon x = vadd yo (bapp x) off.
  Variables (f : Y -> R -> Y) (d : X -> R -> X) (K del : R).
  Hypothesis HK : forall v, length_of ip (bapp v) <= K * length_of xip v.
  Hypothesis HK0 : 0 <= K.
  Hypothesis HD : dissipative eps0 yo ip f.
  Notation len := (length_of ip).
  Notation "x -- y" := (vminus (Rops eps0) yo x y) (at level 50, left associativity).
  Notation missed x t := (f (recon x) t -- bapp (d x t)).
  Variables (tol start T : R) (x0 : X) (tr : list (call R X)) (sol : R -> Y).
  Hypothesis Hs : solution ip f sol start T.
  Hypothesis Hfw : forward_in_time tr.
  Hypothesis Hdel : forall k t x, In (k, t, x) (reports tr) -> len (missed x t) <= del.
  (** the run up to the report considered *)
  Lemma upto near k t x : run_of tol near start x0 tr -> In (k, t, x) (reports tr) -> t <= start + T ->
    exists j n ts xs, k = Z.of_nat j /\ (j <= n)%nat /\ t = ts j /\ x = xs j /\ ts 0%nat = start /\ xs 0%nat = x0 /\ near ts (fun _ => tol) n xs /\
      (forall i, (i <= n)%nat -> In (Z.of_nat i, ts i, xs i) (reports tr)) /\
      (forall i, (i < n)%nat -> In ((Z.of_nat i + 1)%Z, ts (Datatypes.S i), xs (Datatypes.S i)) (reports tr)) /\
      (forall i, (i < n)%nat -> ts i <= ts (Datatypes.S i)) /\ (forall i, (i <= j)%nat -> start <= ts i <= start + T) /\
      (forall i, (i <= n)%nat -> len (missed (xs i) (ts i)) <= del) /\
      (forall i s z, In (Z.of_nat i, s, z) (reports tr) -> s = ts i /\ z = xs i /\ (i <= n)%nat).
  Proof.
    intros (n & rs & ys & E1 & E2 & HRI & HN) Hin Ht.
    assert (HT : forall k, (k <= n)%nat -> In (Z.of_nat k, rs k, ys k) (reports tr)) by (intros i Hi; apply HRI; exists i; repeat split; lia).
    assert (HS : forall k, (k < n)%nat -> In ((Z.of_nat k + 1)%Z, rs (Datatypes.S k), ys (Datatypes.S k)) (reports tr))
      by (intros i Hi; replace (Z.of_nat i + 1)%Z with (Z.of_nat (Datatypes.S i)) by lia; apply HT; lia).
    apply HRI in Hin. destruct Hin as (j & -> & Hj & -> & ->).
    assert (Hm : forall i, (i < n)%nat -> rs i <= rs (Datatypes.S i)) by (intros i Hi; exact (Hfw _ _ _ _ _ (HT i ltac:(lia)) (HS i Hi))).
    assert (Hlo : forall i, (i <= n)%nat -> start <= rs i) by (induction i as [|i IH]; intros Hi; [rewrite E1; lra|specialize (IH ltac:(lia)); specialize (Hm i ltac:(lia)); lra]).
    assert (Hup : forall e i, (i + e = j)%nat -> rs i <= rs j)
      by (induction e as [|e IH]; intros i Hi; [rewrite Nat.add_0_r in Hi; subst; lra|specialize (IH (Datatypes.S i) ltac:(lia)); specialize (Hm i ltac:(lia)); lra]).
    exists j, n, rs, ys. repeat (split; [first [reflexivity|assumption]|]). split; [|split].
    - intros i Hi. split; [apply Hlo; lia|]. pose proof (Hup (j - i)%nat i ltac:(lia)). lra.
    - intros i Hi. exact (Hdel _ _ _ (HT i Hi)).
    - intros i s z H'. apply HRI in H'. destruct H' as (i' & Ei & Hi' & -> & ->). apply Nat2Z.inj in Ei. subst i'. repeat split; assumption.
  Qed.
  Notation at_most hm := (forall k t s t' s', In (k, t, s) (reports tr) -> In ((k + 1)%Z, t', s') (reports tr) -> t' - t <= hm).
  Notation lerr ts := (fun k : nat => K * tol + (ts (Datatypes.S k) - ts k) * del).
  Lemma rom_bdf1 M hm : twice_smooth ip f sol start T M -> at_most hm -> run_of tol (near_bdf1 eps0 xo xip d) start x0 tr ->
    forall k t x, In (k, t, x) (reports tr) -> t <= start + T ->
    len (recon x -- sol t) <= len (recon x0 -- sol start) + (IZR k * (K * tol) + (t - start) * (del + M / 2 * hm)).
  Proof.
    intros Hk Hh HR k t x Hin Ht. destruct (upto _ k t x HR Hin Ht) as (j & n & ts & xs & -> & Hj & -> & -> & E0 & E1 & HN & HA & HB & Hm & Hb & Hdl & _).
    assert (Hz : near_bdf1 eps0 yo ip f ts (fun i => M / 2 * (ts (Datatypes.S i) - ts i) ^ 2) j (fun i => sol (ts i))).
    { intros i Hi. pose proof (Hb i ltac:(lia)). pose proof (Hb (Datatypes.S i) ltac:(lia)). specialize (Hm i ltac:(lia)).
      apply (backward_local eps0 yo ip HY HI f sol start T Hs M Hk); lra. }
    pose proof (lift_near_bdf1 eps0 xo yo ip xip HY HI recon bapp off Hlin Hrec f d K del HK HK0 ts tol n xs Hm Hdl HN) as Hl.
    assert (Hl' : near_bdf1 eps0 yo ip f ts (lerr ts) j (fun i => recon (xs i))) by (intros i Hi; apply Hl; lia).
    pose proof (seq_bdf1 eps0 yo ip f HY HI HD ts _ _ j _ _ (fun i Hi => Hm i ltac:(lia)) Hl' Hz j (le_n _)) as Q. cbv beta in Q. rewrite E0, E1 in Q.
    rewrite (errs K del ts tol), E0 in Q.
    assert (S : elapsed (fun i => M / 2 * (ts (Datatypes.S i) - ts i) ^ 2) j <= M / 2 * hm * (ts j - ts 0%nat)).
    { apply summed. intros i Hi. pose proof (Hh _ _ _ _ _ (HA i ltac:(lia)) (HB i ltac:(lia))) as Q1. specialize (Hm i ltac:(lia)).
      pose proof (M2_pos eps0 yo ip HY HI f sol start T M Hk ltac:(specialize (Hb 0%nat ltac:(lia)); lra)) as P.
      replace (M / 2 * (ts (Datatypes.S i) - ts i) ^ 2) with (M / 2 * ((ts (Datatypes.S i) - ts i) * (ts (Datatypes.S i) - ts i))) by ring.
      rewrite (Rmult_assoc (M / 2) hm). apply Rmult_le_compat_l; [lra|]. apply Rmult_le_compat_r; lra. }
    rewrite E0 in S. rewrite <- INR_IZR_INZ. eapply Rle_trans; [exact Q|]. rewrite Rmult_plus_distr_l. lra.
  Qed.
  Lemma rom_cn M hm : thrice_smooth ip f sol start T M -> at_most hm -> steps_not_growing tr -> run_of tol (near_cn eps0 xo xip d) start x0 tr ->
    forall t1 s1, In (1%Z, t1, s1) (reports tr) -> t1 <= start + T ->
    forall k t x, In (k, t, x) (reports tr) -> t <= start + T ->
    len (recon x -- sol t) <= len (recon x0 -- sol start -- vscale yo (1 / 2 * (t1 - start)) (f (recon x0) start -- f (sol start) start))
      + (IZR k * (K * tol) + (t - start) * (del + M / 12 * hm ^ 2)).
  Proof.
    intros Hk Hh Hg HR t1 s1 H1 Ht1 k t x Hin Ht. destruct (upto _ k t x HR Hin Ht) as (j & n & ts & xs & -> & Hj & -> & -> & E0 & E1 & HN & HA & HB & Hm & Hb & Hdl & HU).
    destruct (HU 1%nat _ _ H1) as (Et & Es & Hn1).
    destruct j as [|j'].
    { rewrite E0, E1. change (Z.of_nat 0) with 0%Z. replace (IZR 0 * (K * tol) + (start - start) * (del + M / 12 * hm ^ 2)) with 0 by ring. rewrite Rplus_0_r.
      apply (len_cn eps0 yo ip HI); [|apply HD]. specialize (Hm 0%nat ltac:(lia)). lra. }
    set (j := Datatypes.S j') in *.
    assert (Hz : near_cn eps0 yo ip f ts (fun i => M / 12 * (ts (Datatypes.S i) - ts i) ^ 3) j (fun i => sol (ts i))).
    { intros i Hi. pose proof (Hb i ltac:(lia)). pose proof (Hb (Datatypes.S i) ltac:(lia)). specialize (Hm i ltac:(lia)).
      apply (trapezoid_local eps0 yo ip HY HI f sol start T Hs M Hk); lra. }
    assert (Hg' : forall i, (Datatypes.S i < j)%nat -> ts (Datatypes.S (Datatypes.S i)) - ts (Datatypes.S i) <= ts (Datatypes.S i) - ts i).
    { intros i Hi. pose proof (HA i ltac:(lia)) as Ha. pose proof (HA (Datatypes.S i) ltac:(lia)) as Hb'. pose proof (HA (Datatypes.S (Datatypes.S i)) ltac:(lia)) as Hc.
      replace (Z.of_nat (Datatypes.S (Datatypes.S i))) with (Z.of_nat i + 2)%Z in Hc by lia.
      replace (Z.of_nat (Datatypes.S i)) with (Z.of_nat i + 1)%Z in Hb' by lia. exact (Hg _ _ _ _ _ _ _ Ha Hb' Hc). }
    pose proof (lift_near_cn eps0 xo yo ip xip HY HI recon bapp off Hlin Hrec f d K del HK HK0 ts tol n xs Hm Hdl HN) as Hl.
    assert (Hl' : near_cn eps0 yo ip f ts (lerr ts) j (fun i => recon (xs i))) by (intros i Hi; apply Hl; lia).
    pose proof (seq_cn eps0 yo ip f HY HI HD ts _ _ j _ _ (fun i Hi => Hm i ltac:(lia)) Hl' Hz Hg' ltac:(unfold j; lia) j (le_n _)) as Q. cbv beta in Q. rewrite E0, E1, <- Et in Q.
    rewrite (errs K del ts tol), E0 in Q.
    assert (S : elapsed (fun i => M / 12 * (ts (Datatypes.S i) - ts i) ^ 3) j <= M / 12 * hm ^ 2 * (ts j - ts 0%nat)).
    { apply summed. intros i Hi. pose proof (Hh _ _ _ _ _ (HA i ltac:(lia)) (HB i ltac:(lia))) as Q1. specialize (Hm i ltac:(lia)).
      pose proof (M3_pos eps0 yo ip HY HI f sol start T M Hk ltac:(specialize (Hb 0%nat ltac:(lia)); lra)) as P. set (dd := ts (Datatypes.S i) - ts i) in *.
      replace (M / 12 * dd ^ 3) with (M / 12 * dd ^ 2 * dd) by ring. apply Rmult_le_compat_r; [unfold dd; lra|]. apply Rmult_le_compat_l; [lra|]. apply pow_incr. unfold dd in *; lra. }
    rewrite E0 in S. rewrite <- INR_IZR_INZ. eapply Rle_trans; [exact Q|]. rewrite Rmult_plus_distr_l. lra.
  Qed.
  Lemma rom_bdf2 M2 M3 h : twice_smooth ip f sol start T M2 -> thrice_smooth ip f sol start T M3 ->
    (forall k t s t' s', In (k, t, s) (reports tr) -> In ((k + 1)%Z, t', s') (reports tr) -> t' - t = h) -> run_of tol (near_bdf2 eps0 xo xip d) start x0 tr ->
    forall k t x, In (k, t, x) (reports tr) -> t <= start + T ->
    len (recon x -- sol t) <= sqrt 2 * len (recon x0 -- sol start) + 6 * (IZR k * (K * tol) + (t - start) * del + (M2 / 2 + 2 / 9 * M3 * (t - start)) * h ^ 2).
  Proof.
    intros Hk2 Hk Hh HR k t x Hin Ht. destruct (upto _ k t x HR Hin Ht) as (j & n & ts & xs & -> & Hj & -> & -> & E0 & E1 & HN & HA & HB & Hm & Hb & Hdl & _).
    assert (Hst : forall i, (i < j)%nat -> ts (Datatypes.S i) - ts i = h) by (intros i Hi; exact (Hh _ _ _ _ _ (HA i ltac:(lia)) (HB i ltac:(lia)))).
    assert (Tp : 0 <= T) by (specialize (Hb 0%nat ltac:(lia)); lra).
    pose proof (M2_pos eps0 yo ip HY HI f sol start T M2 Hk2 Tp) as P2. pose proof (M3_pos eps0 yo ip HY HI f sol start T M3 Hk Tp) as P3.
    pose (err := fun i : nat => match i with O => M2 / 2 * h ^ 2 | _ => 2 / 9 * M3 * h ^ 3 end).
    assert (Hz : near_bdf2 eps0 yo ip f ts err j (fun i => sol (ts i))).
    { split.
      - intros Hj'. cbn [err]. rewrite <- (Hst 0%nat Hj'). pose proof (Hb 0%nat ltac:(lia)). pose proof (Hb 1%nat ltac:(lia)). specialize (Hm 0%nat ltac:(lia)).
        apply (backward_local eps0 yo ip HY HI f sol start T Hs M2 Hk2); lra.
      - intros i Hi. cbn [err]. rewrite <- (Hst (Datatypes.S i) Hi). pose proof (Hb i ltac:(lia)). pose proof (Hb (Datatypes.S (Datatypes.S i)) ltac:(lia)).
        pose proof (Hst i ltac:(lia)). pose proof (Hst (Datatypes.S i) ltac:(lia)). pose proof (Hm i ltac:(lia)).
        apply (bdf2_local eps0 yo ip HY HI f sol start T Hs M3 Hk); lra. }
    pose proof (lift_near_bdf2 eps0 xo yo ip xip HY HI recon bapp off Hlin Hrec f d K del HK HK0 ts tol n xs Hm Hdl HN) as [Hl1 Hl2].
    assert (Hl' : near_bdf2 eps0 yo ip f ts (lerr ts) j (fun i => recon (xs i))) by (split; [intros Hi; apply Hl1; lia|intros i Hi; apply Hl2; lia]).
    pose proof (seq_bdf2 eps0 yo ip f HY HI HD ts _ _ j _ _ (fun i Hi => Hm i ltac:(lia)) Hl' Hz j (le_n _)) as Q. cbv beta in Q. rewrite E0, E1 in Q.
    rewrite (errs K del ts tol), E0 in Q.
    rewrite <- INR_IZR_INZ. eapply Rle_trans; [exact Q|]. apply Rplus_le_compat_l, Rmult_le_compat_l; [lra|]. apply Rplus_le_compat_l.
    assert (H0 : forall i, (i <= j)%nat -> elapsed err i <= M2 / 2 * h ^ 2 + 2 / 9 * M3 * h ^ 2 * (ts i - start)).
    { assert (Sq : 0 <= h ^ 2) by (apply pow2_ge_0). assert (Sq2 : 0 <= M2 / 2 * h ^ 2) by (apply Rmult_le_pos; lra).
      induction i as [|i IH]; intros Hi; [cbn [elapsed]; rewrite E0; lra|]. specialize (IH ltac:(lia)). pose proof (Hst i ltac:(lia)) as Si.
      destruct i as [|i].
      - cbn [elapsed err]. specialize (Hm 0%nat ltac:(lia)). assert (0 <= 2 / 9 * M3 * h ^ 2 * (ts 1%nat - start)); [|lra].
        apply Rmult_le_pos; [apply Rmult_le_pos; lra|lra].
      - change (elapsed err (Datatypes.S (Datatypes.S i))) with (elapsed err (Datatypes.S i) + 2 / 9 * M3 * h ^ 3). replace (2 / 9 * M3 * h ^ 3) with (2 / 9 * M3 * h ^ 2 * h) by ring. replace (ts (Datatypes.S (Datatypes.S i)) - start) with (ts (Datatypes.S i) - start + h) by lra.
        set (A := 2 / 9 * M3 * h ^ 2) in *. lra. }
    specialize (H0 j (le_n _)). lra.
  Qed.
End Implicit.

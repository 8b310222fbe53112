(** C76: perturbations of explicit integrations, many steps. *)
From Coq Require Import ZArith List Reals Lra Lia Field.
From Verif Require Import Base RInst Laws LawInst AdvanceModel AdvanceSpec ExplicitModel ExplicitSpec ExplicitProofs ExplicitOrder ExplicitExtra
  ImplicitModel ImplicitSpec RomExactProofs StabilitySpec StabilityProofs.
Import ListNotations.
Local Open Scope R_scope.

Section Runs.
  Context {V : Type} (eps0 : R) (vo : vops R V) (norm : V -> R).
  Notation o := (Rops eps0).
  Hypotheses (HV : vspace o vo) (HN : normed vo norm).
  Notation dist := (dist eps0 vo norm).
  Let HF := R_field eps0.
  Let HC := R_char0 eps0.
  Variables (L : R) (f : V -> R -> V).
  Hypothesis HL : lipschitz eps0 vo norm L f.
  Variables (ts hs err : nat -> R).
  Hypothesis Hh : forall k, 0 <= hs k.
  Lemma elapsed_pos n : 0 <= elapsed hs n.
  Proof. induction n as [|n IH]; cbn; [lra|]. pose proof (Hh n). lra. Qed.
  Definition bound (K e : R) (n : nat) : R := exp (K * elapsed hs n) * (e + elapsed err n).
  Lemma bound_step K e n : 0 <= K -> 0 <= err n -> exp (K * hs n) * bound K e n + err n <= bound K e (Datatypes.S n).
  Proof.
    intros HK He. unfold bound. cbn [elapsed]. rewrite (Rmult_plus_distr_l K), exp_plus.
    pose proof (elapsed_pos n) as Hp. pose proof (Hh n) as Hn.
    assert (1 <= exp (K * hs n)) by (apply exp_ge_1; apply Rmult_le_pos; assumption).
    assert (1 <= exp (K * elapsed hs n)) by (apply exp_ge_1; apply Rmult_le_pos; assumption).
    set (A := exp (K * hs n)) in *. set (B := exp (K * elapsed hs n)) in *. set (E := elapsed err n) in *.
    assert (1 <= B * A) by nra. assert (err n <= B * A * err n) by nra.
    apply Rle_trans with (A * (B * (e + E)) + B * A * err n); [lra|]. right. ring.
  Qed.
  Lemma bound_0 K e : bound K e 0 = e.
  Proof. unfold bound. cbn. rewrite Rmult_0_r, exp_0. ring. Qed.
  Lemma dist_sym x y : dist x y = dist y x.
  Proof.
    unfold StabilitySpec.dist. rewrite <- (Rmult_1_l (norm (vminus _ _ y x))), <- Rabs_R1, <- (Rabs_Ropp 1), <- (n_scale _ _ HN).
    f_equal. unfold vminus, neg1. vreduce (Rops eps0) vo HF HV; cbn; lra.
  Qed.
  Lemma err_pos x y k : dist x y <= err k -> 0 <= err k.
  Proof. intros H. eapply Rle_trans; [apply (dist_pos eps0 vo norm HN x y)|exact H]. Qed.

  Lemma erk_iter_near name tab w y0 n : tab_of o name = Some tab -> nearly_erk eps0 vo norm f tab ts hs err n w ->
    dist (erk_iter o vo f tab ts hs n y0) (w n) <= bound L (dist y0 (w 0%nat)) n.
  Proof.
    intros HT Hw. destruct HL as [L0 _]. 
    induction n as [|n IH]; [rewrite bound_0; apply Rle_refl|]. cbn [erk_iter].
    assert (Hn := Hw n ltac:(lia)). assert (Hw' : nearly_erk eps0 vo norm f tab ts hs err n w) by (intros k Hk; apply Hw; lia).
    eapply Rle_trans; [apply (dist_tri eps0 vo norm HV HN _ (erk_next o vo f tab (w n) (ts n) (hs n)))|].
    eapply Rle_trans; [|apply bound_step; [assumption|eapply err_pos; exact Hn]]. apply Rplus_le_compat.
    - eapply Rle_trans; [eapply (erk_growth eps0 vo norm HV HN L f HL name tab); [exact HT|apply Hh]|].
      apply Rmult_le_compat_l; [left; apply exp_pos|exact (IH Hw')].
    - rewrite dist_sym. exact Hn.
  Qed.

  Lemma ab2_near ys w : ab2_sequence o vo f ts hs ys -> forall n, nearly_ab2 eps0 vo norm f ts hs err n w ->
    dist (ys n) (w n) <= bound (2 * L) (dist (ys 0%nat) (w 0%nat)) n.
  Proof.
    intros [H1 H2] n W. set (e := dist (ys 0%nat) (w 0%nat)). destruct HL as [L0 HL'].
    assert (Q : forall m, (m < n)%nat ->
      0 <= bound (2 * L) e m /\ dist (ys m) (w m) <= bound (2 * L) e m /\ bound (2 * L) e m <= bound (2 * L) e (Datatypes.S m) /\
      dist (ys (Datatypes.S m)) (w (Datatypes.S m)) <= bound (2 * L) e (Datatypes.S m)).
    2: { destruct n as [|m]; [rewrite bound_0; apply Rle_refl|]. apply (Q m). lia. }
    destruct W as [W1 W2].
    assert (Hmono : forall m, 0 <= bound (2 * L) e m -> 0 <= err m -> bound (2 * L) e m <= bound (2 * L) e (Datatypes.S m)).
    { intros m Hb He. pose proof (bound_step (2 * L) e m ltac:(lra) He) as Q.
      pose proof (exp_ge_1 (2 * L * hs m) ltac:(apply Rmult_le_pos; [lra|apply Hh])) as Q1. nra. }
    assert (He : 0 <= e) by (apply dist_pos; assumption).
    induction m as [|m IH]; intros Hm.
    - rewrite bound_0. specialize (W1 Hm). split; [exact He|]. split; [apply Rle_refl|].
      assert (E0 : 0 <= err 0%nat) by (eapply err_pos; exact W1).
      split; [rewrite <- (bound_0 (2 * L) e) at 1; apply Hmono; [rewrite bound_0; exact He|exact E0]|].
      eapply Rle_trans; [|apply bound_step; [lra|exact E0]]. rewrite bound_0.
      eapply Rle_trans; [apply (dist_tri eps0 vo norm HV HN _ (vadd vo (w 0%nat) (vscale vo (hs 0%nat) (f (w 0%nat) (ts 0%nat)))))|].
      apply Rplus_le_compat; [|rewrite dist_sym; exact W1]. rewrite H1.
      eapply Rle_trans; [apply (dist_step eps0 vo norm HV HN)|]. rewrite Rabs_pos_eq by apply Hh.
      specialize (HL' (ys 0%nat) (w 0%nat) (ts 0%nat)). pose proof (Hh 0%nat).
      assert (E1 : 1 + 2 * L * hs 0%nat <= exp (2 * L * hs 0%nat)) by (apply exp_1; apply Rmult_le_pos; lra).
      fold e in HL' |- *. assert (0 <= L * hs 0%nat) by (apply Rmult_le_pos; assumption).
      assert (hs 0%nat * dist (f (ys 0%nat) (ts 0%nat)) (f (w 0%nat) (ts 0%nat)) <= hs 0%nat * (L * e)) by (apply Rmult_le_compat_l; assumption).
      nra.
    - destruct (IH ltac:(lia)) as (Hb & IH0 & Bm & IH1). specialize (W2 m ltac:(lia)). specialize (H2 m).
      replace (m + 2)%nat with (Datatypes.S (Datatypes.S m)) in * by lia. replace (m + 1)%nat with (Datatypes.S m) in * by lia.
      set (k := Datatypes.S m) in *.
      assert (Ek : 0 <= err k) by (eapply err_pos; exact W2).
      assert (HB : 0 <= bound (2 * L) e k) by lra.
      split; [exact HB|]. split; [exact IH1|]. split; [apply Hmono; assumption|].
      eapply Rle_trans; [|apply bound_step; [lra|exact Ek]].
      eapply Rle_trans; [eapply (dist_tri eps0 vo norm HV HN)|]. apply Rplus_le_compat; [|rewrite dist_sym; exact W2].
      rewrite H2.
      assert (Es : forall a b, vadd vo (vscale vo (sdiv o (sZ o 3) (sZ o 2)) a) (vscale vo (sopp o (sdiv o (sZ o 1) (sZ o 2))) b)
                = vadd vo (vscale vo (3 / 2) a) (vscale vo (- (1 / 2)) b)).
      { intros a b. f_equal; f_equal; cbn; lra. }
      rewrite Es. clear Es.
      eapply Rle_trans; [apply (dist_step eps0 vo norm HV HN)|]. rewrite Rabs_pos_eq by apply Hh.
      pose proof (dist_add eps0 vo norm HV HN (vscale vo (3 / 2) (f (ys k) (ts k))) (vscale vo (3 / 2) (f (w k) (ts k)))
        (vscale vo (- (1 / 2)) (f (ys m) (ts m))) (vscale vo (- (1 / 2)) (f (w m) (ts m)))) as Ha.
      rewrite !(dist_scale eps0 vo norm HV HN) in Ha. rewrite Rabs_Ropp in Ha. rewrite !Rabs_pos_eq in Ha by lra.
      pose proof (HL' (ys k) (w k) (ts k)) as Hk. pose proof (HL' (ys m) (w m) (ts m)) as Hn.
      assert (E1 : 1 + 2 * L * hs k <= exp (2 * L * hs k)) by (apply exp_1; apply Rmult_le_pos; [lra|apply Hh]).
      set (B := bound (2 * L) e k) in *. set (b := bound (2 * L) e m) in *.
      set (dk := dist (f (ys k) (ts k)) (f (w k) (ts k))) in *. set (dm := dist (f (ys m) (ts m)) (f (w m) (ts m))) in *.
      assert (D : 3 / 2 * dk + 1 / 2 * dm <= 2 * L * B) by nra.
      assert (Hhk := Hh k).
      apply Rle_trans with (B + hs k * (2 * L * B)).
      + apply Rplus_le_compat; [exact IH1|]. apply Rmult_le_compat_l; [exact Hhk|]. lra.
      + assert (0 <= (exp (2 * L * hs k) - (1 + 2 * L * hs k)) * B) by (apply Rmult_le_pos; lra). nra.
  Qed.
End Runs.

Section Claims.
  Context {V M W : Type} (eps0 : R) (vo : vops R V) (norm : V -> R) (u : @esys R V M W).
  Notation o := (Rops eps0).
  Hypotheses (HV : vspace o vo) (HN : normed vo norm).
  Notation dist := (dist eps0 vo norm).

  Lemma perturbed_erk good f L : computes u good f -> lipschitz eps0 vo norm L f ->
    forall name tab k, tab_of o name = Some tab -> explicit_num_bufs name = Ok k ->
    forall g, used k (explicit_step o vo u name) g -> good (x_w g) ->
    forall ts hs err n w, (forall k, 0 <= hs k) -> nearly_erk eps0 vo norm f tab ts hs err n w ->
    exists g', drive (explicit_step o vo u name) ts hs n g = (Ok tt, g') /\
      dist (x_y g') (w n) <= exp (L * elapsed hs n) * (dist (x_y g) (w 0%nat) + elapsed err n).
  Proof.
    intros HU HL name tab k HT Hk g Hg Hw ts hs err n w Hh Hn.
    destruct (erk_drive o vo u (R_field eps0) (R_char0 eps0) HV good f HU name tab k HT Hk ts hs n g
      (used_length o vo u name k g Hk Hg) Hw) as (g' & E & Y & _).
    exists g'. split; [exact E|]. rewrite Y. eapply erk_iter_near; eassumption.
  Qed.
  Lemma perturbed_ab2 good f L : computes u good f -> lipschitz eps0 vo norm L f ->
    forall g, used 2 (explicit_step o vo u AdamsBashforth2) g -> good (x_w g) ->
    forall ts hs err n w, (forall k, 0 <= hs k) -> nearly_ab2 eps0 vo norm f ts hs err n w ->
    exists g', drive (explicit_step o vo u AdamsBashforth2) ts hs n g = (Ok tt, g') /\
      dist (x_y g') (w n) <= exp (2 * L * elapsed hs n) * (dist (x_y g) (w 0%nat) + elapsed err n).
  Proof.
    intros HU HL g Hg Hw ts hs err n w Hh Hn.
    destruct (ab2_exists o vo f ts hs (x_y g)) as (ys & Hs & H0).
    destruct (ab2_drive o vo u (R_field eps0) (R_char0 eps0) HV good f HU ts hs ys g n
      (used_length o vo u AdamsBashforth2 2 g eq_refl Hg) Hw Hs H0) as (g' & E & Y & _).
    exists g'. split; [exact E|]. rewrite Y, <- H0.
    apply (ab2_near eps0 vo norm HV HN L f HL ts hs err Hh ys w Hs n Hn).
  Qed.
  Lemma perturbed_erk_mm good apply mass force X L : computes_mm u good apply mass force ->
    (forall y t, apply (mass y t) (X y t) = force y t) ->
    (forall y t a b, apply (mass y t) a = apply (mass y t) b -> a = b) -> lipschitz eps0 vo norm L X ->
    forall name tab k, tab_of o name = Some tab -> explicit_num_bufs_mm name = Ok k ->
    forall g, used k (explicit_step_mm o vo u name) g -> good (x_w g) ->
    forall ts hs err n w, (forall k, 0 <= hs k) -> nearly_erk eps0 vo norm X tab ts hs err n w ->
    exists g', drive (explicit_step_mm o vo u name) ts hs n g = (Ok tt, g') /\
      dist (x_y g') (w n) <= exp (L * elapsed hs n) * (dist (x_y g) (w 0%nat) + elapsed err n).
  Proof.
    intros HU HX Hi HL name tab k HT Hk g Hg Hw ts hs err n w Hh Hn.
    destruct (erk_drive_mm o vo u (R_field eps0) (R_char0 eps0) HV good _ _ _ X HU HX Hi name tab k HT Hk ts hs n g
      (used_length_mm o vo u name k g Hk Hg) Hw) as (g' & E & Y & _).
    exists g'. split; [exact E|]. rewrite Y. eapply erk_iter_near; eassumption.
  Qed.
  Lemma perturbed_ab2_mm good apply mass force X L : computes_mm u good apply mass force ->
    (forall y t, apply (mass y t) (X y t) = force y t) ->
    (forall y t a b, apply (mass y t) a = apply (mass y t) b -> a = b) -> lipschitz eps0 vo norm L X ->
    forall g, used 2 (explicit_step_mm o vo u AdamsBashforth2) g -> good (x_w g) ->
    forall ts hs err n w, (forall k, 0 <= hs k) -> nearly_ab2 eps0 vo norm X ts hs err n w ->
    exists g', drive (explicit_step_mm o vo u AdamsBashforth2) ts hs n g = (Ok tt, g') /\
      dist (x_y g') (w n) <= exp (2 * L * elapsed hs n) * (dist (x_y g) (w 0%nat) + elapsed err n).
  Proof.
    intros HU HX Hi HL g Hg Hw ts hs err n w Hh Hn.
    destruct (ab2_exists o vo X ts hs (x_y g)) as (ys & Hs & H0).
    destruct (ab2_drive_mm o vo u (R_field eps0) (R_char0 eps0) HV good _ _ _ X HU HX Hi ts hs ys g n
      (used_length_mm o vo u AdamsBashforth2 2 g eq_refl Hg) Hw Hs H0) as (g' & E & Y & _).
    exists g'. split; [exact E|]. rewrite Y, <- H0.
    apply (ab2_near eps0 vo norm HV HN L X HL ts hs err Hh ys w Hs n Hn).
  Qed.
End Claims.

(** C78: how far a Galerkin ROM can be from its FOM. *)
From Coq Require Import ZArith List Reals Lra Lia Field.
From Verif Require Import Base RInst Laws LawInst AdvanceModel AdvanceSpec ExplicitModel ExplicitSpec ExplicitProofs ExplicitOrder
  ImplicitModel ImplicitSpec LspgModel RomSpec GalerkinModel GalerkinSpec GalerkinProofs GalerkinClaims RomExactProofs RomExactClaims
  StabilitySpec StabilityProofs StabilityRuns.
Import ListNotations.
Local Open Scope R_scope.

Section Reduced.
  Context {X Y : Type} (eps0 : R) (xo : vops R X) (yo : vops R Y) (norm : Y -> R).
  Notation o := (Rops eps0).
  Hypotheses (HX : vspace o xo) (HY : vspace o yo) (HN : normed yo norm).
  Notation dist := (dist eps0 yo norm).
  Let HF := R_field eps0.
  Let HC := R_char0 eps0.
  Variables (recon bapp : X -> Y) (off : Y).
  Hypothesis Hlin : linear xo yo bapp.
  Hypothesis Hrec : forall x, recon x = vadd yo (bapp x) off.
  Variables (L del : R) (f : Y -> R -> Y) (d : X -> R -> X).
  Hypothesis HL : lipschitz eps0 yo norm L f.
  (** ** One step, uniform defect *)
  Section Uniform.
  Hypothesis Hdel : forall x t, dist (f (recon x) t) (bapp (d x t)) <= del.
  Lemma del_pos : X -> 0 <= del.
  Proof. intros x. eapply Rle_trans; [apply (dist_pos eps0 yo norm HN)|apply (Hdel x 0)]. Qed.
  Fixpoint gains_d (rows : list (R * list R)) (h e : R) (es : list R) : list R :=
    match rows with
    | [] => []
    | (_, a) :: rows' => let g := L * (e + rsum h a es) + del in g :: gains_d rows' h e (es ++ [g])
    end.
  Lemma stages_near_d t h y x : forall rows ks ls es, near eps0 yo norm ks (map bapp ls) es ->
    near eps0 yo norm (map st_k (erk_stages o yo f rows y t h ks)) (map bapp (map st_k (erk_stages o xo d rows x t h ls)))
      (gains_d rows h (dist y (recon x)) es).
  Proof.
    induction rows as [|[c a] rows IH]; intros ks ls es H; cbn; [constructor|].
    assert (B : dist (f (ycomb o yo h y a ks) (sadd o t (smul o c h))) (bapp (d (ycomb o xo h x a ls) (sadd o t (smul o c h))))
                <= L * (dist y (recon x) + rsum h a es) + del).
    { destruct HL as [L0 HL']. eapply Rle_trans; [apply (dist_tri eps0 yo norm HY HN _ (f (recon (ycomb o xo h x a ls)) (sadd o t (smul o c h))))|].
      apply Rplus_le_compat; [|apply Hdel]. eapply Rle_trans; [apply HL'|]. apply Rmult_le_compat_l; [exact L0|].
      rewrite (ycomb_affine o xo yo recon bapp off HF HY Hlin Hrec). apply (ycomb_near eps0 yo norm HY HN). exact H. }
    constructor; [exact B|]. apply IH. rewrite map_app. apply near_app; [exact H|]. constructor; [exact B|constructor].
  Qed.
  Lemma erk_growth_d name tab t h y x : tab_of o name = Some tab -> 0 <= h ->
    dist (erk_next o yo f tab y t h) (recon (erk_next o xo d tab x t h)) <= exp (L * h) * (dist y (recon x) + h * del).
  Proof.
    intros HT Hh. pose proof (del_pos x) as Hd.
    assert (E : dist (erk_next o yo f tab y t h) (recon (erk_next o xo d tab x t h)) <=
      dist y (recon x) + rsum h (tb_b tab) (gains_d (tb_stages tab) h (dist y (recon x)) [])).
    { unfold erk_next. rewrite (ycomb_affine o xo yo recon bapp off HF HY Hlin Hrec). apply (ycomb_near eps0 yo norm HY HN).
      apply (stages_near_d t h y x (tb_stages tab) [] [] []). constructor. }
    eapply Rle_trans; [exact E|]. set (e := dist y (recon x)).
    assert (He : 0 <= e) by apply (dist_pos eps0 yo norm HN). destruct HL as [L0 _].
    assert (Ha : 0 <= L * h) by (apply Rmult_le_pos; assumption).
    assert (Hd' : 0 <= h * del) by (apply Rmult_le_pos; assumption).
    set (D := h * del) in *. set (A := L * h) in *.
    assert (A2 : 0 <= A * A) by (apply Rmult_le_pos; assumption).
    assert (A3 : 0 <= A * A * A) by (apply Rmult_le_pos; assumption).
    assert (A4 : 0 <= A * A * A * A) by (apply Rmult_le_pos; assumption).
    destruct name; try discriminate HT; injection HT as <-; cbn -[exp].
    - rewrite Rabs_pos_eq by lra. pose proof (exp_1 _ Ha) as H1.
      apply Rle_trans with ((1 + A) * (e + D)); [|apply Rmult_le_compat_r; lra].
      apply Rle_trans with (e + A * e + D); [right; unfold A, D; field|nra].
    - unfold s_of_pos; cbn -[exp]. rewrite !Rabs_pos_eq by lra. pose proof (exp_4 _ Ha) as H4.
      apply Rle_trans with ((1 + A + A * A / 2 + A * A * A / 6 + A * A * A * A / 24) * (e + D)); [|apply Rmult_le_compat_r; lra].
      apply Rle_trans with ((1 + A + A * A / 2 + A * A * A / 6 + A * A * A * A / 24) * e + (1 + A / 2 + A * A / 6 + A * A * A / 24) * D);
        [right; unfold A, D; field|]. rewrite (Rmult_plus_distr_l (1 + A + A * A / 2 + A * A * A / 6 + A * A * A * A / 24)).
      apply Rplus_le_compat_l. apply Rmult_le_compat_r; lra.
    - rewrite !Rabs_pos_eq by lra. pose proof (exp_3 _ Ha) as H3.
      apply Rle_trans with ((1 + A + A * A / 2 + A * A * A / 6) * (e + D)); [|apply Rmult_le_compat_r; lra].
      apply Rle_trans with ((1 + A + A * A / 2 + A * A * A / 6) * e + (1 + A / 2 + A * A / 6) * D);
        [right; unfold A, D; field|]. rewrite (Rmult_plus_distr_l (1 + A + A * A / 2 + A * A * A / 6)).
      apply Rplus_le_compat_l. apply Rmult_le_compat_r; lra.
  Qed.
  Variables (ts hs : nat -> R).
  Hypothesis Hh : forall k, 0 <= hs k.
  Lemma erk_iter_d name tab y x n : tab_of o name = Some tab ->
    dist (erk_iter o yo f tab ts hs n y) (recon (erk_iter o xo d tab ts hs n x)) <=
    exp (L * elapsed hs n) * (dist y (recon x) + elapsed hs n * del).
  Proof.
    intros HT. pose proof (del_pos x) as Hd. destruct HL as [L0 _]. induction n as [|n IH].
    - cbn. rewrite Rmult_0_r, exp_0. lra.
    - cbn [erk_iter elapsed]. eapply Rle_trans; [apply (erk_growth_d name tab); [exact HT|apply Hh]|].
      rewrite (Rmult_plus_distr_l L), exp_plus. set (B := exp (L * elapsed hs n)) in *.
      assert (B1 : 1 <= B) by (apply exp_ge_1; apply Rmult_le_pos; [exact L0|apply elapsed_pos; exact Hh]).
      rewrite (Rmult_comm B), Rmult_assoc. apply Rmult_le_compat_l; [left; apply exp_pos|].
      assert (Q : 0 <= hs n * del) by (apply Rmult_le_pos; [apply Hh|exact Hd]). nra.
  Qed.
  End Uniform.
  (** ** Defects along the reduced trajectory *)
  Variables (ts hs : nat -> R).
  Hypothesis Hh : forall k, 0 <= hs k.
  Notation defect x t := (dist (f (recon x) t) (bapp (d x t))).
  Lemma euler_reduced xs n : (forall k, (k < n)%nat -> xs (Datatypes.S k) = vadd xo (xs k) (vscale xo (hs k) (d (xs k) (ts k)))) ->
    nearly_erk eps0 yo norm f (tab_fe o) ts hs (fun k => hs k * defect (xs k) (ts k)) n (fun k => recon (xs k)).
  Proof.
    intros Hx k Hk. rewrite Hx by exact Hk. rewrite (recon_step o xo yo recon bapp off HF HY Hlin Hrec).
    replace (erk_next o yo f (tab_fe o) (recon (xs k)) (ts k) (hs k)) with
      (vadd yo (recon (xs k)) (vscale yo (hs k) (f (recon (xs k)) (ts k)))).
    - eapply Rle_trans; [apply (dist_step eps0 yo norm HY HN)|].
      assert (E : dist (recon (xs k)) (recon (xs k)) = 0).
      { unfold StabilitySpec.dist. replace (vminus o yo (recon (xs k)) (recon (xs k))) with (vscale yo 0 (recon (xs k))); [rewrite (n_scale _ _ HN), Rabs_R0; ring|].
        unfold vminus, neg1. vreduce (Rops eps0) yo HF HY; cbn; lra. }
      rewrite E, Rabs_pos_eq, (dist_sym eps0 yo norm HY HN) by apply Hh. lra.
    - unfold erk_next. cbn. f_equal. f_equal; [lra|]. f_equal. lra.
  Qed.
  Lemma ab2_reduced xs n : ab2_sequence o xo d ts hs xs ->
    nearly_ab2 eps0 yo norm f ts hs
      (fun k => hs k * match k with O => defect (xs 0%nat) (ts 0%nat)
                       | Datatypes.S j => 3 / 2 * defect (xs k) (ts k) + 1 / 2 * defect (xs j) (ts j) end) n (fun k => recon (xs k)).
  Proof.
    assert (E : forall y, dist y y = 0).
    { intros y. unfold StabilitySpec.dist. replace (vminus o yo y y) with (vscale yo 0 y); [rewrite (n_scale _ _ HN), Rabs_R0; ring|].
      unfold vminus, neg1. vreduce (Rops eps0) yo HF HY; cbn; lra. }
    intros [H1 H2]. split.
    - intros _. rewrite H1, (recon_step o xo yo recon bapp off HF HY Hlin Hrec).
      eapply Rle_trans; [apply (dist_step eps0 yo norm HY HN)|].
      rewrite E, Rabs_pos_eq, (dist_sym eps0 yo norm HY HN) by apply Hh. lra.
    - intros k _. rewrite H2, (recon_step o xo yo recon bapp off HF HY Hlin Hrec).
      eapply Rle_trans; [apply (dist_step eps0 yo norm HY HN)|]. rewrite E, Rabs_pos_eq, Rplus_0_l by apply Hh.
      apply Rmult_le_compat_l; [apply Hh|]. replace (k + 1)%nat with (Datatypes.S k) by lia.
      rewrite (lin_add _ _ _ Hlin), !(lin_scale _ _ _ Hlin).
      replace (sdiv o (sZ o 3) (sZ o 2)) with (3 / 2) by (cbn; lra).
      replace (sopp o (sdiv o (sZ o 1) (sZ o 2))) with (- (1 / 2)) by (cbn; lra).
      eapply Rle_trans; [apply (dist_add eps0 yo norm HY HN)|]. rewrite !(dist_scale eps0 yo norm HY HN), Rabs_Ropp, !Rabs_pos_eq by lra.
      rewrite !(dist_sym eps0 yo norm HY HN (bapp _)). lra.
  Qed.
End Reduced.

(** Derivatives of maps between normed spaces. *)
From Coq Require Import Reals Lra.
From Verif Require Import Base RInst Laws LawInst ImplicitSpec RomSpec.
Local Open Scope R_scope.

Section Deriv.
  (** The derivative of f at an affine image. *)
  Lemma derivative_affine {X Y Z} (xo : vops R X) nx (yo : vops R Y) ny (zo : vops R Z) nz
        (rec : X -> Y) (A : X -> Y) (f : Y -> Z) (L : Y -> Z) x :
    (forall d, rec (vadd xo x d) = vadd yo (rec x) (A d)) ->
    (exists K, forall d, ny (A d) <= K * nx d) -> (forall d, 0 <= nx d) ->
    derivative2 yo ny zo nz f (rec x) L ->
    derivative2 xo nx zo nz (fun x => f (rec x)) x (fun d => L (A d)).
  Proof.
    intros HA [K HK] Hn HD e He.
    assert (HKp : 0 < Rabs K + 1) by (pose proof (Rabs_pos K); lra).
    destruct (HD (e / (Rabs K + 1))) as (del & Hd & H).
    { apply Rdiv_lt_0_compat; assumption. }
    exists (del / (Rabs K + 1)). split; [apply Rdiv_lt_0_compat; assumption|]. intros d Hd2.
    assert (HB : ny (A d) <= (Rabs K + 1) * nx d).
    { eapply Rle_trans; [apply HK|]. apply Rmult_le_compat_r; [apply Hn|]. pose proof (Rle_abs K). lra. }
    rewrite HA. eapply Rle_trans; [apply H|].
    - eapply Rle_lt_trans; [exact HB|]. apply (Rmult_lt_compat_l (Rabs K + 1)) in Hd2; [|exact HKp].
      replace ((Rabs K + 1) * (del / (Rabs K + 1))) with del in Hd2 by (field; lra). exact Hd2.
    - apply Rle_trans with (e / (Rabs K + 1) * ((Rabs K + 1) * nx d)).
      + apply Rmult_le_compat_l; [|exact HB]. apply Rlt_le, Rdiv_lt_0_compat; assumption.
      + right. field. lra.
  Qed.

  (** A map that differs by [c] f from an affine one. *)
  Lemma derivative_comb2 {X Y} (xo : vops R X) nx (yo : vops R Y) ny (F f : X -> Y) (L Lf : X -> Y) (c : R) (x : X) :
    normed yo ny -> (forall d, 0 <= nx d) ->
    (forall d, vadd yo (F (vadd xo x d)) (vscale yo (-1) (vadd yo (F x) (L d))) =
               vscale yo c (vadd yo (f (vadd xo x d)) (vscale yo (-1) (vadd yo (f x) (Lf d))))) ->
    derivative2 xo nx yo ny f x Lf -> derivative2 xo nx yo ny F x L.
  Proof.
    intros HN Hn HE HD e He. pose proof (Rabs_pos c) as Hc.
    destruct (HD (e / (Rabs c + 1))) as (del & Hd & H).
    { apply Rdiv_lt_0_compat; [exact He|lra]. }
    exists del. split; [exact Hd|]. intros d Hd2. rewrite HE, (n_scale _ _ HN).
    eapply Rle_trans; [apply Rmult_le_compat_l; [exact Hc|apply H; exact Hd2]|].
    pose proof (Hn d) as Hp.
    replace (Rabs c * (e / (Rabs c + 1) * nx d)) with ((Rabs c / (Rabs c + 1)) * (e * nx d)) by (field; lra).
    rewrite <- (Rmult_1_l (e * nx d)) at 2. apply Rmult_le_compat_r.
    - apply Rmult_le_pos; lra.
    - apply (Rmult_le_reg_r (Rabs c + 1)); [lra|]. field_simplify; lra.
  Qed.

  (** Behind a bounded linear map. *)
  Lemma derivative_left {X Y Z} (xo : vops R X) nx (yo : vops R Y) ny (zo : vops R Z) nz (B : Y -> Z)
        (F L : X -> Y) x :
    bounded yo ny zo nz B -> (forall d, 0 <= nx d) -> (forall y, 0 <= ny y) ->
    derivative2 xo nx yo ny F x L -> derivative2 xo nx zo nz (fun x => B (F x)) x (fun d => B (L d)).
  Proof.
    intros [HB [K HK]] Hn Hny HD e He. pose proof (Rabs_pos K) as Hc.
    destruct (HD (e / (Rabs K + 1))) as (del & Hd & H).
    { apply Rdiv_lt_0_compat; [exact He|lra]. }
    exists del. split; [exact Hd|]. intros d Hd2.
    rewrite <- (lin_add _ _ _ HB), <- (lin_scale _ _ _ HB), <- (lin_add _ _ _ HB).
    eapply Rle_trans; [apply HK|].
    apply Rle_trans with ((Rabs K + 1) * (e / (Rabs K + 1) * nx d)).
    - apply Rle_trans with ((Rabs K + 1) * ny (vadd yo (F (vadd xo x d)) (vscale yo (-1) (vadd yo (F x) (L d))))).
      + apply Rmult_le_compat_r; [apply Hny|]. pose proof (Rle_abs K). lra.
      + apply Rmult_le_compat_l; [lra|]. apply H. exact Hd2.
    - right. field. lra.
  Qed.
  Lemma derivative_ext {X Y} (xo : vops R X) nx (yo : vops R Y) ny (F G L M : X -> Y) x :
    (forall x, F x = G x) -> (forall d, L d = M d) ->
    derivative2 xo nx yo ny F x L -> derivative2 xo nx yo ny G x M.
  Proof.
    intros HF HL HD e He. destruct (HD e He) as (del & Hd & H). exists del. split; [exact Hd|].
    intros d Hd2. rewrite <- !HF, <- HL. apply H. exact Hd2.
  Qed.
End Deriv.

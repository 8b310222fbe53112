(** C94: functions of the step size up to terms of a given order; the expansion of a vector field along a polynomial. *)
From Coq Require Import Reals ZArith List Lra Lia.
From Verif Require Import Base RInst Laws LawInst ExplicitModel ImplicitModel ImplicitSpec DissipSpec DissipProofs RomErrorRuns OrderSpec.
Import ListNotations.
Local Open Scope R_scope.

(** ** Comparison *)
Lemma compare (u u' : R -> R) (h C : R) (m : nat) : 0 <= h -> (forall s, 0 <= s <= h -> derivable_pt_lim u s (u' s)) -> u 0 = 0 ->
  (forall s, 0 <= s <= h -> Rabs (u' s) <= C * s ^ m) -> Rabs (u h) <= C / INR (S m) * h ^ (S m).
Proof.
  intros Hh Hd H0 Hb. destruct Hh as [Hh|<-]; [|rewrite H0, Rabs_R0; cbn; right; ring].
  assert (Hm : 0 < INR (S m)) by (apply lt_0_INR; lia).
  assert (P : forall c, c = 1 \/ c = -1 -> c * u h <= C / INR (S m) * h ^ (S m)).
  { intros c Hc. set (v := fun s => C / INR (S m) * s ^ (S m) - c * u s).
    destruct (MVT_cor2 v (fun s => C * s ^ m - c * u' s) 0 h Hh) as (s & E & Hs).
    - intros s Hs. unfold v. apply (derivable_pt_lim_minus (fun s => C / INR (S m) * s ^ (S m)) (fun s => c * u s)).
      + refine (eq_ind _ (derivable_pt_lim _ s) (derivable_pt_lim_scal _ (C / INR (S m)) s _ (derivable_pt_lim_pow s (S m))) _ _). cbn [Nat.pred]. field. lra.
      + apply derivable_pt_lim_scal, Hd. exact Hs.
    - unfold v in E. rewrite H0 in E. cbn [pow] in E. specialize (Hb s ltac:(lra)). assert (Hb' : - (C * s ^ m) <= u' s <= C * s ^ m) by (unfold Rabs in Hb; destruct (Rcase_abs (u' s)); lra).
      assert (0 <= (C * s ^ m - c * u' s) * (h - 0)) by (apply Rmult_le_pos; [destruct Hc as [-> | ->]; lra|lra]). cbn [pow]. lra. }
  pose proof (P 1 (or_introl eq_refl)). pose proof (P (-1) (or_intror eq_refl)). apply Rabs_le. lra.
Qed.

Section Close.
  Context {X : Type} (eps0 : R) (xo : vops R X) (ip : X -> X -> R).
  Notation o := (Rops eps0).
  Hypotheses (HX : vspace o xo) (HI : inner xo ip).
  Variables (t0 T : R).
  Hypothesis HT : 0 <= T.
  Notation len := (length_of ip).
  Notation "a -- b" := (vminus o xo a b) (at level 50, left associativity).
  Notation "a ++ b" := (vadd xo a b).
  Notation "c ** a" := (vscale xo c a) (at level 40, left associativity).
  Definition inside (t h : R) : Prop := t0 <= t /\ 0 <= h /\ t + h <= t0 + T.
  Definition close (m : nat) (a b : R -> R -> X) : Prop := exists C, 0 <= C /\ forall t h, inside t h -> len (a t h -- b t h) <= C * h ^ m.
  Definition small (m : nat) (a : R -> R -> X) : Prop := exists C, 0 <= C /\ forall t h, inside t h -> len (a t h) <= C * h ^ m.
  Definition tame (a : R -> X) : Prop := exists C, 0 <= C /\ forall t, t0 <= t <= t0 + T -> len (a t) <= C.
  Let HN := inner_normed eps0 xo HX ip HI.
  Ltac vr := unfold vminus, neg1; vreduce (Rops eps0) xo (R_field eps0) HX; cbn.
  Lemma pos_len x : 0 <= len x. Proof. apply (n_pos _ _ HN). Qed.
  Lemma tri x y : len (x ++ y) <= len x + len y. Proof. apply (n_tri _ _ HN). Qed.
  Lemma scaled c x : len (c ** x) = Rabs c * len x. Proof. apply (n_scale _ _ HN). Qed.
  Lemma inside_h t h : inside t h -> 0 <= h <= T /\ t0 <= t <= t0 + T. Proof. unfold inside. lra. Qed.
  Lemma pow_pos t h m : inside t h -> 0 <= h ^ m. Proof. intros H. apply pow_le. apply H. Qed.
  Lemma close_same m a b : (forall t h, inside t h -> a t h = b t h) -> close m a b.
  Proof.
    intros E. exists 0. split; [lra|]. intros t h H. rewrite (E t h H). replace (b t h -- b t h) with (0 ** b t h) by (vr; lra). rewrite scaled, Rabs_R0. lra.
  Qed.
  Lemma close_small m a b : small m (fun t h => a t h -- b t h) -> close m a b.
  Proof. exact (fun x => x). Qed.
  Lemma small_add m a b : small m a -> small m b -> small m (fun t h => a t h ++ b t h).
  Proof.
    intros (C & HC & A) (C' & HC' & B). exists (C + C'). split; [lra|]. intros t h H. pose proof (tri (a t h) (b t h)). pose proof (A t h H). pose proof (B t h H).
    rewrite Rmult_plus_distr_r. lra.
  Qed.
  Lemma small_scale m c a : small m a -> small m (fun t h => c ** a t h).
  Proof.
    intros (C & HC & A). exists (Rabs c * C). split; [apply Rmult_le_pos; [apply Rabs_pos|exact HC]|]. intros t h H. rewrite scaled, Rmult_assoc.
    apply Rmult_le_compat_l; [apply Rabs_pos|apply A, H].
  Qed.
  Lemma small_h m k a : small m a -> small (k + m) (fun t h => h ^ k ** a t h).
  Proof.
    intros (C & HC & A). exists C. split; [exact HC|]. intros t h H. rewrite scaled, (Rabs_pos_eq (h ^ k)) by (eapply pow_pos; exact H). rewrite pow_add.
    pose proof (Rmult_le_compat_l _ _ _ (pow_pos t h k H) (A t h H)). lra.
  Qed.
  Lemma small_weaken m m' a : (m' <= m)%nat -> small m a -> small m' a.
  Proof.
    intros L (C & HC & A). exists (C * T ^ (m - m')). split; [apply Rmult_le_pos; [exact HC|apply pow_le, HT]|]. intros t h H.
    eapply Rle_trans; [apply A, H|]. replace m with ((m - m') + m')%nat at 1 by lia. rewrite pow_add, Rmult_assoc. apply Rmult_le_compat_l; [exact HC|].
    apply Rmult_le_compat_r; [eapply pow_pos; exact H|]. apply pow_incr. apply (inside_h t h H).
  Qed.
  Lemma small_ext m a b : (forall t h, inside t h -> a t h = b t h) -> small m a -> small m b.
  Proof. intros E (C & HC & A). exists C. split; [exact HC|]. intros t h H. rewrite <- (E t h H). apply A, H. Qed.
  Lemma small_tame m a : tame a -> small m (fun t h => h ^ m ** a t).
  Proof.
    intros (C & HC & A). replace m with (m + 0)%nat at 1 by lia. apply (small_h 0 m (fun t _ => a t)). exists C. split; [exact HC|].
    intros t h H. cbn. rewrite Rmult_1_r. apply A. apply (inside_h t h H).
  Qed.
  Lemma close_trans m a b c : close m a b -> close m b c -> close m a c.
  Proof. intros A B. apply (small_ext _ (fun t h => (a t h -- b t h) ++ (b t h -- c t h))); [intros t h _; vr; lra|apply small_add; assumption]. Qed.
  Lemma close_sym m a b : close m a b -> close m b a.
  Proof. intros A. apply (small_ext _ (fun t h => (- (1)) ** (a t h -- b t h))); [intros t h _; vr; lra|apply small_scale; exact A]. Qed.
  Lemma close_add m a b a' b' : close m a b -> close m a' b' -> close m (fun t h => a t h ++ a' t h) (fun t h => b t h ++ b' t h).
  Proof. intros A B. apply (small_ext _ (fun t h => (a t h -- b t h) ++ (a' t h -- b' t h))); [intros t h _; vr; lra|apply small_add; assumption]. Qed.
  Lemma close_scale m c a b : close m a b -> close m (fun t h => c ** a t h) (fun t h => c ** b t h).
  Proof. intros A. apply (small_ext _ (fun t h => c ** (a t h -- b t h))); [intros t h _; vr; lra|apply small_scale; assumption]. Qed.
  Lemma close_h m k a b : close m a b -> close (k + m) (fun t h => h ^ k ** a t h) (fun t h => h ^ k ** b t h).
  Proof. intros A. apply (small_ext _ (fun t h => h ^ k ** (a t h -- b t h))); [intros t h _; vr; lra|apply (small_h m k (fun t h => a t h -- b t h)); assumption]. Qed.
  Lemma close_weaken m m' a b : (m' <= m)%nat -> close m a b -> close m' a b.
  Proof. intros L A. eapply small_weaken; [exact L|exact A]. Qed.
  Lemma small_close m a b : close m a b -> small m b -> small m a.
  Proof. intros A B. apply (small_ext _ (fun t h => (a t h -- b t h) ++ b t h)); [intros t h _; vr; lra|apply small_add; assumption]. Qed.
  (** terms of higher order do not matter *)
  Lemma close_drop m k a b r : (m <= k)%nat -> tame r -> (forall t h, inside t h -> a t h = b t h ++ h ^ k ** r t) -> close m a b.
  Proof.
    intros L Hr E. apply (small_ext _ (fun t h => h ^ k ** r t)); [intros t h H; rewrite (E t h H); vr; lra|].
    apply (small_weaken k); [exact L|apply small_tame, Hr].
  Qed.
  Lemma tame_add a b : tame a -> tame b -> tame (fun t => a t ++ b t).
  Proof. intros (C & HC & A) (C' & HC' & B). exists (C + C'). split; [lra|]. intros t H. pose proof (tri (a t) (b t)). specialize (A t H). specialize (B t H). lra. Qed.
  Lemma tame_scale c a : tame a -> tame (fun t => c ** a t).
  Proof.
    intros (C & HC & A). exists (Rabs c * C). split; [apply Rmult_le_pos; [apply Rabs_pos|exact HC]|]. intros t H. rewrite scaled.
    apply Rmult_le_compat_l; [apply Rabs_pos|apply A, H].
  Qed.
End Close.

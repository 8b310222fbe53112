(** C76: two explicit integrations of the same equation. *)
From Coq Require Import ZArith List Reals Lra Lia Field.
From Verif Require Import Base RInst Laws LawInst AdvanceModel AdvanceSpec ExplicitModel ExplicitSpec ExplicitProofs ExplicitOrder ExplicitExtra
  ImplicitModel ImplicitSpec RomExactProofs StabilitySpec StabilityProofs StabilityRuns StabilityOrder.
Import ListNotations.
Local Open Scope R_scope.

Section Pairs.
  Context {V M W M' W' : Type} (eps0 : R) (vo : vops R V) (norm : V -> R) (u : @esys R V M W) (v : @esys R V M' W').
  Notation o := (Rops eps0).
  Hypotheses (HV : vspace o vo) (HN : normed vo norm).
  Notation dist := (dist eps0 vo norm).
  Variables (good : W -> Prop) (good' : W' -> Prop) (f : V -> R -> V) (L : R).
  Hypothesis HU : computes u good f.
  Hypothesis HU' : computes v good' f.
  Hypothesis HL : lipschitz eps0 vo norm L f.
  Lemma dist_self x : dist x x = 0.
  Proof.
    unfold StabilitySpec.dist. replace (vminus o vo x x) with (vscale vo 0 x); [rewrite (n_scale _ _ HN), Rabs_R0; ring|].
    unfold vminus, neg1. vreduce (Rops eps0) vo (R_field eps0) HV; cbn; lra.
  Qed.
  Lemma elapsed_zero n : elapsed (fun _ => 0) n = 0.
  Proof. induction n as [|n IH]; cbn [elapsed]; [reflexivity|]. rewrite IH. ring. Qed.
  Lemma pair_erk name tab k : tab_of o name = Some tab -> explicit_num_bufs name = Ok k ->
    forall g g', used k (explicit_step o vo u name) g -> used k (explicit_step o vo v name) g' ->
    good (x_w g) -> good' (x_w g') -> forall ts hs n, (forall k, 0 <= hs k) ->
    exists gn gn', drive (explicit_step o vo u name) ts hs n g = (Ok tt, gn) /\
      drive (explicit_step o vo v name) ts hs n g' = (Ok tt, gn') /\
      dist (x_y gn) (x_y gn') <= exp (L * elapsed hs n) * dist (x_y g) (x_y g').
  Proof.
    intros HT Hk g g' Hg Hg' Hw Hw' ts hs n Hh.
    destruct (erk_drive o vo v (R_field eps0) (R_char0 eps0) HV good' f HU' name tab k HT Hk ts hs n g'
      (used_length o vo v name k g' Hk Hg') Hw') as (gn' & E' & Y & _).
    destruct (perturbed_erk eps0 vo norm u HV HN good f L HU HL name tab k HT Hk g Hg Hw ts hs (fun _ => 0) n
      (fun j => erk_iter o vo f tab ts hs j (x_y g')) Hh) as (gn & E & D).
    - intros j _. cbn [erk_iter]. rewrite dist_self. apply Rle_refl.
    - exists gn, gn'. split; [exact E|]. split; [exact E'|]. rewrite Y, elapsed_zero, Rplus_0_r in *. exact D.
  Qed.
  Lemma pair_ab2 : forall g g', used 2 (explicit_step o vo u AdamsBashforth2) g -> used 2 (explicit_step o vo v AdamsBashforth2) g' ->
    good (x_w g) -> good' (x_w g') -> forall ts hs n, (forall k, 0 <= hs k) ->
    exists gn gn', drive (explicit_step o vo u AdamsBashforth2) ts hs n g = (Ok tt, gn) /\
      drive (explicit_step o vo v AdamsBashforth2) ts hs n g' = (Ok tt, gn') /\
      dist (x_y gn) (x_y gn') <= exp (2 * L * elapsed hs n) * dist (x_y g) (x_y g').
  Proof.
    intros g g' Hg Hg' Hw Hw' ts hs n Hh.
    destruct (ab2_exists o vo f ts hs (x_y g')) as (ys & Hs & H0).
    destruct (ab2_drive o vo v (R_field eps0) (R_char0 eps0) HV good' f HU' ts hs ys g' n
      (used_length o vo v AdamsBashforth2 2 g' eq_refl Hg') Hw' Hs H0) as (gn' & E' & Y & _).
    destruct (perturbed_ab2 eps0 vo norm u HV HN good f L HU HL g Hg Hw ts hs (fun _ => 0) n ys Hh) as (gn & E & D).
    - destruct Hs as [H1 H2]. split.
      + intros _. rewrite <- H1, dist_self. apply Rle_refl.
      + intros j _. specialize (H2 j). cbn [sdiv sopp sZ Rops] in H2.
        apply Rle_trans with (dist (ys (j + 2)%nat) (ys (j + 2)%nat)); [|rewrite dist_self; apply Rle_refl].
        right. f_equal. rewrite H2.
        replace (s_of_pos o 3 / s_of_pos o 2) with (3 / 2) by (cbn; lra).
        replace (- (s_of_pos o 1 / s_of_pos o 2)) with (- (1 / 2)) by (cbn; lra). reflexivity.
    - exists gn, gn'. split; [exact E|]. split; [exact E'|]. rewrite Y, elapsed_zero, Rplus_0_r, <- H0 in *. exact D.
  Qed.
End Pairs.

Lemma euler_scalar {M W : Type} (eps0 : R) (u : @esys R R M W) (good : W -> Prop) (f : R -> R -> R) (L : R) :
  computes u good f -> lipschitz eps0 (self_v (Rops eps0)) Rabs L f ->
  forall sol t0 T C, 0 <= T -> (forall t, t0 <= t <= t0 + T -> derivable_pt_lim sol t (f (sol t) t)) ->
  (forall s t, t0 <= s <= t0 + T -> t0 <= t <= t0 + T -> Rabs (f (sol s) s - f (sol t) t) <= C * Rabs (s - t)) ->
  let o := Rops eps0 in let vo := self_v o in
  forall g num, used 1 (explicit_step o vo u ForwardEuler) g -> good (x_w g) -> (0 < num)%nat -> (Z.of_nat num < int32_max)%Z ->
  exists y g' tr, advance_n_steps o (mk_user noop_obs (pol3 (fun _ _ _ w => (Ok (T / INR num), w))) noop_guess
      (stepper_fn (explicit_step o vo u ForwardEuler))) (Z.of_nat num) t0 (sol t0, g, []) = (Ok tt, (y, g', tr)) /\
    Rabs (y - sol (t0 + T)) <= exp (L * T) * (C * T * (T / INR num)).
Proof.
  intros HU HL sol t0 T C HT Hd Hc o vo g num Hg Hw Hn Hm.
  destruct (erk_convergence eps0 vo Rabs u (self_space o (R_field eps0)) (abs_normed eps0) good f L HU HL ForwardEuler (tab_fe o) 1
    sol t0 T C 1 eq_refl eq_refl HT (euler_local_order eps0 f sol t0 T C Hd Hc) g num Hg Hw Hn Hm) as (y & g' & tr & E & D).
  exists y, g', tr. split; [exact E|]. rewrite pow_1 in D. unfold dist, vminus, neg1 in D. cbn in D.
  replace (y - sol (t0 + T)) with (y + - (1) * sol (t0 + T)) by ring. exact D.
Qed.

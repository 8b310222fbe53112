(** Concrete cases meeting the hypotheses of [PropExplicit.v]. *)
From Coq Require Import ZArith List QArith Qcanon.
From Verif Require Import Base QcInst Laws LawInst AdvanceModel AdvanceSpec
  ExplicitModel ExplicitSpec ExplicitProofs ExplicitOrder ExplicitExtra.
Import ListNotations.
Local Open Scope Z_scope.

(** y1' = y2 + t, y2' = -y1 on Qc x Qc. *)
Definition ex_v : vops Qc (Qc * Qc) := pair_v QcV QcV.
Definition ex_f (y : Qc * Qc) (t : Qc) : Qc * Qc := ((snd y + t)%Qc, (- fst y)%Qc).
(** The rhs counts its calls and fails the third time; then works for ever. *)
Definition ex_user : @esys Qc (Qc * Qc) unit nat :=
  mk_esys (fun y t old w => (if Nat.eqb w 2 then Throw EVelocity else Ok tt,
                             (if Nat.eqb w 2 then old else ex_f y t, Datatypes.S w)))
          (fun _ _ m f w => (Ok tt, (m, f, w)))
          (fun _ x _ w => (Ok tt, (x, w)))
          (fun _ _ _ _ w => (Ok tt, w)).
Definition ex_good (w : nat) : Prop := (2 < w)%nat.
Example ex_computes : computes ex_user ex_good ex_f.
Proof.
  split; intros; unfold ex_good in *; cbn; [|eauto].
  destruct (Nat.eqb_spec w 2); [subst; exfalso; revert H; apply Nat.lt_irrefl|].
  eexists. split; [reflexivity|]. apply Nat.lt_lt_succ_r. assumption.
Qed.
Example ex_laws : sfield QcS /\ schar0 QcS /\ vspace QcS ex_v.
Proof.
  split; [exact Qc_field|]. split; [exact Qc_char0|].
  apply pair_space; apply self_space; exact Qc_field.
Qed.
(** A stepper whose first RK4 step failed in the third stage, and which is now
    used again. *)
Definition ex_fresh : @est Qc (Qc * Qc) unit nat :=
  mk_est (q 1, q 0) (repeat (q 7, q 7) 4) (q 7, q 7) (q 7, q 7) tt 0%nat [].
Definition ex_failed := snd (explicit_step QcS ex_v ex_user RungeKutta4 (q 0) 1 (q 1) ex_fresh).
Example ex_used : used 4 (explicit_step QcS ex_v ex_user RungeKutta4) ex_failed /\
  ex_good (x_w ex_failed) /\ x_y ex_failed = (q 1, q 0) /\
  fst (explicit_step QcS ex_v ex_user RungeKutta4 (q 0) 1 (q 1) ex_fresh) = Throw EVelocity.
Proof.
  split; [|split; [vm_compute; auto|split; [vm_compute; reflexivity|vm_compute; reflexivity]]].
  refine (UsedStep 4 _ ex_fresh (q 0) 1 (q 1) _ _ _ (surjective_pairing _)).
  apply UsedFresh. reflexivity.
Qed.
(** The value RK4 then computes is not the start value. *)
Example ex_value :
  let g' := snd (explicit_step QcS ex_v ex_user RungeKutta4 (q 0) 1 (q 1) ex_failed) in
  (this (fst (x_y g')), this (snd (x_y g'))) = (1 # 1, (-1) # 1)%Q /\
  length (x_tr g') = (5 + 8)%nat.
Proof. vm_compute. split; reflexivity. Qed.

(** Mass matrices: 2x2 diagonal, depending on state and time. *)
Definition ex_apply (m : Qc * Qc) (x : Qc * Qc) : Qc * Qc := ((fst m * fst x)%Qc, (snd m * snd x)%Qc).
Definition ex_mass (y : Qc * Qc) (t : Qc) : Qc * Qc := (1 + t * t + fst y * fst y, 1 + snd y * snd y)%Qc.
Lemma ex_mass_pos : forall y t, fst (ex_mass y t) <> 0%Qc /\ snd (ex_mass y t) <> 0%Qc.
Proof.
  assert (P : forall x : Qc, (0 <= x * x)%Qc).
  { intros x. unfold Qcle. assert (E : (this (x * x)%Qc == this x * this x)%Q) by apply Qred_correct.
    rewrite E. change (this 0%Qc) with 0%Q. destruct (this x) as [n d]. unfold Qle. cbn.
    rewrite Z.mul_1_r. apply Z.square_nonneg. }
  assert (Q1 : forall a b : Qc, (0 <= a)%Qc -> (0 <= b)%Qc -> (1 + a + b <> 0)%Qc).
  { intros a b Ha Hb E.
    assert (H : (1 <= 1 + a + b)%Qc).
    { replace 1%Qc with (1 + 0 + 0)%Qc at 1 by ring.
      apply Qcplus_le_compat; [apply Qcplus_le_compat|]; auto. apply Qcle_refl. }
    rewrite E in H. apply Qcle_not_lt in H. apply H. reflexivity. }
  intros y t. split; cbn.
  - apply Q1; apply P.
  - replace (1 + snd y * snd y)%Qc with (1 + 0 + snd y * snd y)%Qc by ring. apply Q1; [apply Qcle_refl|apply P].
Qed.
Definition ex_X (y : Qc * Qc) (t : Qc) : Qc * Qc :=
  ((fst (ex_f y t) / fst (ex_mass y t))%Qc, (snd (ex_f y t) / snd (ex_mass y t))%Qc).
Definition ex_user_mm : @esys Qc (Qc * Qc) (Qc * Qc) nat :=
  mk_esys (fun y t old w => (Ok tt, (old, w)))
          (fun y t _ _ w => (Ok tt, (ex_mass y t, ex_f y t, Datatypes.S w)))
          (fun m _ b w => (Ok tt, ((fst b / fst m)%Qc, (snd b / snd m)%Qc, w)))
          (fun _ _ _ _ w => (Ok tt, w)).
Example ex_computes_mm :
  computes_mm ex_user_mm (fun _ => True) ex_apply ex_mass ex_f /\
  (forall y t, ex_apply (ex_mass y t) (ex_X y t) = ex_f y t) /\
  (forall y t x x', ex_apply (ex_mass y t) x = ex_apply (ex_mass y t) x' -> x = x').
Proof.
  assert (A : forall y t, ex_apply (ex_mass y t) (ex_X y t) = ex_f y t).
  { intros y t. destruct (ex_mass_pos y t) as [H1 H2]. unfold ex_apply, ex_X.
    rewrite (surjective_pairing (ex_f y t)). f_equal; cbn [fst snd]; field; assumption. }
  split; [|split].
  - split; [|split]; intros; cbn; eauto.
    eexists. eexists. split; [reflexivity|]. split; [|exact I]. exact (A y t).
  - exact A.
  - intros y t [x1 x2] [z1 z2] H. destruct (ex_mass_pos y t) as [H1 H2]. unfold ex_apply in H. cbn [fst snd] in H.
    pose proof (f_equal fst H) as E1. pose proof (f_equal snd H) as E2. cbn [fst snd] in E1, E2.
    assert (x1 = z1).
    { transitivity (fst (ex_mass y t) * x1 / fst (ex_mass y t))%Qc; [field; assumption|].
      rewrite E1. field. assumption. }
    assert (x2 = z2).
    { transitivity (snd (ex_mass y t) * x2 / snd (ex_mass y t))%Qc; [field; assumption|].
      rewrite E2. field. assumption. }
    congruence.
Qed.

(** Degree-3 polynomial with vector coefficients, and a linear operator. *)
Example ex_quadrature :
  erk_next QcS ex_v (fun _ => vpoly ex_v [(q 1, q 2); (q 3, q 0); (q 0, q 5); (q 4, q 4)])
     (tab_rk4 QcS) (q 0, q 0) (q 0) (q 2) <> (q 0, q 0) /\
  linear ex_v ex_v (fun y : Qc * Qc => ((snd y)%Qc, (- fst y)%Qc)).
Proof.
  split; [vm_compute; discriminate|]. split; intros; cbn.
  - f_equal. ring.
  - f_equal. ring.
Qed.
Example ex_fails_only : fails_only ex_user (fun f => f = FThrow EVelocity).
Proof.
  repeat split; cbn; intros; try discriminate. destruct (Nat.eqb w 2); cbn in *; congruence.
Qed.

(** Cases meeting the hypotheses of [PropStability.v]: y' = 2 t - 3 (y - t^2), solved by t^2. *)
From Coq Require Import ZArith List Reals Lra Lia.
From Verif Require Import Base RInst Laws LawInst AdvanceModel AdvanceSpec ExplicitModel ExplicitSpec ImplicitModel ImplicitSpec
  StabilitySpec StabilityOrder.
Import ListNotations.
Local Open Scope R_scope.
Definition st_f (y t : R) : R := 2 * t - 3 * (y - t * t).
Definition st_sol (t : R) : R := t * t.
Definition st_sys : @esys R R R unit :=
  mk_esys (fun y t _ w => (Ok tt, (st_f y t, w))) (fun y t _ _ w => (Ok tt, (2, 2 * st_f y t, w)))
          (fun m _ b w => (Ok tt, (b / m, w))) (fun _ _ _ _ w => (Ok tt, w)).
Notation st_o := (Rops 0).
Notation st_v := (self_v (Rops 0)).
Example ex_st_laws : vspace st_o st_v /\ normed st_v Rabs /\ computes st_sys (fun _ => True) st_f /\
  lipschitz 0 st_v Rabs 3 st_f.
Proof.
  split; [apply self_space, R_field|]. split; [apply abs_normed|]. split; [split; intros; exists w; repeat split|].
  split; [lra|]. intros y z t. unfold dist, vminus, neg1, st_f. cbn.
  replace (2 * t - 3 * (y - t * t) + - (1) * (2 * t - 3 * (z - t * t))) with (-3 * (y + - (1) * z)) by ring.
  rewrite Rabs_mult. right. f_equal. rewrite Rabs_left; lra.
Qed.
Example ex_st_mass : computes_mm st_sys (fun _ => True) Rmult (fun _ _ => 2) (fun y t => 2 * st_f y t) /\
  (forall y t, 2 * st_f y t = 2 * st_f y t) /\ (forall a b, 2 * a = 2 * b -> a = b).
Proof.
  split; [|split; [reflexivity|intros; lra]]. split; [|split]; intros; cbn.
  - exists w. split; [reflexivity|exact I].
  - exists (2 * st_f y t / 2), w. split; [reflexivity|]. split; [field|exact I].
  - exists w. split; [reflexivity|exact I].
Qed.
(** The exact solution obeys forward Euler up to h^2 and two-step Adams-Bashforth exactly. *)
Example ex_st_euler : local_order 0 st_v Rabs st_f (tab_fe st_o) st_sol 0 1 1 1.
Proof.
  intros t h Ht Hh He. unfold dist, erk_next, vminus, neg1, st_f, st_sol. cbn.
  match goal with |- Rabs ?a <= _ => replace a with (h * h) by ring end. rewrite Rabs_pos_eq by nra. lra.
Qed.
Example ex_st_ab2 : local_ab2 0 st_v Rabs st_f st_sol 0 1 0.
Proof.
  intros t h Ht Hh He. unfold dist, vminus, neg1, st_f, st_sol. cbn.
  match goal with |- Rabs ?a <= _ => replace a with 0 by field end. rewrite Rabs_R0. lra.
Qed.
Example ex_st_near n : nearly_erk 0 st_v Rabs st_f (tab_fe st_o) (fun k => INR k / 10) (fun _ => 1 / 10) (fun _ => 1 / 100) n
  (fun k => st_sol (INR k / 10)).
Proof.
  intros k _. unfold dist, erk_next, vminus, neg1, st_f, st_sol. rewrite S_INR. cbn.
  match goal with |- Rabs ?a <= _ => replace a with (1 / 100) by field end. rewrite Rabs_pos_eq; lra.
Qed.
Example ex_st_near_ab2 n : nearly_ab2 0 st_v Rabs st_f (fun k => INR k / 10) (fun _ => 1 / 10) (fun _ => 1 / 100) n
  (fun k => st_sol (INR k / 10)).
Proof.
  split.
  - intros _. unfold dist, vminus, neg1, st_f, st_sol. cbn.
    match goal with |- Rabs ?a <= _ => replace a with (1 / 100) by field end. rewrite Rabs_pos_eq; lra.
  - intros k _. unfold dist, vminus, neg1, st_f, st_sol. rewrite !plus_INR. cbn.
    match goal with |- Rabs ?a <= _ => replace a with 0 by field end. rewrite Rabs_R0. lra.
Qed.
Example ex_st_solution : (forall t, 0 <= t <= 0 + 1 -> derivable_pt_lim st_sol t (st_f (st_sol t) t)) /\
  forall s t, 0 <= s <= 0 + 1 -> 0 <= t <= 0 + 1 -> Rabs (st_f (st_sol s) s - st_f (st_sol t) t) <= 2 * Rabs (s - t).
Proof.
  split.
  - intros t _. unfold st_f, st_sol. replace (2 * t - 3 * (t * t - t * t)) with (1 * t + t * 1) by ring.
    apply (derivable_pt_lim_mult id id); apply derivable_pt_lim_id.
  - intros s t _ _. unfold st_f, st_sol. match goal with |- Rabs ?a <= _ => replace a with (2 * (s - t)) by ring end.
    rewrite Rabs_mult, (Rabs_pos_eq 2); lra.
Qed.
Definition st_g (n : nat) : @est R R R unit := mk_est 5 (repeat 7 n) 7 7 7 tt [].
Example ex_st_used : used 1 (explicit_step st_o st_v st_sys ForwardEuler) (st_g 1) /\
  used 2 (explicit_step st_o st_v st_sys AdamsBashforth2) (st_g 2) /\
  explicit_num_bufs ForwardEuler = Ok 1%nat /\ tab_of st_o ForwardEuler = Some (tab_fe st_o) /\
  used 2 (explicit_step_mm st_o st_v st_sys AdamsBashforth2) (st_g 2) /\ 0 <= 1.
Proof.
  split; [apply UsedFresh; reflexivity|]. split; [apply UsedFresh; reflexivity|]. split; [reflexivity|].
  split; [reflexivity|]. split; [apply UsedFresh; reflexivity|lra].
Qed.

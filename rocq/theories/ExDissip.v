(** Cases meeting the hypotheses of [PropDissip.v]: y' = -y and 2 y' = -2 y, steps of size 1. *)
From Coq Require Import ZArith List Reals Lra Lia.
From Verif Require Import Base RInst Laws LawInst AdvanceModel AdvanceSpec ExplicitModel ImplicitModel ImplicitSpec Track
  StabilitySpec DissipSpec DissipPairs.
Import ListNotations.
Local Open Scope R_scope.
Notation di_o := (Rops 0).
Notation di_v := (self_v (Rops 0)).
Definition di_f (y t : R) : R := - y.
Definition di_user : isys (S:=R) (V:=R) (J:=R) (W:=nat) :=
  mk_isys (fun y t r Jo w => (Ok tt, (- y, Some (- (1)), Datatypes.S w))) (fun y t m r Jo w => (Ok tt, (2, 2 * - y, Some (- (2)), w))).
Example ex_di_laws : vspace di_o di_v /\ inner di_v Rmult /\ dissipative 0 di_v Rmult di_f /\
  rhs_is di_user di_f /\ rhs_mass_is di_user (fun _ _ => 2) (fun y t => 2 * di_f y t) /\
  repeatable di_user (fun y t => Ok (- y, - (1))) (fun _ _ j => j).
Proof.
  split; [apply self_space, R_field|]. split; [apply mult_inner|]. split.
  { intros y z t. unfold vminus, neg1, di_f. cbn. pose proof (Rle_0_sqr (y - z)) as Q. unfold Rsqr in Q. lra. }
  split; [intros y t r Jo w f' j' w' E; cbn in E; injection E as <- _ _; reflexivity|].
  split; [intros y t M0 f0 Jo w M' f' j' w' E; cbn in E; injection E as <- <- _ _; split; reflexivity|].
  intros y t r Jo w. eexists _, _. split; [reflexivity|split; [reflexivity|intros _; reflexivity]].
Qed.
Example ex_di_mass : linear di_v di_v (Rmult 2) /\ (forall x, 2 * x / 2 = x) /\ (forall x, 2 * (x / 2) = x) /\
  (forall x y, (2 * x) * y = x * (2 * y)) /\ (forall x, 0 <= (2 * x) * x) /\
  dissipative 0 di_v Rmult (fun y t => 2 * di_f y t).
Proof.
  split; [split; intros; cbn; ring|]. split; [intros; field|]. split; [intros; field|]. split; [intros; ring|].
  split; [intros; nra|]. intros y z t. unfold vminus, neg1, di_f. cbn. pose proof (Rle_0_sqr (y - z)) as Q. unfold Rsqr in Q. lra.
Qed.
(** A solver that tries the next of a list of multiples of the state and checks the residual. *)
Definition di_solver (Acc : R -> Prop) (dec : forall r, {Acc r} + {~ Acc r}) (ws : list R) (y : R) : sol R R R (list R) :=
  SCall (hd 0 ws * y) 0 None (fun e r _ =>
    match e with
    | Ok _ => if dec r then SEnd (Ok tt) (hd 0 ws * y) (tl ws) else SEnd (Throw ENonlinearSolve) y ws
    | _ => SEnd (Throw ENonlinearSolve) y ws
    end).
Example ex_di_solver : forall Acc dec ws y, ends (fun r => r <> Throw ETimeStep) (di_solver Acc dec ws y) /\
  certified Acc (fun _ => False) (di_solver Acc dec ws y).
Proof.
  intros Acc dec ws y. split; cbn; intros e r j; destruct e; cbn; try discriminate; try exact I;
    destruct (dec r) as [H|H]; cbn; try discriminate; try exact I. left. split; [reflexivity|exact H].
Qed.
Definition di_tol : R := / 100.
Definition di_dec (r : R) : {length_of Rmult r <= di_tol} + {~ length_of Rmult r <= di_tol} := Rle_dec _ _.
Definition di_decm (r : R) : {length_of (fun x y => 2 * x * y) (r / 2) <= di_tol} + {~ length_of (fun x y => 2 * x * y) (r / 2) <= di_tol} := Rle_dec _ _.
Lemma di_zero r : r = 0 -> length_of Rmult r <= di_tol.
Proof. intros ->. unfold length_of, di_tol. rewrite Rmult_0_l, sqrt_0. lra. Qed.
Lemma di_zerom r : r = 0 -> length_of (fun x y => 2 * x * y) (r / 2) <= di_tol.
Proof. intros ->. unfold length_of, di_tol. replace (2 * (0 / 2) * (0 / 2)) with 0 by field. rewrite sqrt_0. lra. Qed.
Definition di_obs (k : Z) (t y : R) (w : unit) : outcome unit * unit := (Ok tt, w).
Ltac di_run dec zero :=
  cbv -[Rplus Rminus Rmult Rdiv Ropp Rabs Rinv IZR length_of dec s_of_pos];
  repeat match goal with |- context[dec ?r] =>
    let N := fresh in destruct (dec r) as [_|N]; [|exfalso; apply N; apply zero; cbn; field] end;
  do 3 eexists; split; [reflexivity|]; cbn; repeat first [reflexivity|match goal with |- @eq R _ _ => field end|f_equal].
Definition di_go {P} (stp : R -> Z -> R -> cmd (@sst R R R P (list R)) unit) (g0 : @sst R R R P (list R)) (y0 : R) :=
  advance_n_steps di_o (mk_user (split_obs di_obs) (pol3 (split_pol (fun _ _ _ w => (Ok 1, w)))) noop_guess (split_step (implicit_fn stp)))
    2 0 (y0, (g0, tt), []).
(** Two steps from any initial state *)
Example ex_di_bdf1 : forall y0, exists tr,
  completed_std unit di_o di_v di_v 1 di_user (di_solver _ di_dec) BDF1 (fun r => length_of Rmult r <= di_tol) 0 y0 tr /\
  reports tr = [(0%Z, 0, y0); (1%Z, 1, y0 / 2); (2%Z, 2, y0 / 4)].
Proof.
  intros y0. pose (g0 := mk_sst y0 [7] ([] : list R) 0 0 0%Z (mk_ppol (-1) 0%nat) [1 / 2; 1 / 2]).
  assert (H : exists y' g' tr, di_go (implicit_step di_o (policy_std di_o di_v di_v 1 di_user) (di_solver _ di_dec) BDF1) g0 y0 =
    (Ok tt, (y', (g', tt), tr)) /\ reports tr = [(0%Z, 0, y0); (1%Z, 1, y0 / 2); (2%Z, 2, y0 / 4)]).
  { di_run di_dec di_zero. }
  destruct H as (y' & g' & tr & E & Er). exists tr. split; [|exact Er].
  eapply (CompletedSteps di_o _ _ _ _ _ di_obs 7 7 (mk_ppol (-1) 0%nat) y0 [1 / 2; 1 / 2] g0 (fun _ _ _ w => (Ok 1, w)) 2 0 y0);
    [intros; apply ex_di_solver|exists 0%nat; reflexivity|reflexivity|reflexivity|exact E].
Qed.
Example ex_di_bdf2 : forall y0, exists tr,
  completed_std unit di_o di_v di_v 1 di_user (di_solver _ di_dec) BDF2 (fun r => length_of Rmult r <= di_tol) 0 y0 tr /\
  reports tr = [(0%Z, 0, y0); (1%Z, 1, y0 / 2); (2%Z, 2, y0 / 5)].
Proof.
  intros y0. pose (g0 := mk_sst y0 [7; 7] ([] : list R) 0 0 0%Z (mk_ppol (-1) 0%nat) [1 / 2; 2 / 5]).
  assert (H : exists y' g' tr, di_go (implicit_step di_o (policy_std di_o di_v di_v 1 di_user) (di_solver _ di_dec) BDF2) g0 y0 =
    (Ok tt, (y', (g', tt), tr)) /\ reports tr = [(0%Z, 0, y0); (1%Z, 1, y0 / 2); (2%Z, 2, y0 / 5)]).
  { di_run di_dec di_zero. }
  destruct H as (y' & g' & tr & E & Er). exists tr. split; [|exact Er].
  eapply (CompletedSteps di_o _ _ _ _ _ di_obs 7 7 (mk_ppol (-1) 0%nat) y0 [1 / 2; 2 / 5] g0 (fun _ _ _ w => (Ok 1, w)) 2 0 y0);
    [intros; apply ex_di_solver|exists 0%nat; reflexivity|reflexivity|reflexivity|exact E].
Qed.
Example ex_di_cn : forall y0, exists tr,
  completed_std unit di_o di_v di_v 1 di_user (di_solver _ di_dec) CrankNicolson (fun r => length_of Rmult r <= di_tol) 0 y0 tr /\
  reports tr = [(0%Z, 0, y0); (1%Z, 1, y0 / 3); (2%Z, 2, y0 / 9)].
Proof.
  intros y0. pose (g0 := mk_sst y0 [7] ([7; 7] : list R) 0 0 0%Z (mk_ppol (-1) 0%nat) [1 / 3; 1 / 3]).
  assert (H : exists y' g' tr, di_go (implicit_step di_o (policy_std di_o di_v di_v 1 di_user) (di_solver _ di_dec) CrankNicolson) g0 y0 =
    (Ok tt, (y', (g', tt), tr)) /\ reports tr = [(0%Z, 0, y0); (1%Z, 1, y0 / 3); (2%Z, 2, y0 / 9)]).
  { di_run di_dec di_zero. }
  destruct H as (y' & g' & tr & E & Er). exists tr. split; [|exact Er].
  eapply (CompletedSteps di_o _ _ _ _ _ di_obs 7 7 (mk_ppol (-1) 0%nat) y0 [1 / 3; 1 / 3] g0 (fun _ _ _ w => (Ok 1, w)) 2 0 y0);
    [intros; apply ex_di_solver|exists 0%nat; reflexivity|reflexivity|reflexivity|exact E].
Qed.
Example ex_di_bdf1_mm : forall y0, exists tr,
  completed_mm unit di_o di_v di_v Rmult di_user (di_solver _ di_decm) BDF1 (fun r => length_of (fun x y => 2 * x * y) (r / 2) <= di_tol) 0 y0 tr /\
  reports tr = [(0%Z, 0, y0); (1%Z, 1, y0 / 2); (2%Z, 2, y0 / 4)].
Proof.
  intros y0. pose (g0 := mk_sst y0 [7] ([] : list R) 0 0 0%Z (mk_mpol 7 7 7 (-1) 0%nat) [1 / 2; 1 / 2]).
  assert (H : exists y' g' tr, di_go (implicit_step di_o (policy_mm di_o di_v di_v Rmult di_user) (di_solver _ di_decm) BDF1) g0 y0 =
    (Ok tt, (y', (g', tt), tr)) /\ reports tr = [(0%Z, 0, y0); (1%Z, 1, y0 / 2); (2%Z, 2, y0 / 4)]).
  { di_run di_decm di_zerom. }
  destruct H as (y' & g' & tr & E & Er). exists tr. split; [|exact Er].
  eapply (CompletedSteps di_o _ _ _ _ _ di_obs 7 7 (mk_mpol 7 7 7 (-1) 0%nat) y0 [1 / 2; 1 / 2] g0 (fun _ _ _ w => (Ok 1, w)) 2 0 y0);
    [intros; apply ex_di_solver|do 4 eexists; reflexivity|reflexivity|reflexivity|exact E].
Qed.
Example ex_di_bdf2_mm : forall y0, exists tr,
  completed_mm unit di_o di_v di_v Rmult di_user (di_solver _ di_decm) BDF2 (fun r => length_of (fun x y => 2 * x * y) (r / 2) <= di_tol) 0 y0 tr /\
  reports tr = [(0%Z, 0, y0); (1%Z, 1, y0 / 2); (2%Z, 2, y0 / 5)].
Proof.
  intros y0. pose (g0 := mk_sst y0 [7; 7] ([] : list R) 0 0 0%Z (mk_mpol 7 7 7 (-1) 0%nat) [1 / 2; 2 / 5]).
  assert (H : exists y' g' tr, di_go (implicit_step di_o (policy_mm di_o di_v di_v Rmult di_user) (di_solver _ di_decm) BDF2) g0 y0 =
    (Ok tt, (y', (g', tt), tr)) /\ reports tr = [(0%Z, 0, y0); (1%Z, 1, y0 / 2); (2%Z, 2, y0 / 5)]).
  { di_run di_decm di_zerom. }
  destruct H as (y' & g' & tr & E & Er). exists tr. split; [|exact Er].
  eapply (CompletedSteps di_o _ _ _ _ _ di_obs 7 7 (mk_mpol 7 7 7 (-1) 0%nat) y0 [1 / 2; 2 / 5] g0 (fun _ _ _ w => (Ok 1, w)) 2 0 y0);
    [intros; apply ex_di_solver|do 4 eexists; reflexivity|reflexivity|reflexivity|exact E].
Qed.
Ltac di_pairs := repeat match goal with H : (_, _) = (_, _) |- _ => apply pair_equal_spec in H; destruct H end; subst.
(** ... so two runs have the same times, which go forward in equal steps. *)
Example ex_di_times : forall (V V' : Type) (tr : list (call R V)) (tr' : list (call R V')) a b c a' b' c',
  reports tr = [(0%Z, 0, a); (1%Z, 1, b); (2%Z, 2, c)] -> reports tr' = [(0%Z, 0, a'); (1%Z, 1, b'); (2%Z, 2, c')] ->
  same_times tr tr' /\ forward_in_time tr /\ steps_not_growing tr /\ times_are tr INR /\
  (forall k t s t' s', In (k, t, s) (reports tr) -> In ((k + 1)%Z, t', s') (reports tr) -> t' - t <= 1).
Proof.
  intros V V' tr tr' a b c a' b' c' E E'. unfold same_times, forward_in_time, steps_not_growing, times_are. rewrite E, E'.
  split; [reflexivity|]. split; [|split; [|split]].
  - intros k t s t' s' [A|[A|[A|[]]]] [B|[B|[B|[]]]]; di_pairs; try lia; lra.
  - intros k t s t' s' t'' s'' [A|[A|[A|[]]]] [B|[B|[B|[]]]] [C|[C|[C|[]]]]; di_pairs; try lia; lra.
  - intros k t y [A|[A|[A|[]]]]; di_pairs.
    + replace k with 0%nat by lia. reflexivity.
    + replace k with 1%nat by lia. reflexivity.
    + replace k with 2%nat by lia. cbn. ring.
  - intros k t s t' s' [A|[A|[A|[]]]] [B|[B|[B|[]]]]; di_pairs; try lia; lra.
Qed.
(** Sequences that nearly obey the schemes: the constant 1. *)
Example ex_di_near n : near_bdf1 0 di_v Rmult di_f INR (fun _ => 1) n (fun _ => 1) /\
  near_bdf2 0 di_v Rmult di_f INR (fun _ => 1) n (fun _ => 1) /\ near_cn 0 di_v Rmult di_f INR (fun _ => 1) n (fun _ => 1).
Proof.
  unfold near_bdf1, near_bdf2, near_cn. split; [|split; [split|]]; intros; rewrite mult_length; unfold bdf1_R, bdf2_R, cn_R, vminus, neg1, frac, di_f;
    rewrite ?S_INR; cbn [vadd vscale di_v self_v smul sadd sopp s1 Rops sdiv sZ]; cbn;
    match goal with |- Rabs ?a <= _ => first [replace a with 1 by field|replace a with (2 / 3) by field] end; rewrite Rabs_pos_eq; lra.
Qed.
(** exp(-t) solves the equation, from 0 on with Lipschitz derivative. *)
Lemma di_exp t : derivable_pt_lim (fun t => exp (- t)) t (- exp (- t)).
Proof.
  replace (- exp (- t)) with (exp (- t) * (- (1))) by ring.
  apply (derivable_pt_lim_comp (fun t => - t) exp); [|apply derivable_pt_lim_exp].
  apply (derivable_pt_lim_opp id). apply derivable_pt_lim_id.
Qed.
Lemma di_exp_lip s t : 0 <= s -> s < t -> Rabs (exp (- t) - exp (- s)) <= t - s.
Proof.
  intros Hs Hst. destruct (MVT_cor2 (fun t => exp (- t)) (fun t => - exp (- t)) s t Hst) as (c & E & Hc); [intros; apply di_exp|].
  rewrite E, Rabs_mult, Rabs_Ropp, (Rabs_pos_eq (t - s)), Rabs_pos_eq; [|left; apply exp_pos|lra].
  assert (exp (- c) <= 1) by (rewrite <- exp_0; destruct (Req_dec c 0) as [->|]; [rewrite Ropp_0; lra|left; apply exp_increasing; lra]). nra.
Qed.
Example ex_di_sol : (forall t, 0 <= t -> derivable_pt_lim (fun t => exp (- t)) t (di_f (exp (- t)) t)) /\
  forall s t, 0 <= s -> 0 <= t -> Rabs (di_f (exp (- s)) s - di_f (exp (- t)) t) <= 1 * Rabs (s - t).
Proof.
  split; [intros t _; apply di_exp|]. intros s t Hs Ht. unfold di_f. replace (- exp (- s) - - exp (- t)) with (exp (- t) - exp (- s)) by ring.
  destruct (Rtotal_order s t) as [H|[->|H]].
  - rewrite (Rabs_left (s - t)) by lra. pose proof (di_exp_lip s t Hs H). lra.
  - rewrite !Rminus_diag_eq, Rabs_R0 by reflexivity. lra.
  - rewrite (Rabs_pos_eq (s - t)) by lra. rewrite Rabs_minus_sym. pose proof (di_exp_lip t s Ht H). lra.
Qed.

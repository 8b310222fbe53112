(** Cases meeting the hypotheses of [PropRomError.v]: FOM y' = -y in the plane, basis (1, 0), shift (0, 1).
    The ROM's states (x, 1) have the second component of the FOM's velocity, -1, projected away. *)
From Coq Require Import ZArith List Reals Lra Lia.
From Verif Require Import Base RInst Laws LawInst AdvanceModel AdvanceSpec ExplicitModel ExplicitSpec ExplicitExtra ImplicitModel ImplicitSpec Track
  LspgModel RomSpec GalerkinModel GalerkinSpec StabilitySpec DissipSpec DissipProofs DissipPairs RomErrorRuns ExDissip.
Import ListNotations.
Local Open Scope R_scope.
Notation re_P := (R * R)%type.
Notation re_v := (pair_v di_v di_v).
Definition re_ip (y z : re_P) : R := fst y * fst z + snd y * snd z.
Definition re_f (y : re_P) (t : R) : re_P := (- fst y, - snd y).
Definition re_bapp (x : R) : re_P := (x, 0).
Definition re_recon (x : R) : re_P := vadd re_v (re_bapp x) (0, 1).
Definition re_prod (a : R) (phi v : re_P) (b r : R) : R := a * re_ip phi v + b * r.
Definition re_fom : sfom (S:=R) (Y:=re_P) (R:=re_P) (J:=re_P) (B:=re_P) (W:=unit) :=
  mk_sfom (fun y t r w => (Ok tt, (re_f y t, w))) (fun y phi t j w => (Ok tt, (re_f phi t, w))).
Definition re_mass (y phi : re_P) (t : R) (m : re_P) (w : unit) : outcome unit * (re_P * unit) := (Ok tt, ((2 * fst phi, 2 * snd phi), w)).
Definition re_sys : @esys R re_P R unit :=
  mk_esys (fun y t _ w => (Ok tt, (re_f y t, w))) (fun y t _ _ w => (Ok tt, (2, re_f y t, w)))
          (fun m _ b w => (Ok tt, (vscale re_v (/ m) b, w))) (fun _ _ _ _ w => (Ok tt, w)).
Definition re_phi : re_P := (1, 0).
Definition re_T (y : re_P) : R := re_ip re_phi y.
Definition re_obs (k i : Z) (t v : R) (w : unit) : outcome unit * unit := (Ok tt, w).
Example ex_re_space : vspace di_o re_v /\ inner re_v re_ip /\ linear di_v re_v re_bapp /\
  (forall x, re_recon x = vadd re_v (re_bapp x) (0, 1)) /\
  (forall y a, re_ip y (re_bapp a) = re_T y * a) /\ (forall a b, re_ip (re_bapp a) (re_bapp b) = a * b) /\
  (forall a, length_of re_ip (re_bapp a) <= 1 * length_of Rmult a).
Proof.
  split; [apply pair_space; apply self_space, R_field|].
  split; [split; intros; unfold re_ip; cbn; try ring; pose proof (Rle_0_sqr (fst x)); pose proof (Rle_0_sqr (snd x)); unfold Rsqr in *; lra|].
  split; [split; intros; unfold re_bapp; cbn; f_equal; ring|]. split; [reflexivity|].
  split; [intros; unfold re_T, re_ip, re_bapp, re_phi; cbn; ring|].
  split; [intros; unfold re_ip, re_bapp; cbn; ring|].
  intros a. unfold length_of, re_ip, re_bapp. cbn. rewrite Rmult_0_l, Rplus_0_r, Rmult_1_l. lra.
Qed.
Lemma re_len a b : length_of re_ip (a, b) = sqrt (a * a + b * b).
Proof. reflexivity. Qed.
Example ex_re_user : fom_rhs true (fun _ => True) re_fom re_f /\ fom_rhs false (fun _ => True) re_fom re_f /\
  fom_jac false (fun _ => True) re_fom (fun _ phi t => re_f phi t) /\ fom_mass true (fun _ => True) re_mass (fun _ phi _ => (2 * fst phi, 2 * snd phi)) /\
  computes re_sys (fun _ => True) re_f /\ product_is di_v re_prod re_phi re_T /\
  dissipative 0 re_v re_ip re_f /\ lipschitz 0 re_v (length_of re_ip) 1 re_f.
Proof.
  split; [intros y t r w _; repeat split|]. split; [intros y t r w _; repeat split|]. split; [intros y phi t r w _; repeat split|].
  split; [intros y phi t r w _; repeat split|]. split; [split; intros; exists w; repeat split|]. split; [intros a v b r; reflexivity|]. split.
  - intros y z t. unfold re_ip, re_f, vminus, neg1. cbn.
    pose proof (Rle_0_sqr (fst y - fst z)). pose proof (Rle_0_sqr (snd y - snd z)). unfold Rsqr in *. lra.
  - split; [lra|]. intros y z t. rewrite Rmult_1_l. right. unfold dist, length_of, re_ip, re_f, vminus, neg1. cbn. f_equal. ring.
Qed.
(** What the projection loses: 1 everywhere; nothing better is in the trial space. *)
Example ex_re_defect : forall x t, dist 0 re_v (length_of re_ip) (re_f (re_recon x) t) (re_bapp (re_T (re_f (re_recon x) t))) <= 1 /\
  (exists a, dist 0 re_v (length_of re_ip) (re_f (re_recon x) t) (re_bapp a) <= 1) /\
  forall a, 1 <= dist 0 re_v (length_of re_ip) (re_f (re_recon x) t) (re_bapp a).
Proof.
  intros x t. assert (E : dist 0 re_v (length_of re_ip) (re_f (re_recon x) t) (re_bapp (re_T (re_f (re_recon x) t))) <= 1).
  { unfold dist, re_recon, re_f, re_bapp, re_T, re_phi, re_ip, vminus, neg1. cbn. rewrite re_len.
    match goal with |- sqrt ?a <= _ => replace a with 1 by ring end. rewrite sqrt_1. lra. }
  split; [exact E|]. split; [eexists; exact E|].
  intros a. unfold dist, re_recon, re_f, re_bapp, vminus, neg1. cbn. rewrite re_len. rewrite <- sqrt_1 at 1. apply sqrt_le_1_alt.
  match goal with |- 1 <= ?a * ?a + _ => pose proof (Rle_0_sqr a); unfold Rsqr in *; lra end.
Qed.
Definition re_c := default_rhs (Jf:=re_P) (Mf:=unit) (Rm:=unit) (Jm:=unit) (J:=R) (M:=unit) di_o re_recon re_phi re_prod re_fom.
Example ex_re_galerkin : galerkin_rhs true (fun _ => True) di_o di_v re_recon re_phi re_fom (fun _ => re_T) re_c.
Proof. apply DefaultRhs. intros a v b r. reflexivity. Qed.
Definition re_obj : gobj re_P re_P re_P unit unit unit unit := mk_gobj (0, 0) (0, 0) (0, 0) tt tt tt tt.
Example ex_re_used :
  used 2 (explicit_step di_o di_v (rhs_system re_c re_obs) AdamsBashforth2) (mk_est 1 [0; 0] 0 0 0 re_obj []) /\
  used 2 (explicit_step di_o re_v re_sys AdamsBashforth2) (mk_est (1, 1) [(0, 0); (0, 0)] (0, 0) (0, 0) 0 tt []).
Proof. split; apply UsedFresh; reflexivity. Qed.
(** One step of size 1 of forward Euler: the FOM is at 0, the ROM at (0, 1); the bound is exp(1). *)
Example ex_re_step :
  x_y (snd (explicit_step di_o di_v (rhs_system re_c re_obs) ForwardEuler 0 1 1 (mk_est 1 [0] 0 0 0 re_obj []))) = 0 /\
  x_y (snd (explicit_step di_o re_v re_sys ForwardEuler 0 1 1 (mk_est (1, 1) [(0, 0)] (0, 0) (0, 0) 0 tt []))) = (0, 0).
Proof. split; cbn; [unfold re_prod, re_phi, re_ip, re_f; cbn; lra|]. f_equal; lra. Qed.
(** Mass matrix 2: the FOM's velocity is f / 2, the ROM's -x / 2, and half as much is lost. *)
Definition re_vel (y : re_P) (t : R) : re_P := vscale re_v (/ 2) (re_f y t).
Definition re_d (x t : R) : R := - x / 2.
Example ex_re_mass :
  computes_mm re_sys (fun _ => True) (fun m y => vscale re_v m y) (fun _ _ => 2) re_f /\
  (forall y t, vscale re_v 2 (re_vel y t) = re_f y t) /\
  (forall (z z' : re_P), vscale re_v 2 z = vscale re_v 2 z' -> z = z') /\
  (forall x t, re_T (2 * fst re_phi, 2 * snd re_phi) * re_d x t = re_T (re_f (re_recon x) t)) /\
  (forall z z', re_T (2 * fst re_phi, 2 * snd re_phi) * z = re_T (2 * fst re_phi, 2 * snd re_phi) * z' -> z = z') /\
  (forall x t old w, exists s w', (fun (m _ b : R) (w : unit) => (Ok tt, (b / m, w))) (re_T (2 * fst re_phi, 2 * snd re_phi)) old (re_T (re_f (re_recon x) t)) w
     = (Ok tt, (s, w')) /\ re_T (2 * fst re_phi, 2 * snd re_phi) * s = re_T (re_f (re_recon x) t)) /\
  lipschitz 0 re_v (length_of re_ip) (/ 2) re_vel /\
  (forall x t, dist 0 re_v (length_of re_ip) (re_vel (re_recon x) t) (re_bapp (re_d x t)) <= / 2).
Proof.
  assert (E2 : re_T (2 * fst re_phi, 2 * snd re_phi) = 2) by (unfold re_T, re_ip, re_phi; cbn; ring). rewrite E2.
  assert (ET : forall x t, re_T (re_f (re_recon x) t) = - x) by (intros; unfold re_T, re_ip, re_phi, re_f, re_recon, re_bapp; cbn; ring).
  assert (ES : forall y t, vscale re_v 2 (vscale re_v (/ 2) (re_f y t)) = re_f y t) by (intros y t; unfold re_f; cbn; f_equal; field).
  split; [|split; [|split; [|split; [|split; [|split; [|split]]]]]].
  - split; [|split]; intros; cbn.
    + exists w. split; [reflexivity|exact I].
    + exists (vscale re_v (/ 2) (re_f y t)), w. split; [reflexivity|]. split; [apply ES|exact I].
    + exists w. split; [reflexivity|exact I].
  - intros. apply ES.
  - intros [a b] [a' b'] E. cbn in E. apply pair_equal_spec in E. destruct E as [E F]. f_equal; lra.
  - intros. rewrite ET. unfold re_d. field.
  - intros. lra.
  - intros x t old w. exists (re_T (re_f (re_recon x) t) / 2), w. split; [reflexivity|field].
  - split; [lra|]. intros y z t. right. unfold dist, re_vel. set (D := vminus di_o re_v y z).
    replace (vminus di_o re_v (vscale re_v (/ 2) (re_f y t)) (vscale re_v (/ 2) (re_f z t))) with (vscale re_v (- / 2) D)
      by (unfold D, vminus, neg1, re_f; cbn; f_equal; field).
    destruct ex_re_space as (HV & HI & _). rewrite (n_scale _ _ (inner_normed 0 re_v HV re_ip HI)), Rabs_Ropp, Rabs_pos_eq; lra.
  - intros x t. unfold dist, re_vel, re_recon, re_f, re_bapp, re_d, vminus, neg1. cbn. rewrite re_len.
    match goal with |- sqrt ?a <= _ => replace a with (/ 2 * / 2) by field end. rewrite sqrt_square; lra.
Qed.
(** Two steps of size 1 of BDF1 and of BDF2, from any states *)
Definition re_ci := default_rhs_jac (Jf:=re_P) (Mf:=unit) (Rm:=unit) (Jm:=unit) (J:=R) (M:=unit) di_o re_recon re_phi re_prod re_prod re_fom.
Example ex_re_jac : galerkin_rhs_jac false (fun _ => True) di_o di_v di_v re_recon re_phi re_fom (fun _ => re_T) (fun _ => re_T) re_ci.
Proof. apply DefaultRhsJac; intros a v b r; reflexivity. Qed.
Definition re_user : isys (S:=R) (V:=re_P) (J:=R) (W:=unit) :=
  mk_isys (fun y t r Jo w => (Ok tt, (re_f y t, Some (- (1)), w))) (fun y t m r Jo w => (NoFuel, (m, r, Jo, w))).
Example ex_re_rhs : rhs_is re_user re_f.
Proof. intros y t r Jo w f' j' w' E. cbn in E. injection E as <- _ _. reflexivity. Qed.
Definition re_solver (Acc : re_P -> Prop) (dec : forall r, {Acc r} + {~ Acc r}) (ws : list R) (y : re_P) : sol re_P re_P R (list R) :=
  SCall (vscale re_v (hd 0 ws) y) (0, 0) None (fun e r _ =>
    match e with
    | Ok _ => if dec r then SEnd (Ok tt) (vscale re_v (hd 0 ws) y) (tl ws) else SEnd (Throw ENonlinearSolve) y ws
    | _ => SEnd (Throw ENonlinearSolve) y ws
    end).
Lemma re_certified : forall Acc dec ws y, certified Acc (fun _ => False) (re_solver Acc dec ws y).
Proof.
  intros Acc dec ws y. cbn; intros e r j; destruct e; cbn; try discriminate; try exact I;
    destruct (dec r) as [H|H]; cbn; try discriminate; try exact I. left. split; [reflexivity|exact H].
Qed.
Definition re_dec (r : re_P) : {length_of re_ip r <= di_tol} + {~ length_of re_ip r <= di_tol} := Rle_dec _ _.
Lemma re_zero r : r = (0, 0) -> length_of re_ip r <= di_tol.
Proof. intros ->. rewrite re_len. unfold di_tol. replace (0 * 0 + 0 * 0) with 0 by ring. rewrite sqrt_0. lra. Qed.
Ltac re_run dec zero :=
  cbv -[Rplus Rminus Rmult Rdiv Ropp Rabs Rinv IZR length_of dec s_of_pos re_ip];
  repeat match goal with |- context[dec ?r] =>
    let N := fresh in destruct (dec r) as [_|N]; [|exfalso; apply N; apply zero; cbn; unfold re_ip; cbn; try (f_equal; field); field] end;
  do 3 eexists; split; [reflexivity|]; cbn; repeat first [reflexivity|match goal with |- @eq R _ _ => field end|f_equal].
Example ex_re_fom_bdf1 : forall a b, exists tr,
  completed_std unit di_o re_v di_v 1 re_user (re_solver _ re_dec) BDF1 (fun r => length_of re_ip r <= di_tol) 0 (a, b) tr /\
  reports tr = [(0%Z, 0, (a, b)); (1%Z, 1, (a * (1 / 2), b * (1 / 2))); (2%Z, 2, (a * (1 / 4), b * (1 / 4)))].
Proof.
  intros a b. pose (g0 := mk_sst (a, b) [(7, 7)] ([] : list re_P) 0 0 0%Z (mk_ppol (-1) tt) [1 / 2; 1 / 2]).
  assert (H : exists y' g' tr,
    advance_n_steps di_o (mk_user (split_obs (fun _ _ _ w => (Ok tt, w))) (pol3 (split_pol (fun _ _ _ w => (Ok 1, w)))) noop_guess
      (split_step (implicit_fn (implicit_step di_o (policy_std di_o re_v di_v 1 re_user) (re_solver _ re_dec) BDF1))))
      2 0 ((a, b), (g0, tt), []) = (Ok tt, (y', (g', tt), tr)) /\ reports tr = [(0%Z, 0, (a, b)); (1%Z, 1, (a * (1 / 2), b * (1 / 2))); (2%Z, 2, (a * (1 / 4), b * (1 / 4)))]).
  { re_run re_dec re_zero. }
  destruct H as (y' & g' & tr & E & Er). exists tr. split; [|exact Er].
  eapply (CompletedSteps di_o _ _ _ _ _ (fun _ _ _ w => (Ok tt, w)) (7, 7) (7, 7) (mk_ppol (-1) tt) (a, b) [1 / 2; 1 / 2] g0 (fun _ _ _ w => (Ok 1, w)) 2 0 (a, b));
    [intros; apply re_certified|exists tt; reflexivity|reflexivity|reflexivity|exact E].
Qed.
Example ex_re_fom_bdf2 : forall a b, exists tr,
  completed_std unit di_o re_v di_v 1 re_user (re_solver _ re_dec) BDF2 (fun r => length_of re_ip r <= di_tol) 0 (a, b) tr /\
  reports tr = [(0%Z, 0, (a, b)); (1%Z, 1, (a * (1 / 2), b * (1 / 2))); (2%Z, 2, (a * (1 / 5), b * (1 / 5)))].
Proof.
  intros a b. pose (g0 := mk_sst (a, b) [(7, 7); (7, 7)] ([] : list re_P) 0 0 0%Z (mk_ppol (-1) tt) [1 / 2; 2 / 5]).
  assert (H : exists y' g' tr,
    advance_n_steps di_o (mk_user (split_obs (fun _ _ _ w => (Ok tt, w))) (pol3 (split_pol (fun _ _ _ w => (Ok 1, w)))) noop_guess
      (split_step (implicit_fn (implicit_step di_o (policy_std di_o re_v di_v 1 re_user) (re_solver _ re_dec) BDF2))))
      2 0 ((a, b), (g0, tt), []) = (Ok tt, (y', (g', tt), tr)) /\ reports tr = [(0%Z, 0, (a, b)); (1%Z, 1, (a * (1 / 2), b * (1 / 2))); (2%Z, 2, (a * (1 / 5), b * (1 / 5)))]).
  { re_run re_dec re_zero. }
  destruct H as (y' & g' & tr & E & Er). exists tr. split; [|exact Er].
  eapply (CompletedSteps di_o _ _ _ _ _ (fun _ _ _ w => (Ok tt, w)) (7, 7) (7, 7) (mk_ppol (-1) tt) (a, b) [1 / 2; 2 / 5] g0 (fun _ _ _ w => (Ok 1, w)) 2 0 (a, b));
    [intros; apply re_certified|exists tt; reflexivity|reflexivity|reflexivity|exact E].
Qed.
Example ex_re_rom_bdf1 : forall x, exists tr,
  completed_std unit di_o di_v di_v 1 (rhs_jac_system re_ci) (di_solver _ di_dec) BDF1 (fun r => length_of Rmult r <= di_tol) 0 x tr /\
  reports tr = [(0%Z, 0, x); (1%Z, 1, x * (1 / 2)); (2%Z, 2, x * (1 / 4))].
Proof.
  intros x. pose (g0 := mk_sst x [7] ([] : list R) 0 0 0%Z (mk_ppol (-1) re_obj) [1 / 2; 1 / 2]).
  assert (H : exists y' g' tr, 
    advance_n_steps di_o (mk_user (split_obs (fun _ _ _ w => (Ok tt, w))) (pol3 (split_pol (fun _ _ _ w => (Ok 1, w)))) noop_guess
      (split_step (implicit_fn (implicit_step di_o (policy_std di_o di_v di_v 1 (rhs_jac_system re_ci)) (di_solver _ di_dec) BDF1))))
      2 0 (x, (g0, tt), []) =
    (Ok tt, (y', (g', tt), tr)) /\ reports tr = [(0%Z, 0, x); (1%Z, 1, x * (1 / 2)); (2%Z, 2, x * (1 / 4))]).
  { re_run di_dec di_zero. }
  destruct H as (y' & g' & tr & E & Er). exists tr. split; [|exact Er].
  eapply (CompletedSteps di_o _ _ _ _ _ (fun _ _ _ w => (Ok tt, w)) 7 7 (mk_ppol (-1) re_obj) x [1 / 2; 1 / 2] g0 (fun _ _ _ w => (Ok 1, w)) 2 0 x);
    [intros; apply ex_di_solver|exists re_obj; reflexivity|reflexivity|reflexivity|exact E].
Qed.
Example ex_re_rom_bdf2 : forall x, exists tr,
  completed_std unit di_o di_v di_v 1 (rhs_jac_system re_ci) (di_solver _ di_dec) BDF2 (fun r => length_of Rmult r <= di_tol) 0 x tr /\
  reports tr = [(0%Z, 0, x); (1%Z, 1, x * (1 / 2)); (2%Z, 2, x * (1 / 5))].
Proof.
  intros x. pose (g0 := mk_sst x [7; 7] ([] : list R) 0 0 0%Z (mk_ppol (-1) re_obj) [1 / 2; 2 / 5]).
  assert (H : exists y' g' tr, 
    advance_n_steps di_o (mk_user (split_obs (fun _ _ _ w => (Ok tt, w))) (pol3 (split_pol (fun _ _ _ w => (Ok 1, w)))) noop_guess
      (split_step (implicit_fn (implicit_step di_o (policy_std di_o di_v di_v 1 (rhs_jac_system re_ci)) (di_solver _ di_dec) BDF2))))
      2 0 (x, (g0, tt), []) =
    (Ok tt, (y', (g', tt), tr)) /\ reports tr = [(0%Z, 0, x); (1%Z, 1, x * (1 / 2)); (2%Z, 2, x * (1 / 5))]).
  { re_run di_dec di_zero. }
  destruct H as (y' & g' & tr & E & Er). exists tr. split; [|exact Er].
  eapply (CompletedSteps di_o _ _ _ _ _ (fun _ _ _ w => (Ok tt, w)) 7 7 (mk_ppol (-1) re_obj) x [1 / 2; 2 / 5] g0 (fun _ _ _ w => (Ok 1, w)) 2 0 x);
    [intros; apply ex_di_solver|exists re_obj; reflexivity|reflexivity|reflexivity|exact E].
Qed.
(** ... and of Crank-Nicolson *)
Example ex_re_cn : galerkin_rhs_jac true (fun _ => True) di_o di_v di_v re_recon re_phi re_fom (fun _ => re_T) (fun _ => re_T) re_ci /\
  fom_rhs true (fun _ => True) re_fom re_f /\ repeatable re_user (fun y t => Ok (re_f y t, - (1))) (fun _ _ j => j).
Proof.
  split; [apply DefaultRhsJac; intros a v b r; reflexivity|]. split.
  - intros y t r w _. repeat split.
  - intros y t r Jo w. eexists _, _. split; [reflexivity|]. split; [reflexivity|]. intros _; reflexivity.
Qed.
Example ex_re_fom_cn : forall a b, exists tr,
  completed_std unit di_o re_v di_v 1 re_user (re_solver _ re_dec) CrankNicolson (fun r => length_of re_ip r <= di_tol) 0 (a, b) tr /\
  reports tr = [(0%Z, 0, (a, b)); (1%Z, 1, (a * (1 / 3), b * (1 / 3))); (2%Z, 2, (a * (1 / 9), b * (1 / 9)))].
Proof.
  intros a b. pose (g0 := mk_sst (a, b) [(7, 7)] ([(7, 7); (7, 7)] : list re_P) 0 0 0%Z (mk_ppol (-1) tt) [1 / 3; 1 / 3]).
  assert (H : exists y' g' tr,
    advance_n_steps di_o (mk_user (split_obs (fun _ _ _ w => (Ok tt, w))) (pol3 (split_pol (fun _ _ _ w => (Ok 1, w)))) noop_guess
      (split_step (implicit_fn (implicit_step di_o (policy_std di_o re_v di_v 1 re_user) (re_solver _ re_dec) CrankNicolson))))
      2 0 ((a, b), (g0, tt), []) = (Ok tt, (y', (g', tt), tr)) /\ reports tr = [(0%Z, 0, (a, b)); (1%Z, 1, (a * (1 / 3), b * (1 / 3))); (2%Z, 2, (a * (1 / 9), b * (1 / 9)))]).
  { re_run re_dec re_zero. }
  destruct H as (y' & g' & tr & E & Er). exists tr. split; [|exact Er].
  eapply (CompletedSteps di_o _ _ _ _ _ (fun _ _ _ w => (Ok tt, w)) (7, 7) (7, 7) (mk_ppol (-1) tt) (a, b) [1 / 3; 1 / 3] g0 (fun _ _ _ w => (Ok 1, w)) 2 0 (a, b));
    [intros; apply re_certified|exists tt; reflexivity|reflexivity|reflexivity|exact E].
Qed.
Example ex_re_rom_cn : forall x, exists tr,
  completed_std unit di_o di_v di_v 1 (rhs_jac_system re_ci) (di_solver _ di_dec) CrankNicolson (fun r => length_of Rmult r <= di_tol) 0 x tr /\
  reports tr = [(0%Z, 0, x); (1%Z, 1, x * (1 / 3)); (2%Z, 2, x * (1 / 9))].
Proof.
  intros x. pose (g0 := mk_sst x [7] ([7; 7] : list R) 0 0 0%Z (mk_ppol (-1) re_obj) [1 / 3; 1 / 3]).
  assert (H : exists y' g' tr, 
    advance_n_steps di_o (mk_user (split_obs (fun _ _ _ w => (Ok tt, w))) (pol3 (split_pol (fun _ _ _ w => (Ok 1, w)))) noop_guess
      (split_step (implicit_fn (implicit_step di_o (policy_std di_o di_v di_v 1 (rhs_jac_system re_ci)) (di_solver _ di_dec) CrankNicolson))))
      2 0 (x, (g0, tt), []) =
    (Ok tt, (y', (g', tt), tr)) /\ reports tr = [(0%Z, 0, x); (1%Z, 1, x * (1 / 3)); (2%Z, 2, x * (1 / 9))]).
  { re_run di_dec di_zero. }
  destruct H as (y' & g' & tr & E & Er). exists tr. split; [|exact Er].
  eapply (CompletedSteps di_o _ _ _ _ _ (fun _ _ _ w => (Ok tt, w)) 7 7 (mk_ppol (-1) re_obj) x [1 / 3; 1 / 3] g0 (fun _ _ _ w => (Ok 1, w)) 2 0 x);
    [intros; apply ex_di_solver|exists re_obj; reflexivity|reflexivity|reflexivity|exact E].
Qed.

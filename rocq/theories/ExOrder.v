(** Cases meeting the hypotheses of [PropOrder.v]: y' = sin y, solved by 2 atan (exp t), with the explicit schemes. *)
From Coq Require Import ZArith List Reals Lra Lia.
From Verif Require Import Base RInst Laws LawInst AdvanceModel AdvanceSpec ExplicitModel ExplicitSpec ExplicitExtra ImplicitModel ImplicitSpec
  Track StabilitySpec StabilityOrder DissipSpec DissipPairs OrderSpec OrderCalculus OrderProofs PropOrder.
Import ListNotations.
Local Open Scope R_scope.
Notation or_o := (Rops 0).
Notation or_v := (self_v (Rops 0)).
Definition or_f (y t : R) : R := sin y.
Definition or_sol (t : R) : R := 2 * atan (exp t).
Definition or_sys : @esys R R R unit :=
  mk_esys (fun y t _ w => (Ok tt, (or_f y t, w))) (fun y t _ _ w => (Ok tt, (1, or_f y t, w)))
          (fun m _ b w => (Ok tt, (b / m, w))) (fun _ _ _ _ w => (Ok tt, w)).
Definition or_g (n : nat) : @est R R R unit := mk_est 5 (repeat 7 n) 7 7 7 tt [].
Lemma sin_1 x : Rabs (sin x) <= 1.
Proof. apply Rabs_le. pose proof (SIN_bound x). lra. Qed.
Lemma cos_1 x : Rabs (cos x) <= 1.
Proof. apply Rabs_le. pose proof (COS_bound x). lra. Qed.
(** ** Taylor's formula for the sine, by shifting phases *)
Section Sine.
  Variable s1 : R.
  Hypothesis Hs : Rabs s1 = 1.
  Let sg := s1.
  Lemma sg_sq : sg * sg = 1.
  Proof. unfold sg. revert Hs. unfold Rabs. destruct (Rcase_abs s1); intros E; nra. Qed.
  Lemma step_d a s : derivable_pt_lim (fun s => sin (a + sg * s)) s (sg * sin (a + PI / 2 + sg * s)).
  Proof.
    replace (sin (a + PI / 2 + sg * s)) with (cos (a + sg * s)) by (rewrite cos_sin; f_equal; ring).
    apply (affine_lim sin cos a sg s). apply derivable_pt_lim_sin.
  Qed.
  Definition R1 a s := sin (a + sg * s) - sin a.
  Definition R2 a s := R1 a s - sg * (sin (a + PI / 2) * s).
  Definition R3 a s := R2 a s - sin (a + PI / 2 + PI / 2) / 2 * s ^ 2.
  Definition R4 a s := R3 a s - sg * (sin (a + PI / 2 + PI / 2 + PI / 2) / 6 * s ^ 3).
  Lemma pow_d c n s : derivable_pt_lim (fun s => c * s ^ S n) s (c * (INR (S n) * s ^ n)).
  Proof. apply scal_lim. exact (derivable_pt_lim_pow s (S n)). Qed.
  Lemma R1_d a s : derivable_pt_lim (R1 a) s (sg * sin (a + PI / 2 + sg * s)).
  Proof. eapply is_lim; [apply minus_lim; [apply step_d|apply const_lim]|]. ring. Qed.
  Lemma R2_d a s : derivable_pt_lim (R2 a) s (sg * R1 (a + PI / 2) s).
  Proof.
    eapply is_lim; [apply minus_lim; [apply R1_d|apply scal_lim; apply scal_lim; apply derivable_pt_lim_id]|]. unfold R1. ring.
  Qed.
  Lemma R3_d a s : derivable_pt_lim (R3 a) s (sg * R2 (a + PI / 2) s).
  Proof.
    eapply is_lim; [apply minus_lim; [apply R2_d|apply pow_d]|]. unfold R2. pose proof sg_sq as Q. cbn [INR pow]. 
    transitivity (sg * R1 (a + PI / 2) s - sin (a + PI / 2 + PI / 2) * s * 1); [field|]. rewrite <- Q. ring.
  Qed.
  Lemma R4_d a s : derivable_pt_lim (R4 a) s (sg * R3 (a + PI / 2) s).
  Proof.
    eapply is_lim; [apply minus_lim; [apply R3_d|apply scal_lim; apply pow_d]|]. unfold R3. cbn [INR pow]. field.
  Qed.
  Lemma sg_abs x : Rabs (sg * x) = Rabs x.
  Proof. rewrite Rabs_mult. unfold sg. rewrite Hs. ring. Qed.
  Lemma R1_0 a : R1 a 0 = 0. Proof. unfold R1. replace (a + sg * 0) with a by ring. ring. Qed.
  Lemma R2_0 a : R2 a 0 = 0. Proof. unfold R2. rewrite R1_0. ring. Qed.
  Lemma R3_0 a : R3 a 0 = 0. Proof. unfold R3. rewrite R2_0. ring. Qed.
  Lemma R4_0 a : R4 a 0 = 0. Proof. unfold R4. rewrite R3_0. ring. Qed.
  Lemma R1_le a s : 0 <= s -> Rabs (R1 a s) <= 1 * s ^ 1.
  Proof.
    intros H. replace 1 with (1 / INR 1) at 1 by (cbn; field).
    apply (compare (R1 a) _ s 1 0 H (fun s _ => R1_d a s) (R1_0 a)). intros x _. rewrite sg_abs. cbn. pose proof (sin_1 (a + PI / 2 + sg * x)). lra.
  Qed.
  Lemma R2_le a s : 0 <= s -> Rabs (R2 a s) <= 1 / 2 * s ^ 2.
  Proof.
    intros H. replace (1 / 2) with (1 / INR 2) by (cbn; field).
    apply (compare (R2 a) _ s 1 1 H (fun s _ => R2_d a s) (R2_0 a)). intros x Hx. rewrite sg_abs. apply R1_le, Hx.
  Qed.
  Lemma R3_le a s : 0 <= s -> Rabs (R3 a s) <= 1 / 6 * s ^ 3.
  Proof.
    intros H. replace (1 / 6) with (1 / 2 / INR 3) by (cbn; field).
    apply (compare (R3 a) _ s (1 / 2) 2 H (fun s _ => R3_d a s) (R3_0 a)). intros x Hx. rewrite sg_abs. apply R2_le, Hx.
  Qed.
  Lemma R4_le a s : 0 <= s -> Rabs (R4 a s) <= 1 / 24 * s ^ 4.
  Proof.
    intros H. replace (1 / 24) with (1 / 6 / INR 4) by (cbn; field).
    apply (compare (R4 a) _ s (1 / 6) 3 H (fun s _ => R4_d a s) (R4_0 a)). intros x Hx. rewrite sg_abs. apply R3_le, Hx.
  Qed.
End Sine.
Lemma phase_1 a : sin (a + PI / 2) = cos a. Proof. rewrite cos_sin. f_equal. ring. Qed.
Lemma phase_2 a : sin (a + PI / 2 + PI / 2) = - sin a. Proof. replace (a + PI / 2 + PI / 2) with (a + PI) by field. apply neg_sin. Qed.
Lemma phase_3 a : sin (a + PI / 2 + PI / 2 + PI / 2) = - cos a.
Proof. rewrite phase_1. replace (a + PI / 2 + PI / 2) with (a + PI) by field. apply neg_cos. Qed.
Lemma sign_of v : exists s, Rabs s = 1 /\ v = s * Rabs v.
Proof.
  unfold Rabs at 2. destruct (Rcase_abs v); [exists (-1)|exists 1]; (split; [unfold Rabs; destruct (Rcase_abs _); lra|ring]).
Qed.
Lemma taylor_2 y v : Rabs (sin (y + v) - (sin y + cos y * v + 1 / 2 * (- sin y * v * v))) <= 1 * Rabs v ^ 3.
Proof.
  destruct (sign_of v) as (s & Hs & E). pose proof (R3_le s Hs y (Rabs v) (Rabs_pos v)) as H. unfold R3, R2, R1 in H.
  rewrite phase_1, phase_2 in H. pose proof (sg_sq s Hs) as Q.
  match goal with |- Rabs ?a <= _ => match type of H with Rabs ?b <= _ => replace a with b end end.
  - assert (0 <= Rabs v ^ 3) by (apply pow_le, Rabs_pos). lra.
  - rewrite <- E. set (z := Rabs v) in *. assert (E2 : z ^ 2 = v * v) by (unfold z; rewrite <- Rsqr_pow2, <- Rsqr_abs; reflexivity).
    rewrite E2. replace (s * (cos y * z)) with (cos y * v) by (rewrite E at 1; ring). field.
Qed.
Lemma taylor_3 y v : Rabs (sin (y + v) - (sin y + cos y * v + 1 / 2 * (- sin y * v * v) + 1 / 6 * (- cos y * v * v * v))) <= 1 * Rabs v ^ 4.
Proof.
  destruct (sign_of v) as (s & Hs & E). pose proof (R4_le s Hs y (Rabs v) (Rabs_pos v)) as H. unfold R4, R3, R2, R1 in H.
  rewrite phase_1, phase_2, phase_3 in H. pose proof (sg_sq s Hs) as Q.
  match goal with |- Rabs ?a <= _ => match type of H with Rabs ?b <= _ => replace a with b end end.
  - assert (0 <= Rabs v ^ 4) by (apply pow_le, Rabs_pos). lra.
  - rewrite <- E. set (z := Rabs v) in *. assert (E2 : z ^ 2 = v * v) by (unfold z; rewrite <- Rsqr_pow2, <- Rsqr_abs; reflexivity).
    assert (E3 : s * (- cos y / 6 * z ^ 3) = - cos y / 6 * (v * v * v)) by (replace (z ^ 3) with (z ^ 2 * z) by ring; rewrite E2; rewrite E at 4; ring).
    rewrite E3, E2. replace (s * (cos y * z)) with (cos y * v) by (rewrite E at 1; ring). field.
Qed.
(** ** The hypotheses *)
Example ex_or_laws : vspace or_o or_v /\ inner or_v Rmult /\ computes or_sys (fun _ => True) or_f /\ lipschitz 0 or_v (length_of Rmult) 1 or_f.
Proof.
  split; [apply self_space, R_field|]. split; [apply mult_inner|]. split; [split; intros; exists w; repeat split|].
  split; [lra|]. intros y z t. rewrite mult_length. unfold dist, vminus, neg1, or_f. cbn.
  destruct (sign_of (y - z)) as (s & Hs & E). pose proof (R1_le s Hs z (Rabs (y - z)) (Rabs_pos _)) as H. unfold R1 in H. rewrite <- E in H.
  replace (z + (y - z)) with y in H by ring. replace (sin y + - (1) * sin z) with (sin y - sin z) by ring. replace (y + - (1) * z) with (y - z) by ring. lra.
Qed.
Lemma sin_2atan x : sin (2 * atan x) = 2 * x / (1 + x ^ 2).
Proof.
  rewrite sin_2a. pose proof (atan_bound x) as [B1 B2]. assert (C : 0 < cos (atan x)) by (apply cos_gt_0; lra).
  pose proof (tan_atan x) as T. unfold tan in T. set (s := sin (atan x)) in *. set (c := cos (atan x)) in *.
  assert (Es : s = x * c) by (rewrite <- T; field; lra). pose proof (sin2_cos2 (atan x)) as P. fold s in P. fold c in P. unfold Rsqr in P. rewrite Es in P |- *.
  assert (Q : 0 < 1 + x ^ 2) by nra. apply Rmult_eq_reg_r with (1 + x ^ 2); [|lra]. transitivity (2 * x * (x * c * (x * c) + c * c)); [ring|]. rewrite P. field. lra.
Qed.
Lemma or_sol_d t : derivable_pt_lim or_sol t (sin (or_sol t)).
Proof.
  unfold or_sol. rewrite sin_2atan. eapply is_lim; [apply scal_lim; apply (derivable_pt_lim_comp exp atan); [apply derivable_pt_lim_exp|apply derivable_pt_lim_atan]|].
  pose proof (exp_pos t). unfold Rsqr. field. nra.
Qed.
Lemma of_sol g g' t : derivable_pt_lim g (or_sol t) (g' (or_sol t)) -> derivable_pt_lim (fun s => g (or_sol s)) t (g' (or_sol t) * sin (or_sol t)).
Proof. intros H. apply (derivable_pt_lim_comp or_sol g); [apply or_sol_d|exact H]. Qed.
Lemma by_const a (w t d : R) : derivable_pt_lim a t d -> derivable_pt_lim (fun s => a s * w) t (d * w).
Proof.
  intros H. apply (derivable_pt_lim_ext (fun s => w * a s)); [intros; ring|]. rewrite Rmult_comm. apply scal_lim. exact H.
Qed.
Example ex_or_solution : forall t0 T, solution Rmult or_f or_sol t0 T.
Proof. intros t0 T w t _. apply by_const. apply or_sol_d. Qed.
Lemma or_d2 t0 T : differentiates Rmult (fun t => or_f (or_sol t) t) (fun t => cos (or_sol t) * sin (or_sol t)) t0 T.
Proof. intros w t _. apply by_const. apply (of_sol sin cos). apply derivable_pt_lim_sin. Qed.
Lemma or_d3 t0 T : differentiates Rmult (fun t => cos (or_sol t) * sin (or_sol t)) (fun t => (- sin (or_sol t) * sin (or_sol t) + cos (or_sol t) * cos (or_sol t)) * sin (or_sol t)) t0 T.
Proof.
  intros w t _. apply by_const. apply (of_sol (fun y => cos y * sin y) (fun y => - sin y * sin y + cos y * cos y)).
  apply (derivable_pt_lim_mult cos sin); [apply derivable_pt_lim_cos|apply derivable_pt_lim_sin].
Qed.
Example ex_or_twice : forall t0 T, twice_smooth Rmult or_f or_sol t0 T 1.
Proof.
  intros t0 T. eexists. split; [apply or_d2|]. intros t _. rewrite mult_length, Rabs_mult. pose proof (sin_1 (or_sol t)). pose proof (cos_1 (or_sol t)).
  pose proof (Rabs_pos (sin (or_sol t))). pose proof (Rabs_pos (cos (or_sol t))). nra.
Qed.
Example ex_or_thrice : forall t0 T, thrice_smooth Rmult or_f or_sol t0 T 1.
Proof.
  intros t0 T. eexists _, _. split; [apply or_d2|]. split; [apply or_d3|]. intros t _. rewrite mult_length, Rabs_mult. set (y := or_sol t).
  replace (- sin y * sin y + cos y * cos y) with (cos (2 * y)) by (rewrite cos_2a; ring). pose proof (sin_1 y). pose proof (cos_1 (2 * y)).
  pose proof (Rabs_pos (sin y)). pose proof (Rabs_pos (cos (2 * y))). nra.
Qed.
Lemma fst_le (x : R * R) : Rabs (fst x) <= length_of (pair_ip Rmult) x.
Proof.
  unfold length_of, pair_ip. rewrite <- sqrt_Rsqr_abs. apply sqrt_le_1_alt. unfold Rsqr. pose proof (Rle_0_sqr (snd x)) as Q. unfold Rsqr in Q. lra.
Qed.
Lemma or_multi y : multilinear or_v Rmult 1 (fun x => cos y * fst x) (fun x x' => - sin y * fst x * fst x').
Proof.
  constructor; try (intros; split; intros; cbn; ring); try (intros; ring).
  - intros x. rewrite mult_length, Rabs_mult. pose proof (fst_le x). pose proof (cos_1 y). pose proof (Rabs_pos (fst x)). pose proof (Rabs_pos (cos y)). nra.
  - intros x x'. rewrite mult_length, !Rabs_mult, Rabs_Ropp. pose proof (fst_le x). pose proof (fst_le x'). pose proof (sin_1 y). pose proof (Rabs_pos (fst x)).
    pose proof (Rabs_pos (fst x')). pose proof (Rabs_pos (sin y)). rewrite Rmult_1_l.
    apply Rmult_le_compat; [apply Rmult_le_pos; assumption|assumption|nra|assumption].
Qed.
Lemma or_tri y : trilinear or_v Rmult 1 (fun x x' x'' => - cos y * fst x * fst x' * fst x'').
Proof.
  constructor; try (intros; split; intros; cbn; ring); try (intros; ring).
  intros x x' x''. rewrite mult_length, !Rabs_mult, Rabs_Ropp. pose proof (fst_le x). pose proof (fst_le x'). pose proof (fst_le x''). pose proof (cos_1 y). pose proof (Rabs_pos (fst x)).
  pose proof (Rabs_pos (fst x')). pose proof (Rabs_pos (fst x'')). pose proof (Rabs_pos (cos y)). rewrite Rmult_1_l.
  apply Rmult_le_compat; [apply Rmult_le_pos; [apply Rmult_le_pos|]; assumption|assumption| |assumption].
  apply Rmult_le_compat; [apply Rmult_le_pos; assumption|assumption|nra|assumption].
Qed.
Lemma pow_fst (v tau : R) n : Rabs v ^ n <= length_of (pair_ip Rmult) (v, tau) ^ n.
Proof. apply pow_incr. split; [apply Rabs_pos|apply (fst_le (v, tau))]. Qed.
Example ex_or_expands_2 : forall t0 T, expands_2 or_v Rmult 0 or_f or_sol t0 T 1.
Proof.
  intros t0 T. exists (fun t x => cos (or_sol t) * fst x), (fun t x x' => - sin (or_sol t) * fst x * fst x'). intros t _. rewrite mult_length.
  split; [apply sin_1|]. split; [apply or_multi|]. intros v tau. set (y := or_sol t). pose proof (taylor_2 y v) as H. pose proof (pow_fst v tau 3) as P.
  unfold vminus, neg1, or_f. cbn [vadd vscale self_v sadd smul sopp s1 Rops fst].
  match goal with |- Rabs ?a <= _ => match type of H with Rabs ?b <= _ => replace a with b by ring end end. lra.
Qed.
Example ex_or_expands_3 : forall t0 T, expands_3 or_v Rmult 0 or_f or_sol t0 T 1.
Proof.
  intros t0 T. exists (fun t x => cos (or_sol t) * fst x), (fun t x x' => - sin (or_sol t) * fst x * fst x'), (fun t x x' x'' => - cos (or_sol t) * fst x * fst x' * fst x'').
  intros t _. rewrite mult_length. split; [apply sin_1|]. split; [apply or_multi|]. split; [apply or_tri|]. intros v tau. set (y := or_sol t).
  pose proof (taylor_3 y v) as H. pose proof (pow_fst v tau 4) as P.
  unfold vminus, neg1, or_f. cbn [vadd vscale self_v sadd smul sopp s1 Rops fst].
  match goal with |- Rabs ?a <= _ => match type of H with Rabs ?b <= _ => replace a with b by ring end end. lra.
Qed.
Example ex_or_used : used 1 (explicit_step or_o or_v or_sys ForwardEuler) (or_g 1) /\ used 2 (explicit_step or_o or_v or_sys AdamsBashforth2) (or_g 2) /\
  used 1 (explicit_step or_o or_v or_sys SSPRungeKutta3) (or_g 1) /\ used 4 (explicit_step or_o or_v or_sys RungeKutta4) (or_g 4).
Proof. repeat split; apply UsedFresh; reflexivity. Qed.

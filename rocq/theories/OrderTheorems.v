(** C94: proofs of the statements of [PropOrder.v]. *)
From Coq Require Import Reals ZArith List.
From Verif Require Import Base RInst Laws AdvanceModel AdvanceSpec Track ImplicitModel ImplicitSpec
  NonlinDiag NonlinModel NonlinWp NonlinSpec NonlinLaws LinRunSpec NewtonSpec NewtonProofs NewtonRunSpec NewtonRunProofs NewtonRunDissip
  ExplicitModel ExplicitSpec ExplicitExtra StabilitySpec StabilityRuns DissipSpec DissipClaims OrderSpec OrderClaims.
Import ListNotations.
Local Open Scope R_scope.

Lemma order_forward_euler :
  forall (V M W : Type) (eps0 : R) (vo : vops R V) (ip : V -> V -> R) (u : @esys R V M W),
  let o := Rops eps0 in vspace o vo -> inner vo ip ->
  forall good f L, computes u good f -> lipschitz eps0 vo (length_of ip) L f ->
  forall sol t0 T, 0 <= T -> solution ip f sol t0 T ->
  forall K, twice_smooth ip f sol t0 T K ->
  forall g num, used 1 (explicit_step o vo u ForwardEuler) g -> good (x_w g) -> (0 < num)%nat -> (Z.of_nat num < int32_max)%Z ->
  exists y g' tr, advance_n_steps o (mk_user noop_obs (pol3 (fun _ _ _ w => (Ok (T / INR num), w))) noop_guess
      (stepper_fn (explicit_step o vo u ForwardEuler))) (Z.of_nat num) t0 (sol t0, g, []) = (Ok tt, (y, g', tr)) /\
    length_of ip (vminus o vo y (sol (t0 + T))) <= exp (L * T) * (K / 2 * T) * (T / INR num) ^ 1.
Proof.
  intros V M W eps0 vo ip u o HV HI good f L HU HL sol t0 T HT Hs K Hk. exact (fe_converges eps0 vo ip u HV HI good f L HU HL sol t0 T HT Hs K Hk).
Qed.

Lemma order_adams_bashforth :
  forall (V M W : Type) (eps0 : R) (vo : vops R V) (ip : V -> V -> R) (u : @esys R V M W),
  let o := Rops eps0 in vspace o vo -> inner vo ip ->
  forall good f L, computes u good f -> lipschitz eps0 vo (length_of ip) L f ->
  forall sol t0 T, 0 <= T -> solution ip f sol t0 T ->
  forall K2 K3, twice_smooth ip f sol t0 T K2 -> thrice_smooth ip f sol t0 T K3 ->
  forall g num, used 2 (explicit_step o vo u AdamsBashforth2) g -> good (x_w g) -> (0 < num)%nat -> (Z.of_nat num < int32_max)%Z ->
  exists y g' tr, advance_n_steps o (mk_user noop_obs (pol3 (fun _ _ _ w => (Ok (T / INR num), w))) noop_guess
      (stepper_fn (explicit_step o vo u AdamsBashforth2))) (Z.of_nat num) t0 (sol t0, g, []) = (Ok tt, (y, g', tr)) /\
    length_of ip (vminus o vo y (sol (t0 + T))) <= exp (2 * L * T) * (K2 / 2 + 5 / 12 * K3 * T) * (T / INR num) ^ 2.
Proof.
  intros V M W eps0 vo ip u o HV HI good f L HU HL sol t0 T HT Hs K2 K3 Hk Hk3. exact (ab_converges eps0 vo ip u HV HI good f L HU HL sol t0 T HT Hs K2 K3 Hk Hk3).
Qed.

Lemma order_ssp_runge_kutta_3 :
  forall (V M W : Type) (eps0 : R) (vo : vops R V) (ip : V -> V -> R) (u : @esys R V M W),
  let o := Rops eps0 in vspace o vo -> inner vo ip ->
  forall good f L, computes u good f -> lipschitz eps0 vo (length_of ip) L f ->
  forall sol t0 T, 0 <= T -> solution ip f sol t0 T ->
  forall B, expands_2 vo ip eps0 f sol t0 T B -> exists C,
  forall g num, used 1 (explicit_step o vo u SSPRungeKutta3) g -> good (x_w g) -> (0 < num)%nat -> (Z.of_nat num < int32_max)%Z ->
  exists y g' tr, advance_n_steps o (mk_user noop_obs (pol3 (fun _ _ _ w => (Ok (T / INR num), w))) noop_guess
      (stepper_fn (explicit_step o vo u SSPRungeKutta3))) (Z.of_nat num) t0 (sol t0, g, []) = (Ok tt, (y, g', tr)) /\
    length_of ip (vminus o vo y (sol (t0 + T))) <= C * (T / INR num) ^ 3.
Proof.
  intros V M W eps0 vo ip u o HV HI good f L HU HL sol t0 T HT Hs B HB. exact (ssp_converges eps0 vo ip u HV HI good f L HU HL sol t0 T HT Hs B HB).
Qed.

Lemma order_runge_kutta_4 :
  forall (V M W : Type) (eps0 : R) (vo : vops R V) (ip : V -> V -> R) (u : @esys R V M W),
  let o := Rops eps0 in vspace o vo -> inner vo ip ->
  forall good f L, computes u good f -> lipschitz eps0 vo (length_of ip) L f ->
  forall sol t0 T, 0 <= T -> solution ip f sol t0 T ->
  forall B, expands_3 vo ip eps0 f sol t0 T B -> exists C,
  forall g num, used 4 (explicit_step o vo u RungeKutta4) g -> good (x_w g) -> (0 < num)%nat -> (Z.of_nat num < int32_max)%Z ->
  exists y g' tr, advance_n_steps o (mk_user noop_obs (pol3 (fun _ _ _ w => (Ok (T / INR num), w))) noop_guess
      (stepper_fn (explicit_step o vo u RungeKutta4))) (Z.of_nat num) t0 (sol t0, g, []) = (Ok tt, (y, g', tr)) /\
    length_of ip (vminus o vo y (sol (t0 + T))) <= C * (T / INR num) ^ 4.
Proof.
  intros V M W eps0 vo ip u o HV HI good f L HU HL sol t0 T HT Hs B HB. exact (rk4_converges eps0 vo ip u HV HI good f L HU HL sol t0 T HT Hs B HB).
Qed.

Lemma order_bdf1 :
  forall (V J W Ws U : Type) (eps0 : R) (vo : vops R V) (jo : vops R J) (jid : J)
    (u : isys (S:=R) (V:=V) (J:=J) (W:=W)) (solver : Ws -> V -> sol V V J Ws),
  let o := Rops eps0 in vspace o vo -> vspace o jo ->
  forall ip f, inner vo ip -> dissipative eps0 vo ip f -> rhs_is u f ->
  forall tol start y0 tr, completed_std U o vo jo jid u solver BDF1 (fun r => length_of ip r <= tol) start y0 tr -> forward_in_time tr ->
  forall sol T, solution ip f sol start T ->
  forall K hm, twice_smooth ip f sol start T K ->
  (forall k t s t' s', In (k, t, s) (reports tr) -> In ((k + 1)%Z, t', s') (reports tr) -> t' - t <= hm) ->
  forall k t y, In (k, t, y) (reports tr) -> t <= start + T ->
  length_of ip (vminus o vo y (sol t)) <= length_of ip (vminus o vo y0 (sol start)) + (IZR k * tol + K / 2 * hm * (t - start)).
Proof.
  intros V J W Ws U eps0 vo jo jid u solver o HV HJ ip f HI HD Hf tol start y0 tr HC Hfw sl T Hs K hm Hk Hh.
  exact (bdf1_order eps0 vo ip f HV HI HD tol start T y0 tr sl Hs Hfw K hm Hk Hh (run_bdf1 (U:=U) eps0 vo jo jid ip u solver HV HJ f tol Hf start y0 tr HC)).
Qed.

Lemma order_bdf2 :
  forall (V J W Ws U : Type) (eps0 : R) (vo : vops R V) (jo : vops R J) (jid : J)
    (u : isys (S:=R) (V:=V) (J:=J) (W:=W)) (solver : Ws -> V -> sol V V J Ws),
  let o := Rops eps0 in vspace o vo -> vspace o jo ->
  forall ip f, inner vo ip -> dissipative eps0 vo ip f -> rhs_is u f ->
  forall tol start y0 tr, completed_std U o vo jo jid u solver BDF2 (fun r => length_of ip r <= tol) start y0 tr -> forward_in_time tr ->
  forall sol T, solution ip f sol start T ->
  forall K2 K3 h, twice_smooth ip f sol start T K2 -> thrice_smooth ip f sol start T K3 ->
  (forall k t s t' s', In (k, t, s) (reports tr) -> In ((k + 1)%Z, t', s') (reports tr) -> t' - t = h) ->
  forall k t y, In (k, t, y) (reports tr) -> t <= start + T ->
  length_of ip (vminus o vo y (sol t)) <=
  sqrt 2 * length_of ip (vminus o vo y0 (sol start)) + 6 * (IZR k * tol + (K2 / 2 + 2 / 9 * K3 * (t - start)) * h ^ 2).
Proof.
  intros V J W Ws U eps0 vo jo jid u solver o HV HJ ip f HI HD Hf tol start y0 tr HC Hfw sl T Hs K2 K3 h Hk2 Hk3 Hh.
  exact (bdf2_order eps0 vo ip f HV HI HD tol start T y0 tr sl Hs Hfw K2 K3 h Hk2 Hk3 Hh (run_bdf2 (U:=U) eps0 vo jo jid ip u solver HV HJ f tol Hf start y0 tr HC)).
Qed.

Lemma order_crank_nicolson :
  forall (V J W Ws U : Type) (eps0 : R) (vo : vops R V) (jo : vops R J) (jid : J)
    (u : isys (S:=R) (V:=V) (J:=J) (W:=W)) (solver : Ws -> V -> sol V V J Ws),
  let o := Rops eps0 in vspace o vo -> vspace o jo ->
  forall ip f F fj, inner vo ip -> dissipative eps0 vo ip f -> rhs_is u f -> repeatable u F fj ->
  forall tol start y0 tr, completed_std U o vo jo jid u solver CrankNicolson (fun r => length_of ip r <= tol) start y0 tr -> forward_in_time tr ->
  forall sol T, solution ip f sol start T ->
  forall K hm, thrice_smooth ip f sol start T K ->
  (forall k t s t' s', In (k, t, s) (reports tr) -> In ((k + 1)%Z, t', s') (reports tr) -> t' - t <= hm) ->
  steps_not_growing tr -> forall t1 s1, In (1%Z, t1, s1) (reports tr) -> t1 <= start + T ->
  forall k t y, In (k, t, y) (reports tr) -> t <= start + T ->
  length_of ip (vminus o vo y (sol t)) <=
  length_of ip (vminus o vo (vminus o vo y0 (sol start)) (vscale vo (1 / 2 * (t1 - start)) (vminus o vo (f y0 start) (f (sol start) start))))
  + (IZR k * tol + K / 12 * hm ^ 2 * (t - start)).
Proof.
  intros V J W Ws U eps0 vo jo jid u solver o HV HJ ip f F fj HI HD Hf Hp tol start y0 tr HC Hfw sl T Hs K hm Hk Hh Hg.
  exact (cn_order eps0 vo ip f HV HI HD tol start T y0 tr sl Hs Hfw K hm Hk Hh Hg (run_cn (U:=U) eps0 vo jo jid ip u solver HV HJ f tol Hf F fj start y0 tr Hp HC)).
Qed.

Lemma order_newton_bdf1 :
  forall (eps : R) (V J H L W U : Type) (no : nlops R V V J H) (ap : J -> V -> V) (apH : H -> V -> V),
  let o := Rops eps in let vo := n_vo no in let dot := n_dot no in
  nl_laws eps no vo ap apH -> (forall x y, n_rdot no x y = dot x y) ->
  forall (jo : vops R J) (jid : J), vspace o jo -> matrices vo jo jid ap ->
  forall xt : exts V V J H L,
  linear_ok xt (if_solvable (normal_exact apH)) (if_solvable (qr_exact no ap)) (if_solvable (newton_exact ap)) nothing ->
  forall cf, newton_absolute cf -> f_stop cf = WhenAbsResidual ->
  forall (u : isys (S:=R) (V:=V) (J:=J) (W:=W)) (f : V -> R -> V) (Df : V -> R -> J), smooth_user u f Df ->
  forall lip, derivative_of vo ap dot f Df -> dissipative_derivative ap dot Df -> 0 <= lip -> lipschitz_derivative vo ap dot Df lip -> square vo ap ->
  forall start y0 tr, integrated_std U eps no xt cf jo jid u BDF1 start y0 tr -> well_begun eps vo dot f cf lip BDF1 tr -> forward_in_time tr ->
  forall sol T, solution dot f sol start T ->
  forall K hm, twice_smooth dot f sol start T K ->
  (forall k t s t' s', In (k, t, s) (reports tr) -> In ((k + 1)%Z, t', s') (reports tr) -> t' - t <= hm) ->
  forall k t y, In (k, t, y) (reports tr) -> t <= start + T ->
  length_of dot (vminus o vo y (sol t)) <= length_of dot (vminus o vo y0 (sol start)) + (IZR k * f_tol cf + K / 2 * hm * (t - start)).
Proof.
  intros eps V J H L W U no ap apH o vo dot HL Hsame jo jid HJ HM xt Hlin cf Hcf Hst u f Df HU lip Hd Hn Hl Hlp Hsq start y0 tr HT Hw Hfw sl T Hs K hm Hk Hh.
  pose proof (nl_v _ _ _ _ _ HL) as HI.
  exact (bdf1_order eps vo dot f (in_space _ _ HI) (ip_of vo dot HI) (derivative_dissipative vo ap dot HI f Df Hd Hn) (f_tol cf) start T y0 tr sl Hs Hfw K hm Hk Hh
    (newton_run_of no ap apH HL Hsame jo jid HJ HM f Df lip Hd Hn Hlp Hl Hsq xt Hlin cf Hcf Hst u HU U BDF1 start y0 tr HT Hw)).
Qed.

Lemma order_newton_bdf2 :
  forall (eps : R) (V J H L W U : Type) (no : nlops R V V J H) (ap : J -> V -> V) (apH : H -> V -> V),
  let o := Rops eps in let vo := n_vo no in let dot := n_dot no in
  nl_laws eps no vo ap apH -> (forall x y, n_rdot no x y = dot x y) ->
  forall (jo : vops R J) (jid : J), vspace o jo -> matrices vo jo jid ap ->
  forall xt : exts V V J H L,
  linear_ok xt (if_solvable (normal_exact apH)) (if_solvable (qr_exact no ap)) (if_solvable (newton_exact ap)) nothing ->
  forall cf, newton_absolute cf -> f_stop cf = WhenAbsResidual ->
  forall (u : isys (S:=R) (V:=V) (J:=J) (W:=W)) (f : V -> R -> V) (Df : V -> R -> J), smooth_user u f Df ->
  forall lip, derivative_of vo ap dot f Df -> dissipative_derivative ap dot Df -> 0 <= lip -> lipschitz_derivative vo ap dot Df lip -> square vo ap ->
  forall start y0 tr, integrated_std U eps no xt cf jo jid u BDF2 start y0 tr -> well_begun eps vo dot f cf lip BDF2 tr -> forward_in_time tr ->
  forall sol T, solution dot f sol start T ->
  forall K2 K3 h, twice_smooth dot f sol start T K2 -> thrice_smooth dot f sol start T K3 ->
  (forall k t s t' s', In (k, t, s) (reports tr) -> In ((k + 1)%Z, t', s') (reports tr) -> t' - t = h) ->
  forall k t y, In (k, t, y) (reports tr) -> t <= start + T ->
  length_of dot (vminus o vo y (sol t)) <=
  sqrt 2 * length_of dot (vminus o vo y0 (sol start)) + 6 * (IZR k * f_tol cf + (K2 / 2 + 2 / 9 * K3 * (t - start)) * h ^ 2).
Proof.
  intros eps V J H L W U no ap apH o vo dot HL Hsame jo jid HJ HM xt Hlin cf Hcf Hst u f Df HU lip Hd Hn Hl Hlp Hsq start y0 tr HT Hw Hfw sl T Hs K2 K3 h Hk2 Hk3 Hh.
  pose proof (nl_v _ _ _ _ _ HL) as HI.
  exact (bdf2_order eps vo dot f (in_space _ _ HI) (ip_of vo dot HI) (derivative_dissipative vo ap dot HI f Df Hd Hn) (f_tol cf) start T y0 tr sl Hs Hfw K2 K3 h Hk2 Hk3 Hh
    (newton_run_of no ap apH HL Hsame jo jid HJ HM f Df lip Hd Hn Hlp Hl Hsq xt Hlin cf Hcf Hst u HU U BDF2 start y0 tr HT Hw)).
Qed.

Lemma order_newton_crank_nicolson :
  forall (eps : R) (V J H L W U : Type) (no : nlops R V V J H) (ap : J -> V -> V) (apH : H -> V -> V),
  let o := Rops eps in let vo := n_vo no in let dot := n_dot no in
  nl_laws eps no vo ap apH -> (forall x y, n_rdot no x y = dot x y) ->
  forall (jo : vops R J) (jid : J), vspace o jo -> matrices vo jo jid ap ->
  forall xt : exts V V J H L,
  linear_ok xt (if_solvable (normal_exact apH)) (if_solvable (qr_exact no ap)) (if_solvable (newton_exact ap)) nothing ->
  forall cf, newton_absolute cf -> f_stop cf = WhenAbsResidual ->
  forall (u : isys (S:=R) (V:=V) (J:=J) (W:=W)) (f : V -> R -> V) (Df : V -> R -> J), smooth_user u f Df ->
  forall lip, derivative_of vo ap dot f Df -> dissipative_derivative ap dot Df -> 0 <= lip -> lipschitz_derivative vo ap dot Df lip -> square vo ap ->
  forall start y0 tr, integrated_std U eps no xt cf jo jid u CrankNicolson start y0 tr -> well_begun eps vo dot f cf lip CrankNicolson tr -> forward_in_time tr ->
  forall sol T, solution dot f sol start T ->
  forall K hm, thrice_smooth dot f sol start T K ->
  (forall k t s t' s', In (k, t, s) (reports tr) -> In ((k + 1)%Z, t', s') (reports tr) -> t' - t <= hm) ->
  steps_not_growing tr -> forall t1 s1, In (1%Z, t1, s1) (reports tr) -> t1 <= start + T ->
  forall k t y, In (k, t, y) (reports tr) -> t <= start + T ->
  length_of dot (vminus o vo y (sol t)) <=
  length_of dot (vminus o vo (vminus o vo y0 (sol start)) (vscale vo (1 / 2 * (t1 - start)) (vminus o vo (f y0 start) (f (sol start) start))))
  + (IZR k * f_tol cf + K / 12 * hm ^ 2 * (t - start)).
Proof.
  intros eps V J H L W U no ap apH o vo dot HL Hsame jo jid HJ HM xt Hlin cf Hcf Hst u f Df HU lip Hd Hn Hl Hlp Hsq start y0 tr HT Hw Hfw sl T Hs K hm Hk Hh Hg.
  pose proof (nl_v _ _ _ _ _ HL) as HI.
  exact (cn_order eps vo dot f (in_space _ _ HI) (ip_of vo dot HI) (derivative_dissipative vo ap dot HI f Df Hd Hn) (f_tol cf) start T y0 tr sl Hs Hfw K hm Hk Hh Hg
    (newton_run_of no ap apH HL Hsame jo jid HJ HM f Df lip Hd Hn Hlp Hl Hsq xt Hlin cf Hcf Hst u HU U CrankNicolson start y0 tr HT Hw)).
Qed.

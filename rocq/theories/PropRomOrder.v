(** Property C95: statements only. Spec: [OrderSpec.v], and [GalerkinSpec.v], [StabilitySpec.v], [DissipSpec.v], [GalNewtonSpec.v], [NewtonRunSpec.v]. *)
From Coq Require Import Reals ZArith List.
From Verif Require Import Base RInst Laws LawInst AdvanceModel AdvanceSpec AdvanceProofs TargetProofs Track ImplicitModel ImplicitSpec
  LspgModel RomSpec GalerkinModel GalerkinSpec NonlinDiag NonlinModel NonlinSpec NonlinLaws NonlinMoreSpec NonlinExact RomLsSpec
  LinRunSpec GalLinSpec NewtonSpec NewtonRunSpec GalNewtonSpec
  ExplicitModel ExplicitSpec ExplicitExtra StabilitySpec DissipSpec OrderSpec RomOrderClaims.
Import ListNotations.
Local Open Scope R_scope.

(** Forward Euler with [num] equal steps. [del]: what the basis misses of the FOM's velocities at reconstructed states. *)
Theorem C95_forward_euler :
  forall (X Y Jf Mf Rm Jm J B W : Type) (eps0 : R) (xo : vops R X) (yo : vops R Y), let o := Rops eps0 in
  vspace o xo -> vspace o yo ->
  forall (recon bapp : X -> Y) (off : Y) (phi : B), linear xo yo bapp -> (forall x, recon x = vadd yo (bapp x) off) ->
  forall (fom : sfom (S:=R) (Y:=Y) (R:=Y) (J:=Jf) (B:=B) (W:=W)) f (good : W -> Prop), fom_rhs true good fom f ->
  forall ip L, inner yo ip -> lipschitz eps0 yo (length_of ip) L f ->
  forall obs, (forall k i t v w, good w -> exists w', obs k i t v w = (Ok tt, w') /\ good w') ->
  forall P c, galerkin_rhs true good o xo recon phi fom P c ->
  forall del, (forall x t, length_of ip (vminus o yo (f (recon x) t) (bapp (P t (f (recon x) t)))) <= del) ->
  let rom := rhs_system (Jf:=Jf) (Mf:=Mf) (Rm:=Rm) (Jm:=Jm) (J:=J) c obs in
  forall sol t0 T, 0 <= T -> solution ip f sol t0 T ->
  forall K, twice_smooth ip f sol t0 T K ->
  forall x0 g num, used 1 (explicit_step o xo rom ForwardEuler) g -> good (b_w (x_w g)) -> (0 < num)%nat -> (Z.of_nat num < int32_max)%Z ->
  exists x g' tr, advance_n_steps o (mk_user noop_obs (pol3 (fun _ _ _ w => (Ok (T / INR num), w))) noop_guess
      (stepper_fn (explicit_step o xo rom ForwardEuler))) (Z.of_nat num) t0 (x0, g, []) = (Ok tt, (x, g', tr)) /\
    length_of ip (vminus o yo (recon x) (sol (t0 + T))) <= exp (L * T) * (length_of ip (vminus o yo (recon x0) (sol t0)) + T * (del + K / 2 * (T / INR num) ^ 1)).
Proof. exact @rom_order_forward_euler. Qed.
Print Assumptions C95_forward_euler.

Theorem C95_adams_bashforth :
  forall (X Y Jf Mf Rm Jm J B W : Type) (eps0 : R) (xo : vops R X) (yo : vops R Y), let o := Rops eps0 in
  vspace o xo -> vspace o yo ->
  forall (recon bapp : X -> Y) (off : Y) (phi : B), linear xo yo bapp -> (forall x, recon x = vadd yo (bapp x) off) ->
  forall (fom : sfom (S:=R) (Y:=Y) (R:=Y) (J:=Jf) (B:=B) (W:=W)) f (good : W -> Prop), fom_rhs true good fom f ->
  forall ip L, inner yo ip -> lipschitz eps0 yo (length_of ip) L f ->
  forall obs, (forall k i t v w, good w -> exists w', obs k i t v w = (Ok tt, w') /\ good w') ->
  forall P c, galerkin_rhs true good o xo recon phi fom P c ->
  forall del, (forall x t, length_of ip (vminus o yo (f (recon x) t) (bapp (P t (f (recon x) t)))) <= del) ->
  let rom := rhs_system (Jf:=Jf) (Mf:=Mf) (Rm:=Rm) (Jm:=Jm) (J:=J) c obs in
  forall sol t0 T, 0 <= T -> solution ip f sol t0 T ->
  forall K2 K3, twice_smooth ip f sol t0 T K2 -> thrice_smooth ip f sol t0 T K3 ->
  forall x0 g num, used 2 (explicit_step o xo rom AdamsBashforth2) g -> good (b_w (x_w g)) -> (0 < num)%nat -> (Z.of_nat num < int32_max)%Z ->
  exists x g' tr, advance_n_steps o (mk_user noop_obs (pol3 (fun _ _ _ w => (Ok (T / INR num), w))) noop_guess
      (stepper_fn (explicit_step o xo rom AdamsBashforth2))) (Z.of_nat num) t0 (x0, g, []) = (Ok tt, (x, g', tr)) /\
    length_of ip (vminus o yo (recon x) (sol (t0 + T))) <= 
    exp (2 * L * T) * (length_of ip (vminus o yo (recon x0) (sol t0)) + 2 * (T * del) + (K2 / 2 + 5 / 12 * K3 * T) * (T / INR num) ^ 2).
Proof. exact @rom_order_adams_bashforth. Qed.
Print Assumptions C95_adams_bashforth.

Theorem C95_ssp_runge_kutta_3 :
  forall (X Y Jf Mf Rm Jm J B W : Type) (eps0 : R) (xo : vops R X) (yo : vops R Y), let o := Rops eps0 in
  vspace o xo -> vspace o yo ->
  forall (recon bapp : X -> Y) (off : Y) (phi : B), linear xo yo bapp -> (forall x, recon x = vadd yo (bapp x) off) ->
  forall (fom : sfom (S:=R) (Y:=Y) (R:=Y) (J:=Jf) (B:=B) (W:=W)) f (good : W -> Prop), fom_rhs true good fom f ->
  forall ip L, inner yo ip -> lipschitz eps0 yo (length_of ip) L f ->
  forall obs, (forall k i t v w, good w -> exists w', obs k i t v w = (Ok tt, w') /\ good w') ->
  forall P c, galerkin_rhs true good o xo recon phi fom P c ->
  forall del, (forall x t, length_of ip (vminus o yo (f (recon x) t) (bapp (P t (f (recon x) t)))) <= del) ->
  let rom := rhs_system (Jf:=Jf) (Mf:=Mf) (Rm:=Rm) (Jm:=Jm) (J:=J) c obs in
  forall sol t0 T, 0 <= T -> solution ip f sol t0 T ->
  forall E, expands_2 yo ip eps0 f sol t0 T E -> exists C,
  forall x0 g num, used 1 (explicit_step o xo rom SSPRungeKutta3) g -> good (b_w (x_w g)) -> (0 < num)%nat -> (Z.of_nat num < int32_max)%Z ->
  exists x g' tr, advance_n_steps o (mk_user noop_obs (pol3 (fun _ _ _ w => (Ok (T / INR num), w))) noop_guess
      (stepper_fn (explicit_step o xo rom SSPRungeKutta3))) (Z.of_nat num) t0 (x0, g, []) = (Ok tt, (x, g', tr)) /\
    length_of ip (vminus o yo (recon x) (sol (t0 + T))) <= exp (L * T) * (length_of ip (vminus o yo (recon x0) (sol t0)) + T * (del + C * (T / INR num) ^ 3)).
Proof. exact @rom_order_ssp_runge_kutta_3. Qed.
Print Assumptions C95_ssp_runge_kutta_3.

Theorem C95_runge_kutta_4 :
  forall (X Y Jf Mf Rm Jm J B W : Type) (eps0 : R) (xo : vops R X) (yo : vops R Y), let o := Rops eps0 in
  vspace o xo -> vspace o yo ->
  forall (recon bapp : X -> Y) (off : Y) (phi : B), linear xo yo bapp -> (forall x, recon x = vadd yo (bapp x) off) ->
  forall (fom : sfom (S:=R) (Y:=Y) (R:=Y) (J:=Jf) (B:=B) (W:=W)) f (good : W -> Prop), fom_rhs true good fom f ->
  forall ip L, inner yo ip -> lipschitz eps0 yo (length_of ip) L f ->
  forall obs, (forall k i t v w, good w -> exists w', obs k i t v w = (Ok tt, w') /\ good w') ->
  forall P c, galerkin_rhs true good o xo recon phi fom P c ->
  forall del, (forall x t, length_of ip (vminus o yo (f (recon x) t) (bapp (P t (f (recon x) t)))) <= del) ->
  let rom := rhs_system (Jf:=Jf) (Mf:=Mf) (Rm:=Rm) (Jm:=Jm) (J:=J) c obs in
  forall sol t0 T, 0 <= T -> solution ip f sol t0 T ->
  forall E, expands_3 yo ip eps0 f sol t0 T E -> exists C,
  forall x0 g num, used 4 (explicit_step o xo rom RungeKutta4) g -> good (b_w (x_w g)) -> (0 < num)%nat -> (Z.of_nat num < int32_max)%Z ->
  exists x g' tr, advance_n_steps o (mk_user noop_obs (pol3 (fun _ _ _ w => (Ok (T / INR num), w))) noop_guess
      (stepper_fn (explicit_step o xo rom RungeKutta4))) (Z.of_nat num) t0 (x0, g, []) = (Ok tt, (x, g', tr)) /\
    length_of ip (vminus o yo (recon x) (sol (t0 + T))) <= exp (L * T) * (length_of ip (vminus o yo (recon x0) (sol t0)) + T * (del + C * (T / INR num) ^ 4)).
Proof. exact @rom_order_runge_kutta_4. Qed.
Print Assumptions C95_runge_kutta_4.

(** Implicit ROMs of dissipative equations, with any solver that accepts residuals of length [tol]: only what the basis misses at the states the ROM reports counts,
    and nothing grows exponentially. [K]: how much the basis lengthens vectors. *)
Theorem C95_bdf1 :
  forall (X Y Jf Mf Rm Jm J B W Ws U : Type) (eps0 : R) (xo : vops R X) (yo : vops R Y) (jo : vops R J) (jid : J), let o := Rops eps0 in
  vspace o xo -> vspace o yo -> vspace o jo ->
  forall (recon bapp : X -> Y) (off : Y) (phi : B), linear xo yo bapp -> (forall x, recon x = vadd yo (bapp x) off) ->
  forall ip xip K, inner yo ip -> 0 <= K -> (forall a, length_of ip (bapp a) <= K * length_of xip a) ->
  forall (fom : sfom (S:=R) (Y:=Y) (R:=Y) (J:=Jf) (B:=B) (W:=W)) f df, dissipative eps0 yo ip f ->
  fom_rhs false (fun _ => True) fom f -> fom_jac false (fun _ => True) fom df ->
  forall P PJ c, galerkin_rhs_jac (Mf:=Mf) (Rm:=Rm) (Jm:=Jm) false (fun _ => True) o xo jo recon phi fom P PJ c ->
  forall (solver : Ws -> X -> sol X X J Ws) tol start x0 tr,
  completed_std U o xo jo jid (rhs_jac_system c) solver BDF1 (fun r => length_of xip r <= tol) start x0 tr -> forward_in_time tr ->
  forall del, (forall k t x, In (k, t, x) (reports tr) -> length_of ip (vminus o yo (f (recon x) t) (bapp (P t (f (recon x) t)))) <= del) ->
  forall sol T, solution ip f sol start T ->
  forall M hm, twice_smooth ip f sol start T M ->
  (forall k t s t' s', In (k, t, s) (reports tr) -> In ((k + 1)%Z, t', s') (reports tr) -> t' - t <= hm) ->
  forall k t x, In (k, t, x) (reports tr) -> t <= start + T ->
  length_of ip (vminus o yo (recon x) (sol t)) <=
  length_of ip (vminus o yo (recon x0) (sol start)) + (IZR k * (K * tol) + (t - start) * (del + M / 2 * hm)).
Proof. exact @rom_order_bdf1. Qed.
Print Assumptions C95_bdf1.

Theorem C95_bdf2 :
  forall (X Y Jf Mf Rm Jm J B W Ws U : Type) (eps0 : R) (xo : vops R X) (yo : vops R Y) (jo : vops R J) (jid : J), let o := Rops eps0 in
  vspace o xo -> vspace o yo -> vspace o jo ->
  forall (recon bapp : X -> Y) (off : Y) (phi : B), linear xo yo bapp -> (forall x, recon x = vadd yo (bapp x) off) ->
  forall ip xip K, inner yo ip -> 0 <= K -> (forall a, length_of ip (bapp a) <= K * length_of xip a) ->
  forall (fom : sfom (S:=R) (Y:=Y) (R:=Y) (J:=Jf) (B:=B) (W:=W)) f df, dissipative eps0 yo ip f ->
  fom_rhs false (fun _ => True) fom f -> fom_jac false (fun _ => True) fom df ->
  forall P PJ c, galerkin_rhs_jac (Mf:=Mf) (Rm:=Rm) (Jm:=Jm) false (fun _ => True) o xo jo recon phi fom P PJ c ->
  forall (solver : Ws -> X -> sol X X J Ws) tol start x0 tr,
  completed_std U o xo jo jid (rhs_jac_system c) solver BDF2 (fun r => length_of xip r <= tol) start x0 tr -> forward_in_time tr ->
  forall del, (forall k t x, In (k, t, x) (reports tr) -> length_of ip (vminus o yo (f (recon x) t) (bapp (P t (f (recon x) t)))) <= del) ->
  forall sol T, solution ip f sol start T ->
  forall M2 M3 h, twice_smooth ip f sol start T M2 -> thrice_smooth ip f sol start T M3 ->
  (forall k t s t' s', In (k, t, s) (reports tr) -> In ((k + 1)%Z, t', s') (reports tr) -> t' - t = h) ->
  forall k t x, In (k, t, x) (reports tr) -> t <= start + T ->
  length_of ip (vminus o yo (recon x) (sol t)) <=
  sqrt 2 * length_of ip (vminus o yo (recon x0) (sol start)) + 6 * (IZR k * (K * tol) + (t - start) * del + (M2 / 2 + 2 / 9 * M3 * (t - start)) * h ^ 2).
Proof. exact @rom_order_bdf2. Qed.
Print Assumptions C95_bdf2.

Theorem C95_crank_nicolson :
  forall (X Y Jf Mf Rm Jm J B W Ws U : Type) (eps0 : R) (xo : vops R X) (yo : vops R Y) (jo : vops R J) (jid : J), let o := Rops eps0 in
  vspace o xo -> vspace o yo -> vspace o jo ->
  forall (recon bapp : X -> Y) (off : Y) (phi : B), linear xo yo bapp -> (forall x, recon x = vadd yo (bapp x) off) ->
  forall ip xip K, inner yo ip -> 0 <= K -> (forall a, length_of ip (bapp a) <= K * length_of xip a) ->
  forall (fom : sfom (S:=R) (Y:=Y) (R:=Y) (J:=Jf) (B:=B) (W:=W)) f df, dissipative eps0 yo ip f ->
  fom_rhs true (fun _ => True) fom f -> fom_jac true (fun _ => True) fom df ->
  forall P PJ c, galerkin_rhs_jac (Mf:=Mf) (Rm:=Rm) (Jm:=Jm) true (fun _ => True) o xo jo recon phi fom P PJ c ->
  forall (solver : Ws -> X -> sol X X J Ws) tol start x0 tr,
  completed_std U o xo jo jid (rhs_jac_system c) solver CrankNicolson (fun r => length_of xip r <= tol) start x0 tr -> forward_in_time tr ->
  forall del, (forall k t x, In (k, t, x) (reports tr) -> length_of ip (vminus o yo (f (recon x) t) (bapp (P t (f (recon x) t)))) <= del) ->
  forall sol T, solution ip f sol start T ->
  forall M hm, thrice_smooth ip f sol start T M ->
  (forall k t s t' s', In (k, t, s) (reports tr) -> In ((k + 1)%Z, t', s') (reports tr) -> t' - t <= hm) ->
  steps_not_growing tr -> forall t1 s1, In (1%Z, t1, s1) (reports tr) -> t1 <= start + T ->
  forall k t x, In (k, t, x) (reports tr) -> t <= start + T ->
  length_of ip (vminus o yo (recon x) (sol t)) <=
  length_of ip (vminus o yo (vminus o yo (recon x0) (sol start)) (vscale yo (1 / 2 * (t1 - start)) (vminus o yo (f (recon x0) start) (f (sol start) start))))
  + (IZR k * (K * tol) + (t - start) * (del + M / 12 * hm ^ 2)).
Proof. exact @rom_order_crank_nicolson. Qed.
Print Assumptions C95_crank_nicolson.

(** The same with Newton's method as it is in the library: nothing is assumed about its results. *)
Theorem C95_newton_bdf1 :
  forall (eps : R) (X Y Jf Mf Rm Jm J B H L W U : Type) (no : nlops R X X J H) (ap : J -> X -> X) (apH : H -> X -> X),
  let o := Rops eps in let xo := n_vo no in let xip := n_dot no in
  nl_laws eps no xo ap apH -> (forall x y, n_rdot no x y = xip x y) ->
  forall (jo : vops R J) (jid : J), vspace o jo -> matrices xo jo jid ap ->
  forall xt : exts X X J H L,
  linear_ok xt (if_solvable (normal_exact apH)) (if_solvable (qr_exact no ap)) (if_solvable (newton_exact ap)) nothing ->
  forall cf, newton_absolute cf -> f_stop cf = WhenAbsResidual ->
  forall (yo : vops R Y) (fapp : Jf -> X -> Y) (recon bapp : X -> Y) (off : Y) (phi : B)
    (fom : sfom (S:=R) (Y:=Y) (R:=Y) (J:=Jf) (B:=B) (W:=W)) f D AB P PJ
    (c : X -> R -> gcmd (Mf:=Mf) (Rm:=Rm) (Jm:=Jm) (M:=unit)), smooth_rom eps xo yo yo jo ap fapp recon bapp off phi fom f D AB P PJ c ->
  forall ip, NonlinLaws.inner eps yo ip -> (forall t y a, ip y (bapp a) = xip (P t y) a) ->
  forall K lip, 0 <= K -> (forall x, length_of ip (bapp x) <= K * length_of xip x) -> 0 <= lip ->
  let apply := fun (a : Y -> Y) v => a v in
  derivative_of yo apply ip f D -> dissipative_derivative apply ip D -> lipschitz_derivative yo apply ip D lip -> square xo ap ->
  forall start x0 tr, integrated_std U eps no xt cf jo jid (rhs_jac_system c) BDF1 start x0 tr ->
  well_begun eps xo xip (reduced recon f P) cf (lip * K ^ 3) BDF1 tr -> forward_in_time tr ->
  forall del, (forall k t x, In (k, t, x) (reports tr) -> length_of ip (vminus o yo (f (recon x) t) (bapp (P t (f (recon x) t)))) <= del) ->
  forall sol T, solution ip f sol start T ->
  forall M hm, twice_smooth ip f sol start T M ->
  (forall k t s t' s', In (k, t, s) (reports tr) -> In ((k + 1)%Z, t', s') (reports tr) -> t' - t <= hm) ->
  forall k t x, In (k, t, x) (reports tr) -> t <= start + T ->
  length_of ip (vminus o yo (recon x) (sol t)) <=
  length_of ip (vminus o yo (recon x0) (sol start)) + (IZR k * (K * f_tol cf) + (t - start) * (del + M / 2 * hm)).
Proof. exact @rom_order_newton_bdf1. Qed.
Print Assumptions C95_newton_bdf1.

Theorem C95_newton_bdf2 :
  forall (eps : R) (X Y Jf Mf Rm Jm J B H L W U : Type) (no : nlops R X X J H) (ap : J -> X -> X) (apH : H -> X -> X),
  let o := Rops eps in let xo := n_vo no in let xip := n_dot no in
  nl_laws eps no xo ap apH -> (forall x y, n_rdot no x y = xip x y) ->
  forall (jo : vops R J) (jid : J), vspace o jo -> matrices xo jo jid ap ->
  forall xt : exts X X J H L,
  linear_ok xt (if_solvable (normal_exact apH)) (if_solvable (qr_exact no ap)) (if_solvable (newton_exact ap)) nothing ->
  forall cf, newton_absolute cf -> f_stop cf = WhenAbsResidual ->
  forall (yo : vops R Y) (fapp : Jf -> X -> Y) (recon bapp : X -> Y) (off : Y) (phi : B)
    (fom : sfom (S:=R) (Y:=Y) (R:=Y) (J:=Jf) (B:=B) (W:=W)) f D AB P PJ
    (c : X -> R -> gcmd (Mf:=Mf) (Rm:=Rm) (Jm:=Jm) (M:=unit)), smooth_rom eps xo yo yo jo ap fapp recon bapp off phi fom f D AB P PJ c ->
  forall ip, NonlinLaws.inner eps yo ip -> (forall t y a, ip y (bapp a) = xip (P t y) a) ->
  forall K lip, 0 <= K -> (forall x, length_of ip (bapp x) <= K * length_of xip x) -> 0 <= lip ->
  let apply := fun (a : Y -> Y) v => a v in
  derivative_of yo apply ip f D -> dissipative_derivative apply ip D -> lipschitz_derivative yo apply ip D lip -> square xo ap ->
  forall start x0 tr, integrated_std U eps no xt cf jo jid (rhs_jac_system c) BDF2 start x0 tr ->
  well_begun eps xo xip (reduced recon f P) cf (lip * K ^ 3) BDF2 tr -> forward_in_time tr ->
  forall del, (forall k t x, In (k, t, x) (reports tr) -> length_of ip (vminus o yo (f (recon x) t) (bapp (P t (f (recon x) t)))) <= del) ->
  forall sol T, solution ip f sol start T ->
  forall M2 M3 h, twice_smooth ip f sol start T M2 -> thrice_smooth ip f sol start T M3 ->
  (forall k t s t' s', In (k, t, s) (reports tr) -> In ((k + 1)%Z, t', s') (reports tr) -> t' - t = h) ->
  forall k t x, In (k, t, x) (reports tr) -> t <= start + T ->
  length_of ip (vminus o yo (recon x) (sol t)) <=
  sqrt 2 * length_of ip (vminus o yo (recon x0) (sol start)) + 6 * (IZR k * (K * f_tol cf) + (t - start) * del + (M2 / 2 + 2 / 9 * M3 * (t - start)) * h ^ 2).
Proof. exact @rom_order_newton_bdf2. Qed.
Print Assumptions C95_newton_bdf2.

Theorem C95_newton_crank_nicolson :
  forall (eps : R) (X Y Jf Mf Rm Jm J B H L W U : Type) (no : nlops R X X J H) (ap : J -> X -> X) (apH : H -> X -> X),
  let o := Rops eps in let xo := n_vo no in let xip := n_dot no in
  nl_laws eps no xo ap apH -> (forall x y, n_rdot no x y = xip x y) ->
  forall (jo : vops R J) (jid : J), vspace o jo -> matrices xo jo jid ap ->
  forall xt : exts X X J H L,
  linear_ok xt (if_solvable (normal_exact apH)) (if_solvable (qr_exact no ap)) (if_solvable (newton_exact ap)) nothing ->
  forall cf, newton_absolute cf -> f_stop cf = WhenAbsResidual ->
  forall (yo : vops R Y) (fapp : Jf -> X -> Y) (recon bapp : X -> Y) (off : Y) (phi : B)
    (fom : sfom (S:=R) (Y:=Y) (R:=Y) (J:=Jf) (B:=B) (W:=W)) f D AB P PJ
    (c : X -> R -> gcmd (Mf:=Mf) (Rm:=Rm) (Jm:=Jm) (M:=unit)), smooth_rom eps xo yo yo jo ap fapp recon bapp off phi fom f D AB P PJ c ->
  forall ip, NonlinLaws.inner eps yo ip -> (forall t y a, ip y (bapp a) = xip (P t y) a) ->
  forall K lip, 0 <= K -> (forall x, length_of ip (bapp x) <= K * length_of xip x) -> 0 <= lip ->
  let apply := fun (a : Y -> Y) v => a v in
  derivative_of yo apply ip f D -> dissipative_derivative apply ip D -> lipschitz_derivative yo apply ip D lip -> square xo ap ->
  forall start x0 tr, integrated_std U eps no xt cf jo jid (rhs_jac_system c) CrankNicolson start x0 tr ->
  well_begun eps xo xip (reduced recon f P) cf (lip * K ^ 3) CrankNicolson tr -> forward_in_time tr ->
  forall del, (forall k t x, In (k, t, x) (reports tr) -> length_of ip (vminus o yo (f (recon x) t) (bapp (P t (f (recon x) t)))) <= del) ->
  forall sol T, solution ip f sol start T ->
  forall M hm, thrice_smooth ip f sol start T M ->
  (forall k t s t' s', In (k, t, s) (reports tr) -> In ((k + 1)%Z, t', s') (reports tr) -> t' - t <= hm) ->
  steps_not_growing tr -> forall t1 s1, In (1%Z, t1, s1) (reports tr) -> t1 <= start + T ->
  forall k t x, In (k, t, x) (reports tr) -> t <= start + T ->
  length_of ip (vminus o yo (recon x) (sol t)) <=
  length_of ip (vminus o yo (vminus o yo (recon x0) (sol start)) (vscale yo (1 / 2 * (t1 - start)) (vminus o yo (f (recon x0) start) (f (sol start) start))))
  + (IZR k * (K * f_tol cf) + (t - start) * (del + M / 12 * hm ^ 2)).
Proof. exact @rom_order_newton_crank_nicolson. Qed.
Print Assumptions C95_newton_crank_nicolson.

(** Property C93: statements only. Spec: [GalNewtonSpec.v], and [GalLinSpec.v], [NewtonRunSpec.v], [DissipSpec.v], [GalerkinSpec.v]. *)
From Coq Require Import Reals ZArith List.
From Verif Require Import Base RInst Laws LawInst AdvanceModel AdvanceSpec AdvanceProofs TargetProofs Track ExplicitModel ImplicitModel ImplicitSpec
  LspgModel RomSpec GalerkinModel GalerkinSpec NonlinDiag NonlinModel NonlinSpec NonlinLaws NonlinMoreSpec RomLsSpec
  StabilitySpec DissipSpec LinRunSpec GalLinSpec NewtonSpec NewtonRunSpec GalNewtonSpec GalNewtonClaims.
Import ListNotations.
Local Open Scope R_scope.

(** [num] steps of the ROM of a nonlinear FOM with a new BDF1, BDF2 or Crank-Nicolson stepper: the integration returns normally, and every step
    that starts well ends with a reduced residual as small as the tolerance asks. *)
Theorem C93_n_steps :
  forall (eps : R) (X Y Rf Jf Mf Rm Jm J B H L W U : Type) (no : nlops R X X J H) (ap : J -> X -> X) (apH : H -> X -> X),
  let o := Rops eps in let xo := n_vo no in nl_laws eps no xo ap apH ->
  forall (jo : vops R J) (jid : J), vspace o jo ->
  forall xt : exts X X J H L,
  linear_ok xt (if_solvable (normal_exact apH)) (if_solvable (qr_exact no ap)) (if_solvable (newton_exact ap)) nothing ->
  forall cf, newton_absolute cf ->
  forall (yo : vops R Y) (ro : vops R Rf) (fapp : Jf -> X -> Rf) (recon bapp : X -> Y) (off : Y) (phi : B)
    (fom : sfom (S:=R) (Y:=Y) (R:=Rf) (J:=Jf) (B:=B) (W:=W)) f D AB P PJ
    (c : X -> R -> gcmd (Mf:=Mf) (Rm:=Rm) (Jm:=Jm) (M:=unit)), smooth_rom eps xo yo ro jo ap fapp recon bapp off phi fom f D AB P PJ c ->
  forall name (obs : Z -> R -> X -> U -> outcome unit * U) cs cr w0 xc ws g0,
  root_object o ws -> implicit_create o name cs cr (mk_ppol (-1) w0) xc ws = Ok g0 ->
  let step := implicit_step o (policy_std o xo jo jid (rhs_jac_system c)) (as_solver (root_solve o no xt cf)) name in
  let residual := scheme_residual o xo (reduced recon f P) name in let jacobian := scheme_jacobian o jo jid (reduced_jac recon AB PJ) name in
  forall pol num start x0 w, (Z.of_nat num < int32_max)%Z ->
  (forall k t x u, fst (obs k t x u) = Ok tt) -> (forall k t d u, exists dt, fst (pol k t d u) = Ok dt) ->
  exists x' g' w' tr l,
    advance_n_steps o (mk_user (split_obs obs) (pol3 (split_pol pol)) noop_guess (split_step (implicit_fn step)))
      (Z.of_nat num) start (x0, (g0, w), []) = (Ok tt, (x', (g', w'), tr)) /\
    length l = Datatypes.S num /\ reports tr = numbered l /\ hd x0 (map snd l) = x' /\
    linked_from Rplus (fun past t dt x => forall far,
      starts_well no xo ap cf (residual past t dt) (jacobian past t dt) (hd (vzero xo) past) far ->
      n_rnorm no (residual past t dt x) <= far * f_tol cf) start x0 l.
Proof. exact @rom_n_steps. Qed.
Print Assumptions C93_n_steps.

(** The same for integrations to a target time, which end. *)
Theorem C93_to_target :
  forall (eps : R) (X Y Rf Jf Mf Rm Jm J B H L W U : Type) (no : nlops R X X J H) (ap : J -> X -> X) (apH : H -> X -> X),
  let o := Rops eps in let xo := n_vo no in nl_laws eps no xo ap apH ->
  forall (jo : vops R J) (jid : J), vspace o jo ->
  forall xt : exts X X J H L,
  linear_ok xt (if_solvable (normal_exact apH)) (if_solvable (qr_exact no ap)) (if_solvable (newton_exact ap)) nothing ->
  forall cf, newton_absolute cf ->
  forall (yo : vops R Y) (ro : vops R Rf) (fapp : Jf -> X -> Rf) (recon bapp : X -> Y) (off : Y) (phi : B)
    (fom : sfom (S:=R) (Y:=Y) (R:=Rf) (J:=Jf) (B:=B) (W:=W)) f D AB P PJ
    (c : X -> R -> gcmd (Mf:=Mf) (Rm:=Rm) (Jm:=Jm) (M:=unit)), smooth_rom eps xo yo ro jo ap fapp recon bapp off phi fom f D AB P PJ c ->
  forall name (obs : Z -> R -> X -> U -> outcome unit * U) cs cr w0 xc ws g0,
  root_object o ws -> implicit_create o name cs cr (mk_ppol (-1) w0) xc ws = Ok g0 ->
  let step := implicit_step o (policy_std o xo jo jid (rhs_jac_system c)) (as_solver (root_solve o no xt cf)) name in
  let residual := scheme_residual o xo (reduced recon f P) name in let jacobian := scheme_jacobian o jo jid (reduced_jac recon AB PJ) name in
  forall pol recovery h n fuel start final x0 w,
  0 <= eps -> (forall k t x u, fst (obs k t x u) = Ok tt) ->
  (forall k t x u, exists dt m c, fst (pol k t x u) = Ok (dt, m, c) /\ h <= dt /\ m <= dt /\ (recovery = true -> 1 < c)) ->
  start < final -> final - start <= INR n * h -> (n < fuel)%nat -> (Z.of_nat n < int32_max)%Z ->
  exists x' g' w' tr l,
    to_target o (mk_user (split_obs obs) (split_pol pol) noop_guess (split_step (implicit_fn step))) recovery fuel
      start final (x0, (g0, w), []) = (Ok tt, (x', (g', w'), tr)) /\
    reports tr = numbered l /\ hd x0 (map snd l) = x' /\
    linked_from Rplus (fun past t dt x => forall far,
      starts_well no xo ap cf (residual past t dt) (jacobian past t dt) (hd (vzero xo) past) far ->
      n_rnorm no (residual past t dt x) <= far * f_tol cf) start x0 l.
Proof. exact @rom_to_target. Qed.
Print Assumptions C93_to_target.

(** If the FOM is dissipative with a Lipschitz Jacobian and P(t) is the adjoint of the basis, as for the default ROM with any basis: what starts
    well is a matter of the step size, the constants of the FOM and of the basis, and the reduced residual the step begins with. *)
Theorem C93_dissipative :
  forall (eps : R) (X Y Jf Mf Rm Jm J B H L W U : Type) (no : nlops R X X J H) (ap : J -> X -> X) (apH : H -> X -> X),
  let o := Rops eps in let xo := n_vo no in let xip := n_dot no in
  nl_laws eps no xo ap apH -> (forall x y, n_rdot no x y = xip x y) ->
  forall (jo : vops R J) (jid : J), vspace o jo -> matrices xo jo jid ap ->
  forall xt : exts X X J H L,
  linear_ok xt (if_solvable (normal_exact apH)) (if_solvable (qr_exact no ap)) (if_solvable (newton_exact ap)) nothing ->
  forall cf, newton_absolute cf -> f_stop cf = WhenAbsResidual ->
  forall (yo : vops R Y) (fapp : Jf -> X -> Y) (recon bapp : X -> Y) (off : Y) (phi : B)
    (fom : sfom (S:=R) (Y:=Y) (R:=Y) (J:=Jf) (B:=B) (W:=W)) f D AB P PJ
    (c : X -> R -> gcmd (Mf:=Mf) (Rm:=Rm) (Jm:=Jm) (M:=unit)), smooth_rom eps xo yo yo jo ap fapp recon bapp off phi fom f D AB P PJ c ->
  forall ip, NonlinLaws.inner eps yo ip -> (forall t y a, ip y (bapp a) = xip (P t y) a) ->
  forall K lip, 0 <= K -> (forall x, length_of ip (bapp x) <= K * length_of xip x) -> 0 <= lip ->
  let apply := fun (a : Y -> Y) v => a v in
  derivative_of yo apply ip f D -> dissipative_derivative apply ip D -> lipschitz_derivative yo apply ip D lip -> square xo ap ->
  forall start x0 tr name,
  integrated_std U eps no xt cf jo jid (rhs_jac_system c) name start x0 tr ->
  exists l, reports tr = numbered l /\ linked_from Rplus (fun past t dt x => forall x_n hist, past = x_n :: hist ->
    begun cf (weight_of o name past) (lip * K ^ 3) dt (length_of xip (scheme_residual o xo (reduced recon f P) name past t dt x_n)) ->
    length_of xip (scheme_residual o xo (reduced recon f P) name past t dt x) <= f_tol cf) start x0 l.
Proof. exact @rom_newton_dissipative. Qed.
Print Assumptions C93_dissipative.

(** The ROM against the FOM's own integration; [del]: what the basis misses of the FOM's velocities at the states the ROM reports. *)
Theorem C93_error_bdf1 :
  forall (eps : R) (X Y Jf Mf Rm Jm J B H L W U J' H' L' W' U' : Type) (no : nlops R X X J H) (ap : J -> X -> X) (apH : H -> X -> X)
    (no' : nlops R Y Y J' H') (ap' : J' -> Y -> Y) (apH' : H' -> Y -> Y),
  let o := Rops eps in let xo := n_vo no in let yo := n_vo no' in let xip := n_dot no in let ip := n_dot no' in
  nl_laws eps no xo ap apH -> nl_laws eps no' yo ap' apH' -> (forall x y, n_rdot no x y = xip x y) -> (forall x y, n_rdot no' x y = ip x y) ->
  forall (jo : vops R J) (jid : J) (jo' : vops R J') (jid' : J'),
  vspace o jo -> matrices xo jo jid ap -> vspace o jo' -> matrices yo jo' jid' ap' ->
  forall (xt : exts X X J H L) (xt' : exts Y Y J' H' L'),
  linear_ok xt (if_solvable (normal_exact apH)) (if_solvable (qr_exact no ap)) (if_solvable (newton_exact ap)) nothing ->
  linear_ok xt' (if_solvable (normal_exact apH')) (if_solvable (qr_exact no' ap')) (if_solvable (newton_exact ap')) nothing ->
  forall cf cf', newton_absolute cf -> newton_absolute cf' -> f_stop cf = WhenAbsResidual -> f_stop cf' = WhenAbsResidual ->
  forall (fapp : Jf -> X -> Y) (recon bapp : X -> Y) (off : Y) (phi : B)
    (fom : sfom (S:=R) (Y:=Y) (R:=Y) (J:=Jf) (B:=B) (W:=W)) f (Df : Y -> R -> J') AB P PJ
    (c : X -> R -> gcmd (Mf:=Mf) (Rm:=Rm) (Jm:=Jm) (M:=unit)),
  smooth_rom eps xo yo yo jo ap fapp recon bapp off phi fom f (fun y t => ap' (Df y t)) AB P PJ c ->
  forall u : isys (S:=R) (V:=Y) (J:=J') (W:=W'), smooth_user u f Df ->
  (forall t y a, ip y (bapp a) = xip (P t y) a) ->
  forall K lip, 0 <= K -> (forall x, length_of ip (bapp x) <= K * length_of xip x) -> 0 <= lip ->
  derivative_of yo ap' ip f Df -> dissipative_derivative ap' ip Df -> lipschitz_derivative yo ap' ip Df lip -> square xo ap -> square yo ap' ->
  forall start y0 x0 tr tr',
  integrated_std U' eps no' xt' cf' jo' jid' u BDF1 start y0 tr -> well_begun eps yo ip f cf' lip BDF1 tr ->
  integrated_std U eps no xt cf jo jid (rhs_jac_system c) BDF1 start x0 tr' -> well_begun eps xo xip (reduced recon f P) cf (lip * K ^ 3) BDF1 tr' ->
  same_times tr tr' -> forward_in_time tr ->
  forall del, (forall k t x, In (k, t, x) (reports tr') -> length_of ip (vminus o yo (f (recon x) t) (bapp (P t (f (recon x) t)))) <= del) ->
  forall k t y x, In (k, t, y) (reports tr) -> In (k, t, x) (reports tr') ->
  length_of ip (vminus o yo y (recon x)) <= length_of ip (vminus o yo y0 (recon x0)) + (IZR k * (f_tol cf' + K * f_tol cf) + (t - start) * del).
Proof. exact @rom_newton_error_bdf1. Qed.
Print Assumptions C93_error_bdf1.

Theorem C93_error_bdf2 :
  forall (eps : R) (X Y Jf Mf Rm Jm J B H L W U J' H' L' W' U' : Type) (no : nlops R X X J H) (ap : J -> X -> X) (apH : H -> X -> X)
    (no' : nlops R Y Y J' H') (ap' : J' -> Y -> Y) (apH' : H' -> Y -> Y),
  let o := Rops eps in let xo := n_vo no in let yo := n_vo no' in let xip := n_dot no in let ip := n_dot no' in
  nl_laws eps no xo ap apH -> nl_laws eps no' yo ap' apH' -> (forall x y, n_rdot no x y = xip x y) -> (forall x y, n_rdot no' x y = ip x y) ->
  forall (jo : vops R J) (jid : J) (jo' : vops R J') (jid' : J'),
  vspace o jo -> matrices xo jo jid ap -> vspace o jo' -> matrices yo jo' jid' ap' ->
  forall (xt : exts X X J H L) (xt' : exts Y Y J' H' L'),
  linear_ok xt (if_solvable (normal_exact apH)) (if_solvable (qr_exact no ap)) (if_solvable (newton_exact ap)) nothing ->
  linear_ok xt' (if_solvable (normal_exact apH')) (if_solvable (qr_exact no' ap')) (if_solvable (newton_exact ap')) nothing ->
  forall cf cf', newton_absolute cf -> newton_absolute cf' -> f_stop cf = WhenAbsResidual -> f_stop cf' = WhenAbsResidual ->
  forall (fapp : Jf -> X -> Y) (recon bapp : X -> Y) (off : Y) (phi : B)
    (fom : sfom (S:=R) (Y:=Y) (R:=Y) (J:=Jf) (B:=B) (W:=W)) f (Df : Y -> R -> J') AB P PJ
    (c : X -> R -> gcmd (Mf:=Mf) (Rm:=Rm) (Jm:=Jm) (M:=unit)),
  smooth_rom eps xo yo yo jo ap fapp recon bapp off phi fom f (fun y t => ap' (Df y t)) AB P PJ c ->
  forall u : isys (S:=R) (V:=Y) (J:=J') (W:=W'), smooth_user u f Df ->
  (forall t y a, ip y (bapp a) = xip (P t y) a) ->
  forall K lip, 0 <= K -> (forall x, length_of ip (bapp x) <= K * length_of xip x) -> 0 <= lip ->
  derivative_of yo ap' ip f Df -> dissipative_derivative ap' ip Df -> lipschitz_derivative yo ap' ip Df lip -> square xo ap -> square yo ap' ->
  forall start y0 x0 tr tr',
  integrated_std U' eps no' xt' cf' jo' jid' u BDF2 start y0 tr -> well_begun eps yo ip f cf' lip BDF2 tr ->
  integrated_std U eps no xt cf jo jid (rhs_jac_system c) BDF2 start x0 tr' -> well_begun eps xo xip (reduced recon f P) cf (lip * K ^ 3) BDF2 tr' ->
  same_times tr tr' -> forward_in_time tr ->
  forall del, (forall k t x, In (k, t, x) (reports tr') -> length_of ip (vminus o yo (f (recon x) t) (bapp (P t (f (recon x) t)))) <= del) ->
  forall k t y x, In (k, t, y) (reports tr) -> In (k, t, x) (reports tr') ->
  length_of ip (vminus o yo y (recon x)) <= sqrt 2 * length_of ip (vminus o yo y0 (recon x0)) + 6 * (IZR k * (f_tol cf' + K * f_tol cf) + (t - start) * del).
Proof. exact @rom_newton_error_bdf2. Qed.
Print Assumptions C93_error_bdf2.

Theorem C93_error_crank_nicolson :
  forall (eps : R) (X Y Jf Mf Rm Jm J B H L W U J' H' L' W' U' : Type) (no : nlops R X X J H) (ap : J -> X -> X) (apH : H -> X -> X)
    (no' : nlops R Y Y J' H') (ap' : J' -> Y -> Y) (apH' : H' -> Y -> Y),
  let o := Rops eps in let xo := n_vo no in let yo := n_vo no' in let xip := n_dot no in let ip := n_dot no' in
  nl_laws eps no xo ap apH -> nl_laws eps no' yo ap' apH' -> (forall x y, n_rdot no x y = xip x y) -> (forall x y, n_rdot no' x y = ip x y) ->
  forall (jo : vops R J) (jid : J) (jo' : vops R J') (jid' : J'),
  vspace o jo -> matrices xo jo jid ap -> vspace o jo' -> matrices yo jo' jid' ap' ->
  forall (xt : exts X X J H L) (xt' : exts Y Y J' H' L'),
  linear_ok xt (if_solvable (normal_exact apH)) (if_solvable (qr_exact no ap)) (if_solvable (newton_exact ap)) nothing ->
  linear_ok xt' (if_solvable (normal_exact apH')) (if_solvable (qr_exact no' ap')) (if_solvable (newton_exact ap')) nothing ->
  forall cf cf', newton_absolute cf -> newton_absolute cf' -> f_stop cf = WhenAbsResidual -> f_stop cf' = WhenAbsResidual ->
  forall (fapp : Jf -> X -> Y) (recon bapp : X -> Y) (off : Y) (phi : B)
    (fom : sfom (S:=R) (Y:=Y) (R:=Y) (J:=Jf) (B:=B) (W:=W)) f (Df : Y -> R -> J') AB P PJ
    (c : X -> R -> gcmd (Mf:=Mf) (Rm:=Rm) (Jm:=Jm) (M:=unit)),
  smooth_rom eps xo yo yo jo ap fapp recon bapp off phi fom f (fun y t => ap' (Df y t)) AB P PJ c ->
  forall u : isys (S:=R) (V:=Y) (J:=J') (W:=W'), smooth_user u f Df ->
  (forall t y a, ip y (bapp a) = xip (P t y) a) ->
  forall K lip, 0 <= K -> (forall x, length_of ip (bapp x) <= K * length_of xip x) -> 0 <= lip ->
  derivative_of yo ap' ip f Df -> dissipative_derivative ap' ip Df -> lipschitz_derivative yo ap' ip Df lip -> square xo ap -> square yo ap' ->
  forall start y0 x0 tr tr',
  integrated_std U' eps no' xt' cf' jo' jid' u CrankNicolson start y0 tr -> well_begun eps yo ip f cf' lip CrankNicolson tr ->
  integrated_std U eps no xt cf jo jid (rhs_jac_system c) CrankNicolson start x0 tr' -> well_begun eps xo xip (reduced recon f P) cf (lip * K ^ 3) CrankNicolson tr' ->
  same_times tr tr' -> forward_in_time tr -> steps_not_growing tr -> forall t1 s1, In (1%Z, t1, s1) (reports tr) ->
  forall del, (forall k t x, In (k, t, x) (reports tr') -> length_of ip (vminus o yo (f (recon x) t) (bapp (P t (f (recon x) t)))) <= del) ->
  forall k t y x, In (k, t, y) (reports tr) -> In (k, t, x) (reports tr') ->
  length_of ip (vminus o yo y (recon x)) <= length_of ip (vminus o yo (vminus o yo y0 (recon x0)) (vscale yo (1 / 2 * (t1 - start)) (vminus o yo (f y0 start) (f (recon x0) start))))
    + (IZR k * (f_tol cf' + K * f_tol cf) + (t - start) * del).
Proof. exact @rom_newton_error_cn. Qed.
Print Assumptions C93_error_crank_nicolson.

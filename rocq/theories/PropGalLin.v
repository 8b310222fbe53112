(** C83: Galerkin ROMs of linear FOMs integrated with Newton's method. *)
From Coq Require Import Reals ZArith List.
From Verif Require Import Base RInst Laws AdvanceModel AdvanceSpec AdvanceProofs TargetProofs Track ExplicitModel ImplicitModel ImplicitSpec
  LspgModel RomSpec GalerkinModel GalerkinSpec NonlinDiag NonlinModel NonlinSpec NonlinLaws NonlinMoreSpec RomLsSpec StabilitySpec DissipSpec LinRunSpec
  GalLinSpec GalLinClaims.
Import ListNotations.
Local Open Scope R_scope.

(** [num] steps of the ROM of a linear FOM with a new BDF1, BDF2 or Crank-Nicolson stepper: the integration returns normally, and every
    step whose reduced matrix is invertible meets the equation of the scheme for x' = P(t) f(bapp x + off, t) exactly; a sequence that
    meets them all at these times is what is reported. *)
Theorem C83_n_steps :
  forall (eps : R) (X Y Rf Jf Mf Rm Jm J B H L W U : Type) (no : nlops R X X J H) (ap : J -> X -> X) (apH : H -> X -> X),
  let o := Rops eps in let xo := n_vo no in nl_laws eps no xo ap apH ->
  forall (jo : vops R J) (jid : J), vspace o jo -> matrices xo jo jid ap ->
  forall xt : exts X X J H L,
  linear_ok xt (if_solvable (normal_exact apH)) (if_solvable (qr_exact no ap)) (if_solvable (newton_exact ap)) nothing ->
  forall cf, newton_settings cf ->
  forall (yo : vops R Y) (ro : vops R Rf) (fapp : Jf -> X -> Rf) (recon bapp : X -> Y) (off : Y) (phi : B)
    (fom : sfom (S:=R) (Y:=Y) (R:=Rf) (J:=Jf) (B:=B) (W:=W)) f D AB P PJ
    (c : X -> R -> gcmd (Mf:=Mf) (Rm:=Rm) (Jm:=Jm) (M:=unit)), linear_rom eps xo yo ro jo ap fapp recon bapp off phi fom f D AB P PJ c ->
  forall name (obs : Z -> R -> X -> U -> outcome unit * U) cs cr w0 xc ws g0,
  root_object o ws -> implicit_create o name cs cr (mk_ppol (-1) w0) xc ws = Ok g0 ->
  let step := implicit_step o (policy_std o xo jo jid (rhs_jac_system c)) (as_solver (root_solve o no xt cf)) name in
  let regular := fun past t dt => invertible xo ap (step_matrix o jo (fun _ => jid) (fun t => PJ t (AB t)) name past t dt) in
  let scheme := scheme_step o xo (reduced recon f P) name in
  forall pol num start x0 w, (Z.of_nat num < int32_max)%Z ->
  (forall k t x u, fst (obs k t x u) = Ok tt) -> (forall k t d u, exists dt, fst (pol k t d u) = Ok dt) ->
  exists x' g' w' tr l,
    advance_n_steps o (mk_user (split_obs obs) (pol3 (split_pol pol)) noop_guess (split_step (implicit_fn step)))
      (Z.of_nat num) start (x0, (g0, w), []) = (Ok tt, (x', (g', w'), tr)) /\
    length l = Datatypes.S num /\ reports tr = numbered l /\ hd x0 (map snd l) = x' /\
    linked_from Rplus (fun past t dt x => regular past t dt -> scheme past t dt x) start x0 l /\
    (forall m, linked_from Rplus (fun past t dt x => regular past t dt /\ scheme past t dt x) start x0 m ->
       map fst (numbered m) = map fst (reports tr) -> reports tr = numbered m).
Proof. exact gal_n_steps. Qed.
Print Assumptions C83_n_steps.

(** The same for integrations to a target time, which end. *)
Theorem C83_to_target :
  forall (eps : R) (X Y Rf Jf Mf Rm Jm J B H L W U : Type) (no : nlops R X X J H) (ap : J -> X -> X) (apH : H -> X -> X),
  let o := Rops eps in let xo := n_vo no in nl_laws eps no xo ap apH ->
  forall (jo : vops R J) (jid : J), vspace o jo -> matrices xo jo jid ap ->
  forall xt : exts X X J H L,
  linear_ok xt (if_solvable (normal_exact apH)) (if_solvable (qr_exact no ap)) (if_solvable (newton_exact ap)) nothing ->
  forall cf, newton_settings cf ->
  forall (yo : vops R Y) (ro : vops R Rf) (fapp : Jf -> X -> Rf) (recon bapp : X -> Y) (off : Y) (phi : B)
    (fom : sfom (S:=R) (Y:=Y) (R:=Rf) (J:=Jf) (B:=B) (W:=W)) f D AB P PJ
    (c : X -> R -> gcmd (Mf:=Mf) (Rm:=Rm) (Jm:=Jm) (M:=unit)), linear_rom eps xo yo ro jo ap fapp recon bapp off phi fom f D AB P PJ c ->
  forall name (obs : Z -> R -> X -> U -> outcome unit * U) cs cr w0 xc ws g0,
  root_object o ws -> implicit_create o name cs cr (mk_ppol (-1) w0) xc ws = Ok g0 ->
  let step := implicit_step o (policy_std o xo jo jid (rhs_jac_system c)) (as_solver (root_solve o no xt cf)) name in
  let regular := fun past t dt => invertible xo ap (step_matrix o jo (fun _ => jid) (fun t => PJ t (AB t)) name past t dt) in
  let scheme := scheme_step o xo (reduced recon f P) name in
  forall pol recovery h n fuel start final x0 w,
  0 <= eps -> (forall k t x u, fst (obs k t x u) = Ok tt) ->
  (forall k t x u, exists dt m c, fst (pol k t x u) = Ok (dt, m, c) /\ h <= dt /\ m <= dt /\ (recovery = true -> 1 < c)) ->
  start < final -> final - start <= INR n * h -> (n < fuel)%nat -> (Z.of_nat n < int32_max)%Z ->
  exists x' g' w' tr l,
    to_target o (mk_user (split_obs obs) (split_pol pol) noop_guess (split_step (implicit_fn step))) recovery fuel
      start final (x0, (g0, w), []) = (Ok tt, (x', (g', w'), tr)) /\
    reports tr = numbered l /\ hd x0 (map snd l) = x' /\
    linked_from Rplus (fun past t dt x => regular past t dt -> scheme past t dt x) start x0 l /\
    (forall m, linked_from Rplus (fun past t dt x => regular past t dt /\ scheme past t dt x) start x0 m ->
       map fst (numbered m) = map fst (reports tr) -> reports tr = numbered m).
Proof. exact gal_to_target. Qed.
Print Assumptions C83_to_target.

(** If P(t) is a left inverse of the basis (an orthonormal basis with phi^T; the oblique projections of hyper-reduction), reduced states
    whose reconstructions obey the FOM's own scheme are what the ROM reports (Crank-Nicolson: if P does not depend on the time). *)
Theorem C83_exact :
  forall (eps : R) (X Y Jf Mf Rm Jm J B H L W U : Type) (no : nlops R X X J H) (ap : J -> X -> X) (apH : H -> X -> X),
  let o := Rops eps in let xo := n_vo no in nl_laws eps no xo ap apH ->
  forall (jo : vops R J) (jid : J), vspace o jo -> matrices xo jo jid ap ->
  forall xt : exts X X J H L,
  linear_ok xt (if_solvable (normal_exact apH)) (if_solvable (qr_exact no ap)) (if_solvable (newton_exact ap)) nothing ->
  forall cf, newton_settings cf ->
  forall (yo : vops R Y) (fapp : Jf -> X -> Y) (recon bapp : X -> Y) (off : Y) (phi : B)
    (fom : sfom (S:=R) (Y:=Y) (R:=Y) (J:=Jf) (B:=B) (W:=W)) f D AB P PJ
    (c : X -> R -> gcmd (Mf:=Mf) (Rm:=Rm) (Jm:=Jm) (M:=unit)), linear_rom eps xo yo yo jo ap fapp recon bapp off phi fom f D AB P PJ c ->
  (forall t x, P t (bapp x) = x) ->
  forall name start x0 tr, name = BDF1 \/ name = BDF2 \/ name = CrankNicolson /\ (forall t t' y, P t y = P t' y) ->
  integrated_std U eps no xt cf jo jid (rhs_jac_system c) name start x0 tr ->
  let regular := fun past t dt => invertible xo ap (step_matrix o jo (fun _ => jid) (fun t => PJ t (AB t)) name past t dt) in
  forall m, linked_from Rplus (fun past t dt x => regular past t dt /\ scheme_step o yo f name (map recon past) t dt (recon x)) start x0 m ->
  map fst (numbered m) = map fst (reports tr) -> reports tr = numbered m.
Proof. exact gal_exact. Qed.
Print Assumptions C83_exact.

(** If the FOM is dissipative and P(t) is the adjoint of the basis, as for the default ROM with any basis, every step forward in time
    meets its equation, however large ... *)
Theorem C83_dissipative :
  forall (eps : R) (X Y Jf Mf Rm Jm J B H L W U : Type) (no : nlops R X X J H) (ap : J -> X -> X) (apH : H -> X -> X),
  let o := Rops eps in let xo := n_vo no in nl_laws eps no xo ap apH ->
  forall (jo : vops R J) (jid : J), vspace o jo -> matrices xo jo jid ap ->
  forall xt : exts X X J H L,
  linear_ok xt (if_solvable (normal_exact apH)) (if_solvable (qr_exact no ap)) (if_solvable (newton_exact ap)) nothing ->
  forall cf, newton_settings cf ->
  forall (yo : vops R Y) (fapp : Jf -> X -> Y) (recon bapp : X -> Y) (off : Y) (phi : B)
    (fom : sfom (S:=R) (Y:=Y) (R:=Y) (J:=Jf) (B:=B) (W:=W)) f D AB P PJ
    (c : X -> R -> gcmd (Mf:=Mf) (Rm:=Rm) (Jm:=Jm) (M:=unit)), linear_rom eps xo yo yo jo ap fapp recon bapp off phi fom f D AB P PJ c ->
  forall ip xip, DissipSpec.inner yo ip -> DissipSpec.inner xo xip -> definite xo xip -> square xo ap ->
  (forall t y a, ip y (bapp a) = xip (P t y) a) -> dissipative eps yo ip f ->
  forall name start x0 tr, integrated_std U eps no xt cf jo jid (rhs_jac_system c) name start x0 tr ->
  exists l, reports tr = numbered l /\
    linked_from Rplus (fun past t dt x => 0 <= dt -> scheme_step o xo (reduced recon f P) name past t dt x) start x0 l.
Proof. exact gal_dissipative. Qed.
Print Assumptions C83_dissipative.

(** ... two integrations from different states, with the same times, do not move apart, whatever the sizes of the steps ... *)
Theorem C83_stable_bdf1 :
  forall (eps : R) (X Y Jf Mf Rm Jm J B H L W U L' U' : Type) (no : nlops R X X J H) (ap : J -> X -> X) (apH : H -> X -> X),
  let o := Rops eps in let xo := n_vo no in nl_laws eps no xo ap apH ->
  forall (jo : vops R J) (jid : J), vspace o jo -> matrices xo jo jid ap ->
  forall (xt : exts X X J H L) (xt' : exts X X J H L'),
  linear_ok xt (if_solvable (normal_exact apH)) (if_solvable (qr_exact no ap)) (if_solvable (newton_exact ap)) nothing ->
  linear_ok xt' (if_solvable (normal_exact apH)) (if_solvable (qr_exact no ap)) (if_solvable (newton_exact ap)) nothing ->
  forall cf cf', newton_settings cf -> newton_settings cf' ->
  forall (yo : vops R Y) (fapp : Jf -> X -> Y) (recon bapp : X -> Y) (off : Y) (phi : B)
    (fom : sfom (S:=R) (Y:=Y) (R:=Y) (J:=Jf) (B:=B) (W:=W)) f D AB P PJ
    (c : X -> R -> gcmd (Mf:=Mf) (Rm:=Rm) (Jm:=Jm) (M:=unit)), linear_rom eps xo yo yo jo ap fapp recon bapp off phi fom f D AB P PJ c ->
  forall ip xip, DissipSpec.inner yo ip -> DissipSpec.inner xo xip -> definite xo xip -> square xo ap ->
  (forall t y a, ip y (bapp a) = xip (P t y) a) -> dissipative eps yo ip f ->
  forall start start' x0 x0' tr tr',
  integrated_std U eps no xt cf jo jid (rhs_jac_system c) BDF1 start x0 tr -> integrated_std U' eps no xt' cf' jo jid (rhs_jac_system c) BDF1 start' x0' tr' ->
  same_times tr tr' -> forward_in_time tr ->
  apart eps xo xip (fun k => length_of xip (vminus o xo x0 x0')) tr tr'.
Proof. exact gal_stable_bdf1. Qed.
Print Assumptions C83_stable_bdf1.

Theorem C83_stable_bdf2 :
  forall (eps : R) (X Y Jf Mf Rm Jm J B H L W U L' U' : Type) (no : nlops R X X J H) (ap : J -> X -> X) (apH : H -> X -> X),
  let o := Rops eps in let xo := n_vo no in nl_laws eps no xo ap apH ->
  forall (jo : vops R J) (jid : J), vspace o jo -> matrices xo jo jid ap ->
  forall (xt : exts X X J H L) (xt' : exts X X J H L'),
  linear_ok xt (if_solvable (normal_exact apH)) (if_solvable (qr_exact no ap)) (if_solvable (newton_exact ap)) nothing ->
  linear_ok xt' (if_solvable (normal_exact apH)) (if_solvable (qr_exact no ap)) (if_solvable (newton_exact ap)) nothing ->
  forall cf cf', newton_settings cf -> newton_settings cf' ->
  forall (yo : vops R Y) (fapp : Jf -> X -> Y) (recon bapp : X -> Y) (off : Y) (phi : B)
    (fom : sfom (S:=R) (Y:=Y) (R:=Y) (J:=Jf) (B:=B) (W:=W)) f D AB P PJ
    (c : X -> R -> gcmd (Mf:=Mf) (Rm:=Rm) (Jm:=Jm) (M:=unit)), linear_rom eps xo yo yo jo ap fapp recon bapp off phi fom f D AB P PJ c ->
  forall ip xip, DissipSpec.inner yo ip -> DissipSpec.inner xo xip -> definite xo xip -> square xo ap ->
  (forall t y a, ip y (bapp a) = xip (P t y) a) -> dissipative eps yo ip f ->
  forall start start' x0 x0' tr tr',
  integrated_std U eps no xt cf jo jid (rhs_jac_system c) BDF2 start x0 tr -> integrated_std U' eps no xt' cf' jo jid (rhs_jac_system c) BDF2 start' x0' tr' ->
  same_times tr tr' -> forward_in_time tr ->
  apart eps xo xip (fun k => sqrt 2 * length_of xip (vminus o xo x0 x0')) tr tr'.
Proof. exact gal_stable_bdf2. Qed.
Print Assumptions C83_stable_bdf2.

Theorem C83_stable_crank_nicolson :
  forall (eps : R) (X Y Jf Mf Rm Jm J B H L W U L' U' : Type) (no : nlops R X X J H) (ap : J -> X -> X) (apH : H -> X -> X),
  let o := Rops eps in let xo := n_vo no in nl_laws eps no xo ap apH ->
  forall (jo : vops R J) (jid : J), vspace o jo -> matrices xo jo jid ap ->
  forall (xt : exts X X J H L) (xt' : exts X X J H L'),
  linear_ok xt (if_solvable (normal_exact apH)) (if_solvable (qr_exact no ap)) (if_solvable (newton_exact ap)) nothing ->
  linear_ok xt' (if_solvable (normal_exact apH)) (if_solvable (qr_exact no ap)) (if_solvable (newton_exact ap)) nothing ->
  forall cf cf', newton_settings cf -> newton_settings cf' ->
  forall (yo : vops R Y) (fapp : Jf -> X -> Y) (recon bapp : X -> Y) (off : Y) (phi : B)
    (fom : sfom (S:=R) (Y:=Y) (R:=Y) (J:=Jf) (B:=B) (W:=W)) f D AB P PJ
    (c : X -> R -> gcmd (Mf:=Mf) (Rm:=Rm) (Jm:=Jm) (M:=unit)), linear_rom eps xo yo yo jo ap fapp recon bapp off phi fom f D AB P PJ c ->
  forall ip xip, DissipSpec.inner yo ip -> DissipSpec.inner xo xip -> definite xo xip -> square xo ap ->
  (forall t y a, ip y (bapp a) = xip (P t y) a) -> dissipative eps yo ip f ->
  forall start start' x0 x0' tr tr',
  integrated_std U eps no xt cf jo jid (rhs_jac_system c) CrankNicolson start x0 tr -> integrated_std U' eps no xt' cf' jo jid (rhs_jac_system c) CrankNicolson start' x0' tr' ->
  same_times tr tr' -> forward_in_time tr -> steps_not_growing tr ->
  let F := reduced recon f P in forall t1 s1, In (1%Z, t1, s1) (reports tr) ->
  apart eps xo xip (fun k => length_of xip (vminus o xo (vminus o xo x0 x0') (vscale xo (1 / 2 * (t1 - start)) (vminus o xo (F x0 start) (F x0' start))))) tr tr'.
Proof. exact gal_stable_crank_nicolson. Qed.
Print Assumptions C83_stable_crank_nicolson.

(** ... and the error of the ROM against the FOM's own integration grows at most linearly in time; [del]: what the basis misses of the FOM's
    velocities at the states the ROM reports. *)
Theorem C83_error_bdf1 :
  forall (eps : R) (X Y Jf Mf Rm Jm J B H L W U J' H' L' W' U' : Type) (no : nlops R X X J H) (ap : J -> X -> X) (apH : H -> X -> X)
    (no' : nlops R Y Y J' H') (ap' : J' -> Y -> Y) (apH' : H' -> Y -> Y),
  let o := Rops eps in let xo := n_vo no in let yo := n_vo no' in nl_laws eps no xo ap apH -> nl_laws eps no' yo ap' apH' ->
  forall (jo : vops R J) (jid : J) (jo' : vops R J') (jid' : J'),
  vspace o jo -> matrices xo jo jid ap -> vspace o jo' -> matrices yo jo' jid' ap' ->
  forall (xt : exts X X J H L) (xt' : exts Y Y J' H' L'),
  linear_ok xt (if_solvable (normal_exact apH)) (if_solvable (qr_exact no ap)) (if_solvable (newton_exact ap)) nothing ->
  linear_ok xt' (if_solvable (normal_exact apH')) (if_solvable (qr_exact no' ap')) (if_solvable (newton_exact ap')) nothing ->
  forall cf cf', newton_settings cf -> newton_settings cf' ->
  forall (fapp : Jf -> X -> Y) (recon bapp : X -> Y) (off : Y) (phi : B)
    (fom : sfom (S:=R) (Y:=Y) (R:=Y) (J:=Jf) (B:=B) (W:=W)) (A' : R -> J') (b' : R -> Y) D AB P PJ
    (c : X -> R -> gcmd (Mf:=Mf) (Rm:=Rm) (Jm:=Jm) (M:=unit)), let f := linear_rhs yo ap' A' b' in
  linear_rom eps xo yo yo jo ap fapp recon bapp off phi fom f D AB P PJ c ->
  forall u : isys (S:=R) (V:=Y) (J:=J') (W:=W'), linear_user yo ap' u A' b' ->
  forall ip xip, DissipSpec.inner yo ip -> DissipSpec.inner xo xip -> definite yo ip -> definite xo xip -> square yo ap' -> square xo ap ->
  (forall t y a, ip y (bapp a) = xip (P t y) a) -> dissipative eps yo ip f ->
  forall start y0 x0 tr tr',
  integrated_std U' eps no' xt' cf' jo' jid' u BDF1 start y0 tr -> integrated_std U eps no xt cf jo jid (rhs_jac_system c) BDF1 start x0 tr' ->
  same_times tr tr' -> forward_in_time tr ->
  forall del, (forall k t x, In (k, t, x) (reports tr') -> length_of ip (vminus o yo (f (recon x) t) (bapp (P t (f (recon x) t)))) <= del) ->
  forall k t y x, In (k, t, y) (reports tr) -> In (k, t, x) (reports tr') ->
  length_of ip (vminus o yo y (recon x)) <= length_of ip (vminus o yo y0 (recon x0)) + (t - start) * del.
Proof. exact gal_error_bdf1. Qed.
Print Assumptions C83_error_bdf1.

Theorem C83_error_bdf2 :
  forall (eps : R) (X Y Jf Mf Rm Jm J B H L W U J' H' L' W' U' : Type) (no : nlops R X X J H) (ap : J -> X -> X) (apH : H -> X -> X)
    (no' : nlops R Y Y J' H') (ap' : J' -> Y -> Y) (apH' : H' -> Y -> Y),
  let o := Rops eps in let xo := n_vo no in let yo := n_vo no' in nl_laws eps no xo ap apH -> nl_laws eps no' yo ap' apH' ->
  forall (jo : vops R J) (jid : J) (jo' : vops R J') (jid' : J'),
  vspace o jo -> matrices xo jo jid ap -> vspace o jo' -> matrices yo jo' jid' ap' ->
  forall (xt : exts X X J H L) (xt' : exts Y Y J' H' L'),
  linear_ok xt (if_solvable (normal_exact apH)) (if_solvable (qr_exact no ap)) (if_solvable (newton_exact ap)) nothing ->
  linear_ok xt' (if_solvable (normal_exact apH')) (if_solvable (qr_exact no' ap')) (if_solvable (newton_exact ap')) nothing ->
  forall cf cf', newton_settings cf -> newton_settings cf' ->
  forall (fapp : Jf -> X -> Y) (recon bapp : X -> Y) (off : Y) (phi : B)
    (fom : sfom (S:=R) (Y:=Y) (R:=Y) (J:=Jf) (B:=B) (W:=W)) (A' : R -> J') (b' : R -> Y) D AB P PJ
    (c : X -> R -> gcmd (Mf:=Mf) (Rm:=Rm) (Jm:=Jm) (M:=unit)), let f := linear_rhs yo ap' A' b' in
  linear_rom eps xo yo yo jo ap fapp recon bapp off phi fom f D AB P PJ c ->
  forall u : isys (S:=R) (V:=Y) (J:=J') (W:=W'), linear_user yo ap' u A' b' ->
  forall ip xip, DissipSpec.inner yo ip -> DissipSpec.inner xo xip -> definite yo ip -> definite xo xip -> square yo ap' -> square xo ap ->
  (forall t y a, ip y (bapp a) = xip (P t y) a) -> dissipative eps yo ip f ->
  forall start y0 x0 tr tr',
  integrated_std U' eps no' xt' cf' jo' jid' u BDF2 start y0 tr -> integrated_std U eps no xt cf jo jid (rhs_jac_system c) BDF2 start x0 tr' ->
  same_times tr tr' -> forward_in_time tr ->
  forall del, (forall k t x, In (k, t, x) (reports tr') -> length_of ip (vminus o yo (f (recon x) t) (bapp (P t (f (recon x) t)))) <= del) ->
  forall k t y x, In (k, t, y) (reports tr) -> In (k, t, x) (reports tr') ->
  length_of ip (vminus o yo y (recon x)) <= sqrt 2 * length_of ip (vminus o yo y0 (recon x0)) + 6 * ((t - start) * del).
Proof. exact gal_error_bdf2. Qed.
Print Assumptions C83_error_bdf2.

Theorem C83_error_crank_nicolson :
  forall (eps : R) (X Y Jf Mf Rm Jm J B H L W U J' H' L' W' U' : Type) (no : nlops R X X J H) (ap : J -> X -> X) (apH : H -> X -> X)
    (no' : nlops R Y Y J' H') (ap' : J' -> Y -> Y) (apH' : H' -> Y -> Y),
  let o := Rops eps in let xo := n_vo no in let yo := n_vo no' in nl_laws eps no xo ap apH -> nl_laws eps no' yo ap' apH' ->
  forall (jo : vops R J) (jid : J) (jo' : vops R J') (jid' : J'),
  vspace o jo -> matrices xo jo jid ap -> vspace o jo' -> matrices yo jo' jid' ap' ->
  forall (xt : exts X X J H L) (xt' : exts Y Y J' H' L'),
  linear_ok xt (if_solvable (normal_exact apH)) (if_solvable (qr_exact no ap)) (if_solvable (newton_exact ap)) nothing ->
  linear_ok xt' (if_solvable (normal_exact apH')) (if_solvable (qr_exact no' ap')) (if_solvable (newton_exact ap')) nothing ->
  forall cf cf', newton_settings cf -> newton_settings cf' ->
  forall (fapp : Jf -> X -> Y) (recon bapp : X -> Y) (off : Y) (phi : B)
    (fom : sfom (S:=R) (Y:=Y) (R:=Y) (J:=Jf) (B:=B) (W:=W)) (A' : R -> J') (b' : R -> Y) D AB P PJ
    (c : X -> R -> gcmd (Mf:=Mf) (Rm:=Rm) (Jm:=Jm) (M:=unit)), let f := linear_rhs yo ap' A' b' in
  linear_rom eps xo yo yo jo ap fapp recon bapp off phi fom f D AB P PJ c ->
  forall u : isys (S:=R) (V:=Y) (J:=J') (W:=W'), linear_user yo ap' u A' b' ->
  forall ip xip, DissipSpec.inner yo ip -> DissipSpec.inner xo xip -> definite yo ip -> definite xo xip -> square yo ap' -> square xo ap ->
  (forall t y a, ip y (bapp a) = xip (P t y) a) -> dissipative eps yo ip f ->
  forall start y0 x0 tr tr',
  integrated_std U' eps no' xt' cf' jo' jid' u CrankNicolson start y0 tr -> integrated_std U eps no xt cf jo jid (rhs_jac_system c) CrankNicolson start x0 tr' ->
  same_times tr tr' -> forward_in_time tr -> steps_not_growing tr -> forall t1 s1, In (1%Z, t1, s1) (reports tr) ->
  forall del, (forall k t x, In (k, t, x) (reports tr') -> length_of ip (vminus o yo (f (recon x) t) (bapp (P t (f (recon x) t)))) <= del) ->
  forall k t y x, In (k, t, y) (reports tr) -> In (k, t, x) (reports tr') ->
  length_of ip (vminus o yo y (recon x)) <= length_of ip (vminus o yo (vminus o yo y0 (recon x0)) (vscale yo (1 / 2 * (t1 - start)) (vminus o yo (f y0 start) (f (recon x0) start))))
  + (t - start) * del.
Proof. exact gal_error_crank_nicolson. Qed.
Print Assumptions C83_error_crank_nicolson.

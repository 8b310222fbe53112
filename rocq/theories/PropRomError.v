(** C78: how far a Galerkin ROM can be from its FOM. *)
From Coq Require Import ZArith List Reals.
From Verif Require Import Base RInst Laws AdvanceModel AdvanceSpec ExplicitModel ExplicitSpec ImplicitModel ImplicitSpec LspgModel RomSpec
  GalerkinModel GalerkinSpec StabilitySpec DissipSpec RomErrorClaims.
Import ListNotations.
Local Open Scope R_scope.

(** [del] bounds how much of the FOM's velocity at the ROM's states is lost by the projection.
    ROM and FOM are stepped by steppers of their own, with any histories and any steps. *)
Theorem C78_one_step_schemes :
  forall (X Y Jf Mf Rm Jm J B W W' M' : Type) (eps0 : R) (xo : vops R X) (yo : vops R Y), let o := Rops eps0 in
  vspace o xo -> vspace o yo ->
  forall (recon bapp : X -> Y) (off : Y) (phi : B), linear xo yo bapp -> (forall x, recon x = vadd yo (bapp x) off) ->
  forall (fom : sfom (S:=R) (Y:=Y) (R:=Y) (J:=Jf) (B:=B) (W:=W)) f (good : W -> Prop), fom_rhs true good fom f ->
  forall norm L, normed yo norm -> lipschitz eps0 yo norm L f ->
  forall obs, (forall k i t v w, good w -> exists w', obs k i t v w = (Ok tt, w') /\ good w') ->
  forall P c, galerkin_rhs true good o xo recon phi fom P c ->
  forall del, (forall x t, dist eps0 yo norm (f (recon x) t) (bapp (P t (f (recon x) t))) <= del) ->
  forall (v : @esys R Y M' W') good', computes v good' f ->
  let rom := rhs_system (Jf:=Jf) (Mf:=Mf) (Rm:=Rm) (Jm:=Jm) (J:=J) c obs in
  forall name tab k, tab_of o name = Some tab -> explicit_num_bufs name = Ok k ->
  forall g g', used k (explicit_step o xo rom name) g -> used k (explicit_step o yo v name) g' ->
  good (b_w (x_w g)) -> good' (x_w g') ->
  forall ts hs n, (forall k, 0 <= hs k) -> exists gn gn',
    drive (explicit_step o xo rom name) ts hs n g = (Ok tt, gn) /\
    drive (explicit_step o yo v name) ts hs n g' = (Ok tt, gn') /\
    dist eps0 yo norm (x_y gn') (recon (x_y gn)) <=
    exp (L * elapsed hs n) * (dist eps0 yo norm (x_y g') (recon (x_y g)) + elapsed hs n * del).
Proof. exact one_step. Qed.
Print Assumptions C78_one_step_schemes.

Theorem C78_adams_bashforth :
  forall (X Y Jf Mf Rm Jm J B W W' M' : Type) (eps0 : R) (xo : vops R X) (yo : vops R Y), let o := Rops eps0 in
  vspace o xo -> vspace o yo ->
  forall (recon bapp : X -> Y) (off : Y) (phi : B), linear xo yo bapp -> (forall x, recon x = vadd yo (bapp x) off) ->
  forall (fom : sfom (S:=R) (Y:=Y) (R:=Y) (J:=Jf) (B:=B) (W:=W)) f (good : W -> Prop), fom_rhs true good fom f ->
  forall norm L, normed yo norm -> lipschitz eps0 yo norm L f ->
  forall obs, (forall k i t v w, good w -> exists w', obs k i t v w = (Ok tt, w') /\ good w') ->
  forall P c, galerkin_rhs true good o xo recon phi fom P c ->
  forall del, (forall x t, dist eps0 yo norm (f (recon x) t) (bapp (P t (f (recon x) t))) <= del) ->
  forall (v : @esys R Y M' W') good', computes v good' f ->
  let rom := rhs_system (Jf:=Jf) (Mf:=Mf) (Rm:=Rm) (Jm:=Jm) (J:=J) c obs in
  forall g g', used 2 (explicit_step o xo rom AdamsBashforth2) g -> used 2 (explicit_step o yo v AdamsBashforth2) g' ->
  good (b_w (x_w g)) -> good' (x_w g') ->
  forall ts hs n, (forall k, 0 <= hs k) -> exists gn gn',
    drive (explicit_step o xo rom AdamsBashforth2) ts hs n g = (Ok tt, gn) /\
    drive (explicit_step o yo v AdamsBashforth2) ts hs n g' = (Ok tt, gn') /\
    dist eps0 yo norm (x_y gn') (recon (x_y gn)) <=
    exp (2 * L * elapsed hs n) * (dist eps0 yo norm (x_y g') (recon (x_y g)) + 2 * (elapsed hs n * del)).
Proof. exact ab2. Qed.
Print Assumptions C78_adams_bashforth.

(** Forward Euler: only what is lost at the states the ROM visits counts. [xs k]: its state after k steps. *)
Theorem C78_forward_euler_a_posteriori :
  forall (X Y Jf Mf Rm Jm J B W W' M' : Type) (eps0 : R) (xo : vops R X) (yo : vops R Y), let o := Rops eps0 in
  vspace o xo -> vspace o yo ->
  forall (recon bapp : X -> Y) (off : Y) (phi : B), linear xo yo bapp -> (forall x, recon x = vadd yo (bapp x) off) ->
  forall (fom : sfom (S:=R) (Y:=Y) (R:=Y) (J:=Jf) (B:=B) (W:=W)) f (good : W -> Prop), fom_rhs true good fom f ->
  forall norm L, normed yo norm -> lipschitz eps0 yo norm L f ->
  forall obs, (forall k i t v w, good w -> exists w', obs k i t v w = (Ok tt, w') /\ good w') ->
  forall P c, galerkin_rhs true good o xo recon phi fom P c ->
  forall (v : @esys R Y M' W') good', computes v good' f ->
  let rom := rhs_system (Jf:=Jf) (Mf:=Mf) (Rm:=Rm) (Jm:=Jm) (J:=J) c obs in
  forall g g', used 1 (explicit_step o xo rom ForwardEuler) g -> used 1 (explicit_step o yo v ForwardEuler) g' ->
  good (b_w (x_w g)) -> good' (x_w g') ->
  forall ts hs, (forall k, 0 <= hs k) -> exists xs, forall n, exists gn gn',
    drive (explicit_step o xo rom ForwardEuler) ts hs n g = (Ok tt, gn) /\
    drive (explicit_step o yo v ForwardEuler) ts hs n g' = (Ok tt, gn') /\
    xs n = x_y gn /\
    dist eps0 yo norm (x_y gn') (recon (x_y gn)) <=
    exp (L * elapsed hs n) * (dist eps0 yo norm (x_y g') (recon (x_y g)) +
      elapsed (fun k => hs k * dist eps0 yo norm (f (recon (xs k)) (ts k)) (bapp (P (ts k) (f (recon (xs k)) (ts k))))) n).
Proof. exact euler. Qed.
Print Assumptions C78_forward_euler_a_posteriori.

(** Default Galerkin with an orthonormal basis: [del] may be any distance within which the trial
    space approximates the FOM's velocities, by whatever vectors. *)
Theorem C78_orthonormal_basis :
  forall (X Y Jf Mf Rm Jm J B W W' M' : Type) (eps0 : R) (xo : vops R X) (yo : vops R Y), let o := Rops eps0 in
  vspace o xo -> vspace o yo ->
  forall (recon bapp : X -> Y) (off : Y) (phi : B), linear xo yo bapp -> (forall x, recon x = vadd yo (bapp x) off) ->
  forall (fom : sfom (S:=R) (Y:=Y) (R:=Y) (J:=Jf) (B:=B) (W:=W)) f (good : W -> Prop), fom_rhs true good fom f ->
  forall ip xip L, inner yo ip -> lipschitz eps0 yo (length_of ip) L f ->
  forall obs, (forall k i t v w, good w -> exists w', obs k i t v w = (Ok tt, w') /\ good w') ->
  forall prodv T, product_is xo prodv phi T ->
  (forall y a, ip y (bapp a) = xip (T y) a) -> (forall a b, ip (bapp a) (bapp b) = xip a b) ->
  forall del, (forall x t, exists a, dist eps0 yo (length_of ip) (f (recon x) t) (bapp a) <= del) ->
  forall (v : @esys R Y M' W') good', computes v good' f ->
  let rom := rhs_system (Jf:=Jf) (Mf:=Mf) (Rm:=Rm) (Jm:=Jm) (J:=J) (default_rhs o recon phi prodv fom) obs in
  forall name tab k, tab_of o name = Some tab -> explicit_num_bufs name = Ok k ->
  forall g g', used k (explicit_step o xo rom name) g -> used k (explicit_step o yo v name) g' ->
  good (b_w (x_w g)) -> good' (x_w g') ->
  forall ts hs n, (forall k, 0 <= hs k) -> exists gn gn',
    drive (explicit_step o xo rom name) ts hs n g = (Ok tt, gn) /\
    drive (explicit_step o yo v name) ts hs n g' = (Ok tt, gn') /\
    dist eps0 yo (length_of ip) (x_y gn') (recon (x_y gn)) <=
    exp (L * elapsed hs n) * (dist eps0 yo (length_of ip) (x_y g') (recon (x_y g)) + elapsed hs n * del).
Proof. exact orthonormal. Qed.
Print Assumptions C78_orthonormal_basis.

(** With mass matrices: [vel] is M^-1 f, [d] the ROM's velocity. *)
Theorem C78_mass_matrix :
  forall (X Y Jf Mf Rm Jm J B W W' M' : Type) (eps0 : R) (xo : vops R X) (yo : vops R Y) (jo : vops R J), let o := Rops eps0 in
  vspace o xo -> vspace o yo -> vspace o jo ->
  forall (recon bapp : X -> Y) (off : Y) (phi : B), linear xo yo bapp -> (forall x, recon x = vadd yo (bapp x) off) ->
  forall (fom : sfom (S:=R) (Y:=Y) (R:=Y) (J:=Jf) (B:=B) (W:=W)) f (good : W -> Prop) mass (dm : Y -> B -> R -> Mf),
  fom_rhs true good fom f -> fom_mass true good mass dm ->
  forall obs, (forall k i t v w, good w -> exists w', obs k i t v w = (Ok tt, w') /\ good w') ->
  forall prodv prodm T (TM : Mf -> J), product_is xo prodv phi T -> product_is jo prodm phi TM ->
  forall solve (apply : J -> X -> X),
  (forall x t old w, good w -> exists s w',
     solve (TM (dm (recon x) phi t)) old (T (f (recon x) t)) w = (Ok tt, (s, w')) /\
     apply (TM (dm (recon x) phi t)) s = T (f (recon x) t) /\ good w') ->
  (forall x t z z', apply (TM (dm (recon x) phi t)) z = apply (TM (dm (recon x) phi t)) z' -> z = z') ->
  forall (v : @esys R Y M' W') good' apply' mass', computes_mm v good' apply' mass' f ->
  (forall y t z z', apply' (mass' y t) z = apply' (mass' y t) z' -> z = z') ->
  forall vel, (forall y t, apply' (mass' y t) (vel y t) = f y t) ->
  forall (d : X -> R -> X), (forall x t, apply (TM (dm (recon x) phi t)) (d x t) = T (f (recon x) t)) ->
  forall norm L, normed yo norm -> lipschitz eps0 yo norm L vel ->
  forall del, (forall x t, dist eps0 yo norm (vel (recon x) t) (bapp (d x t)) <= del) ->
  let rom := mass_rhs_system (Jf:=Jf) (Rm:=Rm) (Jm:=Jm) (default_mass_rhs o recon phi prodv prodm fom mass) solve obs in
  forall name tab k, tab_of o name = Some tab -> explicit_num_bufs_mm name = Ok k ->
  forall g g', used k (explicit_step_mm o xo rom name) g -> used k (explicit_step_mm o yo v name) g' ->
  good (b_w (x_w g)) -> good' (x_w g') ->
  forall ts hs n, (forall k, 0 <= hs k) -> exists gn gn',
    drive (explicit_step_mm o xo rom name) ts hs n g = (Ok tt, gn) /\
    drive (explicit_step_mm o yo v name) ts hs n g' = (Ok tt, gn') /\
    dist eps0 yo norm (x_y gn') (recon (x_y gn)) <=
    exp (L * elapsed hs n) * (dist eps0 yo norm (x_y g') (recon (x_y g)) + elapsed hs n * del).
Proof. exact mass. Qed.
Print Assumptions C78_mass_matrix.

Theorem C78_mass_matrix_adams_bashforth :
  forall (X Y Jf Mf Rm Jm J B W W' M' : Type) (eps0 : R) (xo : vops R X) (yo : vops R Y) (jo : vops R J), let o := Rops eps0 in
  vspace o xo -> vspace o yo -> vspace o jo ->
  forall (recon bapp : X -> Y) (off : Y) (phi : B), linear xo yo bapp -> (forall x, recon x = vadd yo (bapp x) off) ->
  forall (fom : sfom (S:=R) (Y:=Y) (R:=Y) (J:=Jf) (B:=B) (W:=W)) f (good : W -> Prop) mass (dm : Y -> B -> R -> Mf),
  fom_rhs true good fom f -> fom_mass true good mass dm ->
  forall obs, (forall k i t v w, good w -> exists w', obs k i t v w = (Ok tt, w') /\ good w') ->
  forall prodv prodm T (TM : Mf -> J), product_is xo prodv phi T -> product_is jo prodm phi TM ->
  forall solve (apply : J -> X -> X),
  (forall x t old w, good w -> exists s w',
     solve (TM (dm (recon x) phi t)) old (T (f (recon x) t)) w = (Ok tt, (s, w')) /\
     apply (TM (dm (recon x) phi t)) s = T (f (recon x) t) /\ good w') ->
  (forall x t z z', apply (TM (dm (recon x) phi t)) z = apply (TM (dm (recon x) phi t)) z' -> z = z') ->
  forall (v : @esys R Y M' W') good' apply' mass', computes_mm v good' apply' mass' f ->
  (forall y t z z', apply' (mass' y t) z = apply' (mass' y t) z' -> z = z') ->
  forall vel, (forall y t, apply' (mass' y t) (vel y t) = f y t) ->
  forall (d : X -> R -> X), (forall x t, apply (TM (dm (recon x) phi t)) (d x t) = T (f (recon x) t)) ->
  forall norm L, normed yo norm -> lipschitz eps0 yo norm L vel ->
  forall del, (forall x t, dist eps0 yo norm (vel (recon x) t) (bapp (d x t)) <= del) ->
  let rom := mass_rhs_system (Jf:=Jf) (Rm:=Rm) (Jm:=Jm) (default_mass_rhs o recon phi prodv prodm fom mass) solve obs in
  forall g g', used 2 (explicit_step_mm o xo rom AdamsBashforth2) g -> used 2 (explicit_step_mm o yo v AdamsBashforth2) g' ->
  good (b_w (x_w g)) -> good' (x_w g') ->
  forall ts hs n, (forall k, 0 <= hs k) -> exists gn gn',
    drive (explicit_step_mm o xo rom AdamsBashforth2) ts hs n g = (Ok tt, gn) /\
    drive (explicit_step_mm o yo v AdamsBashforth2) ts hs n g' = (Ok tt, gn') /\
    dist eps0 yo norm (x_y gn') (recon (x_y gn)) <=
    exp (2 * L * elapsed hs n) * (dist eps0 yo norm (x_y g') (recon (x_y g)) + 2 * (elapsed hs n * del)).
Proof. exact mass_ab2. Qed.
Print Assumptions C78_mass_matrix_adams_bashforth.

(** Implicit schemes, FOM dissipative: the error grows at most linearly in time, whatever the Lipschitz
    constant. [tol], [tol']: what the solvers accept; K = 1 for an orthonormal basis. *)
Theorem C78_bdf1 :
  forall (X Y Jf Mf Rm Jm J B W J' W' Ws Ws' U U' : Type) (eps0 : R) (xo : vops R X) (yo : vops R Y) (jo : vops R J) (jo' : vops R J')
    (jid : J) (jid' : J'), let o := Rops eps0 in vspace o xo -> vspace o yo -> vspace o jo -> vspace o jo' ->
  forall (recon bapp : X -> Y) (off : Y) (phi : B), linear xo yo bapp -> (forall x, recon x = vadd yo (bapp x) off) ->
  forall ip xip K, inner yo ip -> 0 <= K -> (forall a, length_of ip (bapp a) <= K * length_of xip a) ->
  forall (fom : sfom (S:=R) (Y:=Y) (R:=Y) (J:=Jf) (B:=B) (W:=W)) f df, dissipative eps0 yo ip f ->
  fom_rhs false (fun _ => True) fom f -> fom_jac false (fun _ => True) fom df ->
  forall P PJ c, galerkin_rhs_jac (Mf:=Mf) (Rm:=Rm) (Jm:=Jm) false (fun _ => True) o xo jo recon phi fom P PJ c ->
  forall (u : isys (S:=R) (V:=Y) (J:=J') (W:=W')), rhs_is u f ->
  forall (sx : Ws -> X -> sol X X J Ws) (sy : Ws' -> Y -> sol Y Y J' Ws') tol tol' start y0 x0 tr tr',
  completed_std U o yo jo' jid' u sy BDF1 (fun r => length_of ip r <= tol) start y0 tr ->
  completed_std U' o xo jo jid (rhs_jac_system c) sx BDF1 (fun r => length_of xip r <= tol') start x0 tr' ->
  same_times tr tr' -> forward_in_time tr ->
  forall del, (forall k t x, In (k, t, x) (reports tr') ->
    length_of ip (vminus o yo (f (recon x) t) (bapp (P t (f (recon x) t)))) <= del) ->
  forall k t y x, In (k, t, y) (reports tr) -> In (k, t, x) (reports tr') ->
  length_of ip (vminus o yo y (recon x)) <=
  length_of ip (vminus o yo y0 (recon x0)) + (IZR k * (tol + K * tol') + (t - start) * del).
Proof. exact bdf1. Qed.
Print Assumptions C78_bdf1.

Theorem C78_bdf2 :
  forall (X Y Jf Mf Rm Jm J B W J' W' Ws Ws' U U' : Type) (eps0 : R) (xo : vops R X) (yo : vops R Y) (jo : vops R J) (jo' : vops R J')
    (jid : J) (jid' : J'), let o := Rops eps0 in vspace o xo -> vspace o yo -> vspace o jo -> vspace o jo' ->
  forall (recon bapp : X -> Y) (off : Y) (phi : B), linear xo yo bapp -> (forall x, recon x = vadd yo (bapp x) off) ->
  forall ip xip K, inner yo ip -> 0 <= K -> (forall a, length_of ip (bapp a) <= K * length_of xip a) ->
  forall (fom : sfom (S:=R) (Y:=Y) (R:=Y) (J:=Jf) (B:=B) (W:=W)) f df, dissipative eps0 yo ip f ->
  fom_rhs false (fun _ => True) fom f -> fom_jac false (fun _ => True) fom df ->
  forall P PJ c, galerkin_rhs_jac (Mf:=Mf) (Rm:=Rm) (Jm:=Jm) false (fun _ => True) o xo jo recon phi fom P PJ c ->
  forall (u : isys (S:=R) (V:=Y) (J:=J') (W:=W')), rhs_is u f ->
  forall (sx : Ws -> X -> sol X X J Ws) (sy : Ws' -> Y -> sol Y Y J' Ws') tol tol' start y0 x0 tr tr',
  completed_std U o yo jo' jid' u sy BDF2 (fun r => length_of ip r <= tol) start y0 tr ->
  completed_std U' o xo jo jid (rhs_jac_system c) sx BDF2 (fun r => length_of xip r <= tol') start x0 tr' ->
  same_times tr tr' -> forward_in_time tr ->
  forall del, (forall k t x, In (k, t, x) (reports tr') ->
    length_of ip (vminus o yo (f (recon x) t) (bapp (P t (f (recon x) t)))) <= del) ->
  forall k t y x, In (k, t, y) (reports tr) -> In (k, t, x) (reports tr') ->
  length_of ip (vminus o yo y (recon x)) <=
  sqrt 2 * length_of ip (vminus o yo y0 (recon x0)) + 6 * (IZR k * (tol + K * tol') + (t - start) * del).
Proof. exact bdf2. Qed.
Print Assumptions C78_bdf2.

Theorem C78_crank_nicolson :
  forall (X Y Jf Mf Rm Jm J B W J' W' Ws Ws' U U' : Type) (eps0 : R) (xo : vops R X) (yo : vops R Y) (jo : vops R J) (jo' : vops R J')
    (jid : J) (jid' : J'), let o := Rops eps0 in vspace o xo -> vspace o yo -> vspace o jo -> vspace o jo' ->
  forall (recon bapp : X -> Y) (off : Y) (phi : B), linear xo yo bapp -> (forall x, recon x = vadd yo (bapp x) off) ->
  forall ip xip K, inner yo ip -> 0 <= K -> (forall a, length_of ip (bapp a) <= K * length_of xip a) ->
  forall (fom : sfom (S:=R) (Y:=Y) (R:=Y) (J:=Jf) (B:=B) (W:=W)) f df, dissipative eps0 yo ip f ->
  fom_rhs true (fun _ => True) fom f -> fom_jac true (fun _ => True) fom df ->
  forall P PJ c, galerkin_rhs_jac (Mf:=Mf) (Rm:=Rm) (Jm:=Jm) true (fun _ => True) o xo jo recon phi fom P PJ c ->
  forall (u : isys (S:=R) (V:=Y) (J:=J') (W:=W')), rhs_is u f -> forall F fj, repeatable u F fj ->
  forall (sx : Ws -> X -> sol X X J Ws) (sy : Ws' -> Y -> sol Y Y J' Ws') tol tol' start y0 x0 tr tr',
  completed_std U o yo jo' jid' u sy CrankNicolson (fun r => length_of ip r <= tol) start y0 tr ->
  completed_std U' o xo jo jid (rhs_jac_system c) sx CrankNicolson (fun r => length_of xip r <= tol') start x0 tr' ->
  same_times tr tr' -> forward_in_time tr -> steps_not_growing tr ->
  forall del, (forall k t x, In (k, t, x) (reports tr') ->
    length_of ip (vminus o yo (f (recon x) t) (bapp (P t (f (recon x) t)))) <= del) ->
  forall t1 s1, In (1%Z, t1, s1) (reports tr) ->
  forall k t y x, In (k, t, y) (reports tr) -> In (k, t, x) (reports tr') ->
  length_of ip (vminus o yo y (recon x)) <=
  length_of ip (vminus o yo (vminus o yo y0 (recon x0)) (vscale yo (1 / 2 * (t1 - start)) (vminus o yo (f y0 start) (f (recon x0) start))))
  + (IZR k * (tol + K * tol') + (t - start) * del).
Proof. exact crank_nicolson. Qed.
Print Assumptions C78_crank_nicolson.

(** The ROM inherits the FOM's stability: default Galerkin with any basis, phi^T its adjoint. *)
Theorem C78_rom_stable_bdf1 :
  forall (X Y Jf Mf Rm Jm J B W Ws Ws' U U' : Type) (eps0 : R) (xo : vops R X) (yo : vops R Y) (jo : vops R J) (jid : J), let o := Rops eps0 in
  vspace o xo -> vspace o yo -> vspace o jo ->
  forall (recon bapp : X -> Y) (off : Y) (phi : B), linear xo yo bapp -> (forall x, recon x = vadd yo (bapp x) off) ->
  forall ip xip, inner yo ip -> inner xo xip ->
  forall (fom : sfom (S:=R) (Y:=Y) (R:=Y) (J:=Jf) (B:=B) (W:=W)) f df, dissipative eps0 yo ip f ->
  fom_rhs false (fun _ => True) fom f -> fom_jac false (fun _ => True) fom df ->
  forall prodv prodj T TJ, product_is xo prodv phi T -> product_is jo prodj phi TJ ->
  (forall y a, ip y (bapp a) = xip (T y) a) ->
  let rom := rhs_jac_system (Mf:=Mf) (Rm:=Rm) (Jm:=Jm) (default_rhs_jac o recon phi prodv prodj fom) in
  forall (s : Ws -> X -> sol X X J Ws) (s' : Ws' -> X -> sol X X J Ws') tol tol' start start' x0 x0' tr tr',
  completed_std U o xo jo jid rom s BDF1 (fun r => length_of xip r <= tol) start x0 tr ->
  completed_std U' o xo jo jid rom s' BDF1 (fun r => length_of xip r <= tol') start' x0' tr' ->
  same_times tr tr' -> forward_in_time tr ->
  apart eps0 xo xip (fun k => length_of xip (vminus o xo x0 x0') + IZR k * (tol + tol')) tr tr'.
Proof. exact stable_bdf1. Qed.
Print Assumptions C78_rom_stable_bdf1.

Theorem C78_rom_stable_bdf2 :
  forall (X Y Jf Mf Rm Jm J B W Ws Ws' U U' : Type) (eps0 : R) (xo : vops R X) (yo : vops R Y) (jo : vops R J) (jid : J), let o := Rops eps0 in
  vspace o xo -> vspace o yo -> vspace o jo ->
  forall (recon bapp : X -> Y) (off : Y) (phi : B), linear xo yo bapp -> (forall x, recon x = vadd yo (bapp x) off) ->
  forall ip xip, inner yo ip -> inner xo xip ->
  forall (fom : sfom (S:=R) (Y:=Y) (R:=Y) (J:=Jf) (B:=B) (W:=W)) f df, dissipative eps0 yo ip f ->
  fom_rhs false (fun _ => True) fom f -> fom_jac false (fun _ => True) fom df ->
  forall prodv prodj T TJ, product_is xo prodv phi T -> product_is jo prodj phi TJ ->
  (forall y a, ip y (bapp a) = xip (T y) a) ->
  let rom := rhs_jac_system (Mf:=Mf) (Rm:=Rm) (Jm:=Jm) (default_rhs_jac o recon phi prodv prodj fom) in
  forall (s : Ws -> X -> sol X X J Ws) (s' : Ws' -> X -> sol X X J Ws') tol tol' start start' x0 x0' tr tr',
  completed_std U o xo jo jid rom s BDF2 (fun r => length_of xip r <= tol) start x0 tr ->
  completed_std U' o xo jo jid rom s' BDF2 (fun r => length_of xip r <= tol') start' x0' tr' ->
  same_times tr tr' -> forward_in_time tr ->
  apart eps0 xo xip (fun k => sqrt 2 * length_of xip (vminus o xo x0 x0') + 6 * (IZR k * (tol + tol'))) tr tr'.
Proof. exact stable_bdf2. Qed.
Print Assumptions C78_rom_stable_bdf2.

Theorem C78_rom_stable_crank_nicolson :
  forall (X Y Jf Mf Rm Jm J B W Ws Ws' U U' : Type) (eps0 : R) (xo : vops R X) (yo : vops R Y) (jo : vops R J) (jid : J), let o := Rops eps0 in
  vspace o xo -> vspace o yo -> vspace o jo ->
  forall (recon bapp : X -> Y) (off : Y) (phi : B), linear xo yo bapp -> (forall x, recon x = vadd yo (bapp x) off) ->
  forall ip xip, inner yo ip -> inner xo xip ->
  forall (fom : sfom (S:=R) (Y:=Y) (R:=Y) (J:=Jf) (B:=B) (W:=W)) f df, dissipative eps0 yo ip f ->
  fom_rhs true (fun _ => True) fom f -> fom_jac true (fun _ => True) fom df ->
  forall prodv prodj T TJ, product_is xo prodv phi T -> product_is jo prodj phi TJ ->
  (forall y a, ip y (bapp a) = xip (T y) a) ->
  let rom := rhs_jac_system (Mf:=Mf) (Rm:=Rm) (Jm:=Jm) (default_rhs_jac o recon phi prodv prodj fom) in
  forall (s : Ws -> X -> sol X X J Ws) (s' : Ws' -> X -> sol X X J Ws') tol tol' start start' x0 x0' tr tr',
  completed_std U o xo jo jid rom s CrankNicolson (fun r => length_of xip r <= tol) start x0 tr ->
  completed_std U' o xo jo jid rom s' CrankNicolson (fun r => length_of xip r <= tol') start' x0' tr' ->
  same_times tr tr' -> forward_in_time tr -> steps_not_growing tr ->
  let F := fun x t => T (f (recon x) t) in forall t1 s1, In (1%Z, t1, s1) (reports tr) ->
  apart eps0 xo xip (fun k => length_of xip (vminus o xo (vminus o xo x0 x0') (vscale xo (1 / 2 * (t1 - start)) (vminus o xo (F x0 start) (F x0' start))))
    + IZR k * (tol + tol')) tr tr'.
Proof. exact stable_cn. Qed.
Print Assumptions C78_rom_stable_crank_nicolson.

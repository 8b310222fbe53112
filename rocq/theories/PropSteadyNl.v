(** C99: steady ROMs of nonlinear FOMs. Spec: [SteadyNlSpec.v], and [LspgGnSpec.v], [GaussSpec.v], [NewtonSpec.v], [NewtonRunSpec.v]. *)
From Coq Require Import Reals ZArith List.
From Verif Require Import Base RInst Laws ImplicitModel ImplicitSpec NonlinDiag NonlinModel NonlinSpec NonlinLaws NewtonSpec NewtonRunSpec GaussSpec GaussProofs
  LspgModel GalerkinModel GalerkinSpec SteadyLspgModel SteadyLspgSpec LspgGnSpec DissipSpec SteadyNlSpec SteadyNlProofs SteadyNlClaims.
Import ListNotations.
Local Open Scope R_scope.

(** The FOM's residual is any function f. Newton's method on a steady Galerkin problem (default, hyper-reduced or masked) ends
    normally, and from a start that is good enough in the sense of C91 the reduced residual of the state it returns is within the tolerance. *)
Theorem C99_galerkin_newton :
  forall (eps : R) (X Y Rf Jf Rm Jm B J H L W : Type) (no : nlops R X X J H) (jo : vops R J) (ap : J -> X -> X) (apH : H -> X -> X),
  nl_laws eps no (n_vo no) ap apH -> vspace (Rops eps) jo ->
  forall (recon : X -> Y) (phi : B) (fom : steady_fom (Y:=Y) (Rf:=Rf) (Jf:=Jf) (B:=B) (W:=W))
    (f : Y -> Rf) (df : Y -> B -> Jf) (dv : Y -> Y -> Rf),
  steady_is true (fun _ => True) fom f df dv ->
  forall (P : Rf -> X) (PJ : Jf -> J)
    (c : X -> gcmd (X:=X) (Y:=Y) (Rf:=Rf) (Jf:=Jf) (Mf:=unit) (Rm:=Rm) (Jm:=Jm) (J:=J) (M:=unit) (W:=W)),
  galerkin_steady true (fun _ => True) (Rops eps) (n_vo no) jo recon phi fom P PJ c ->
  forall xt : exts X X J H L,
  linear_ok xt (if_solvable (normal_exact apH)) (if_solvable (qr_exact no ap)) (if_solvable (newton_exact ap)) nothing ->
  forall cf, newton_absolute cf ->
  forall s w r s' w', root_object (Rops eps) s ->
  exec (steady_method c) (root_solve (Rops eps) no xt cf) (s, w) = (r, (s', w')) ->
  let F := fun x => P (f (recon x)) in
  r = Ok tt /\ root_object (Rops eps) s' /\
  (forall far, starts_well no (n_vo no) ap cf F (fun x => PJ (df (recon x) phi)) (g_x s) far -> n_rnorm no (F (g_x s')) <= far * f_tol cf).
Proof. exact @steady_nl_galerkin_newton. Qed.
Print Assumptions C99_galerkin_newton.

(** Strongly monotone f, orthonormal basis: the reconstruction of x is as near to the FOM's solution as any other state of the trial
    space, up to a factor and to the reduced residual left. *)
Theorem C99_galerkin_quasi_optimal :
  forall (eps : R) (X Y : Type) (xo : vops R X) (yo : vops R Y) (ip : Y -> Y -> R) (xip : X -> X -> R),
  vspace (Rops eps) xo -> vspace (Rops eps) yo -> DissipSpec.inner yo ip -> DissipSpec.inner xo xip ->
  forall (f : Y -> Y) (ys : Y) (c L : R) (recon bapp : X -> Y) (off : Y) (P : Y -> X),
  0 < c -> 0 <= L -> f ys = vzero yo -> strongly_monotone eps yo ip c f -> lipschitz_fom eps yo ip L f ->
  orthonormal_trial xo yo ip xip recon bapp off P ->
  forall x z, distance eps yo ip (recon x) ys <= (L * distance eps yo ip (recon z) ys + 2 * length_of xip (P (f (recon x)))) / c.
Proof. exact @galerkin_quasi_optimal. Qed.
Print Assumptions C99_galerkin_quasi_optimal.

(** Both together: the state returned by Newton's method *)
Theorem C99_galerkin_error :
  forall (eps : R) (X Y Jf Rm Jm B J H L W : Type) (no : nlops R X X J H) (jo : vops R J) (ap : J -> X -> X) (apH : H -> X -> X),
  nl_laws eps no (n_vo no) ap apH -> vspace (Rops eps) jo ->
  forall (recon : X -> Y) (phi : B) (fom : steady_fom (Y:=Y) (Rf:=Y) (Jf:=Jf) (B:=B) (W:=W))
    (f : Y -> Y) (df : Y -> B -> Jf) (dv : Y -> Y -> Y),
  steady_is true (fun _ => True) fom f df dv ->
  forall (P : Y -> X) (PJ : Jf -> J)
    (cmd : X -> gcmd (X:=X) (Y:=Y) (Rf:=Y) (Jf:=Jf) (Mf:=unit) (Rm:=Rm) (Jm:=Jm) (J:=J) (M:=unit) (W:=W)),
  galerkin_steady true (fun _ => True) (Rops eps) (n_vo no) jo recon phi fom P PJ cmd ->
  forall xt : exts X X J H L,
  linear_ok xt (if_solvable (normal_exact apH)) (if_solvable (qr_exact no ap)) (if_solvable (newton_exact ap)) nothing ->
  forall cf, newton_absolute cf ->
  forall s w r s' w', root_object (Rops eps) s ->
  exec (steady_method cmd) (root_solve (Rops eps) no xt cf) (s, w) = (r, (s', w')) ->
  forall (yo : vops R Y) (ip : Y -> Y -> R), vspace (Rops eps) yo -> DissipSpec.inner yo ip ->
  forall (ys : Y) (c K : R) (bapp : X -> Y) (off : Y), 0 < c -> 0 <= K -> f ys = vzero yo ->
  strongly_monotone eps yo ip c f -> lipschitz_fom eps yo ip K f ->
  orthonormal_trial (n_vo no) yo ip (n_rdot no) recon bapp off P ->
  forall far, starts_well no (n_vo no) ap cf (fun x => P (f (recon x))) (fun x => PJ (df (recon x) phi)) (g_x s) far ->
  r = Ok tt /\ forall z, distance eps yo ip (recon (g_x s')) ys <= (K * distance eps yo ip (recon z) ys + 2 * (far * f_tol cf)) / c.
Proof. exact @steady_nl_galerkin_error. Qed.
Print Assumptions C99_galerkin_error.

(** Gauss-Newton on a steady LSPG problem (default or masked, scaled or not) *)
Theorem C99_lspg_gauss_newton :
  forall (eps : R) (X Y Rf Jf Rm Jm B Rs J H L W : Type) (no : nlops R X Rs J H) (ro : vops R Rs) (ap : J -> X -> Rs) (apH : H -> X -> X),
  nl_laws eps no ro ap apH ->
  forall (recon : X -> Y) (phi : B) (fom : steady_fom (Y:=Y) (Rf:=Rf) (Jf:=Jf) (B:=B) (W:=W)) (f : Y -> Rf) (df : Y -> B -> Jf),
  steady_rj_is true (fun _ => True) fom f df ->
  forall (P : Y -> Rf -> Rs) (PJ : Y -> Jf -> J)
    (prob : X -> Rs -> option J -> sobj Y Rf Jf W -> outcome unit * (Rs * option J * sobj Y Rf Jf W)),
  lspg_steady (Rm:=Rm) (Jm:=Jm) true (fun _ => True) recon phi fom Rs J P PJ prob ->
  forall xt : exts X Rs J H L,
  linear_ok xt (if_solvable (normal_exact apH)) (if_solvable (qr_exact no ap)) (if_solvable (newton_exact ap)) nothing ->
  forall wr wj, weights_ok xt wr wj nothing ->
  forall tag cf, gauss_newton tag cf ->
  forall s w r s' w', ls_object (Rops eps) s ->
  exec prob (ls_solve (Rops eps) no xt tag cf) (s, w) = (r, (s', w')) ->
  let F := fun x => P (recon x) (f (recon x)) in
  let DF := fun x => PJ (recon x) (df (recon x) phi) in
  r = Ok tt /\ ls_object (Rops eps) s' /\ lands no ro ap apH tag cf F DF (g_x s) (g_x s').
Proof. exact @steady_nl_lspg_gauss_newton. Qed.
Print Assumptions C99_lspg_gauss_newton.

(** If the FOM's solution is in the trial space, it is found. *)
Theorem C99_lspg_fom_solution :
  forall (eps : R) (X Y Rf Jf Rm Jm B Rs J H L W : Type) (no : nlops R X Rs J H) (ro : vops R Rs) (ap : J -> X -> Rs) (apH : H -> X -> X),
  nl_laws eps no ro ap apH ->
  forall (recon : X -> Y) (phi : B) (fom : steady_fom (Y:=Y) (Rf:=Rf) (Jf:=Jf) (B:=B) (W:=W)) (f : Y -> Rf) (df : Y -> B -> Jf),
  steady_rj_is true (fun _ => True) fom f df ->
  forall (P : Y -> Rf -> Rs) (PJ : Y -> Jf -> J)
    (prob : X -> Rs -> option J -> sobj Y Rf Jf W -> outcome unit * (Rs * option J * sobj Y Rf Jf W)),
  lspg_steady (Rm:=Rm) (Jm:=Jm) true (fun _ => True) recon phi fom Rs J P PJ prob ->
  forall xt : exts X Rs J H L,
  linear_ok xt (if_solvable (normal_exact apH)) (if_solvable (qr_exact no ap)) (if_solvable (newton_exact ap)) nothing ->
  forall wr wj, weights_ok xt wr wj nothing ->
  forall tag cf, gauss_newton tag cf ->
  forall s w r s' w', ls_object (Rops eps) s ->
  exec prob (ls_solve (Rops eps) no xt tag cf) (s, w) = (r, (s', w')) ->
  let F := fun x => P (recon x) (f (recon x)) in
  let DF := fun x => PJ (recon x) (df (recon x) phi) in
  forall (xs : X) (rad beta gamma : R), F xs = vzero ro -> 0 <= beta -> 0 <= gamma -> 0 <= rad ->
  (forall x, NewtonSpec.apart no x xs <= rad -> forall v, n_norm no v <= beta * n_rnorm no (ap (DF x) v)) ->
  derivative_near no ap F DF xs rad -> lipschitz_near no ro ap DF xs rad gamma -> beta * (gamma / 2) * rad < 1 ->
  (forall x, NewtonSpec.apart no x xs <= rad -> forall b, exists d,
     match tag with
     | GaussNewtonQr => qr_exact no ap (DF x) b d
     | _ => normal_exact apH (n_jtj no (DF x) (DF x)) (n_jtr no (DF x) b) d
     end) ->
  NewtonSpec.apart no (g_x s) xs <= rad ->
  NewtonSpec.apart no (g_x s') xs <= rad /\
  forall M near far n, judged_minimum (f_stop cf) (beta * (gamma / 2) * rad) beta M near far ->
  (f_stop cf = WhenAbsGradient -> forall z, NewtonSpec.apart no z xs <= rad -> forall v, n_rnorm no (ap (DF z) v) <= M * n_norm no v) ->
  near * shrunk 0 (beta * (gamma / 2)) (NewtonSpec.apart no (g_x s) xs) n < f_tol cf -> (Z.of_nat n < f_max cf)%Z ->
  NewtonSpec.apart no (g_x s') xs <= far * f_tol cf.
Proof. exact @steady_nl_lspg_fom_solution. Qed.
Print Assumptions C99_lspg_fom_solution.

(** Around the FOM's solution the residual measures the distance to it: the reconstruction of the state returned is as near to it as any state of the
    trial space, up to a factor and the tolerance. *)
Theorem C99_lspg_error :
  forall (eps : R) (X Y Rf Jf Rm Jm B Rs J H L W : Type) (no : nlops R X Rs J H) (ro : vops R Rs) (ap : J -> X -> Rs) (apH : H -> X -> X),
  nl_laws eps no ro ap apH ->
  forall (recon : X -> Y) (phi : B) (fom : steady_fom (Y:=Y) (Rf:=Rf) (Jf:=Jf) (B:=B) (W:=W)) (f : Y -> Rf) (df : Y -> B -> Jf),
  steady_rj_is true (fun _ => True) fom f df ->
  forall (P : Y -> Rf -> Rs) (PJ : Y -> Jf -> J)
    (prob : X -> Rs -> option J -> sobj Y Rf Jf W -> outcome unit * (Rs * option J * sobj Y Rf Jf W)),
  lspg_steady (Rm:=Rm) (Jm:=Jm) true (fun _ => True) recon phi fom Rs J P PJ prob ->
  forall xt : exts X Rs J H L,
  linear_ok xt (if_solvable (normal_exact apH)) (if_solvable (qr_exact no ap)) (if_solvable (newton_exact ap)) nothing ->
  forall wr wj, weights_ok xt wr wj nothing ->
  forall tag cf, gauss_newton tag cf ->
  forall s w r s' w', ls_object (Rops eps) s ->
  exec prob (ls_solve (Rops eps) no xt tag cf) (s, w) = (r, (s', w')) ->
  let F := fun x => P (recon x) (f (recon x)) in
  let DF := fun x => PJ (recon x) (df (recon x) phi) in
  forall (yo : vops R Y) (ip : Y -> Y -> R), vspace (Rops eps) yo -> DissipSpec.inner yo ip ->
  forall (ys : Y) (c K l : R), 0 < c ->
  forall around : Y -> Prop,
  (forall y, around y -> c * distance eps yo ip y ys <= n_rnorm no (P y (f y)) <= K * distance eps yo ip y ys) ->
  (forall x z, distance eps yo ip (recon x) (recon z) <= l * NewtonSpec.apart no x z) -> 0 <= l ->
  forall (xs : X) (rad beta gamma rho : R), regular_minimum no ro ap F DF xs rad beta gamma rho ->
  around (recon xs) -> (forall z, n_rnorm no (F xs) <= n_rnorm no (F z)) ->
  (forall x, NewtonSpec.apart no x xs <= rad -> forall b, exists d,
     match tag with
     | GaussNewtonQr => qr_exact no ap (DF x) b d
     | _ => normal_exact apH (n_jtj no (DF x) (DF x)) (n_jtr no (DF x) b) d
     end) ->
  NewtonSpec.apart no (g_x s) xs <= rad ->
  forall M near far n, judged_minimum (f_stop cf) (beta ^ 2 * gamma * rho + beta * (gamma / 2) * rad) beta M near far ->
  (f_stop cf = WhenAbsGradient -> forall z, NewtonSpec.apart no z xs <= rad -> forall v, n_rnorm no (ap (DF z) v) <= M * n_norm no v) ->
  near * shrunk (beta ^ 2 * gamma * rho) (beta * (gamma / 2)) (NewtonSpec.apart no (g_x s) xs) n < f_tol cf -> (Z.of_nat n < f_max cf)%Z ->
  forall z, around (recon z) -> distance eps yo ip (recon (g_x s')) ys <= l * (far * f_tol cf) + K / c * distance eps yo ip (recon z) ys.
Proof. exact @steady_nl_lspg_error. Qed.
Print Assumptions C99_lspg_error.


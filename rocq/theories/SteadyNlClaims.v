(** C99. *)
From Coq Require Import Reals ZArith List Lra.
From Verif Require Import Base RInst Laws ImplicitModel ImplicitSpec NonlinDiag NonlinModel NonlinSpec NonlinLaws NewtonSpec NewtonRunSpec GaussSpec GaussProofs
  LspgModel GalerkinModel GalerkinSpec SteadyLspgModel SteadyLspgSpec LspgGnSpec DissipSpec SteadyNlSpec SteadyNlProofs.
Import ListNotations.
Local Open Scope R_scope.

Lemma dissip_inner {eps V} {vo : vops R V} {ip} : NonlinLaws.inner eps vo ip -> DissipSpec.inner vo ip.
Proof. intros HI. destruct HI. constructor; assumption. Qed.
Lemma steady_nl_galerkin_newton :
  forall (eps : R) (X Y Rf Jf Rm Jm B J H L W : Type) (no : nlops R X X J H) (jo : vops R J) (ap : J -> X -> X) (apH : H -> X -> X),
  nl_laws eps no (n_vo no) ap apH -> vspace (Rops eps) jo ->
  forall (recon : X -> Y) (phi : B) (fom : steady_fom (Y:=Y) (Rf:=Rf) (Jf:=Jf) (B:=B) (W:=W))
    (f : Y -> Rf) (df : Y -> B -> Jf) (dv : Y -> Y -> Rf),
  steady_is true (fun _ => True) fom f df dv ->
  forall (P : Rf -> X) (PJ : Jf -> J)
    (c : X -> gcmd (X:=X) (Y:=Y) (Rf:=Rf) (Jf:=Jf) (Mf:=unit) (Rm:=Rm) (Jm:=Jm) (J:=J) (M:=unit) (W:=W)),
  galerkin_steady true (fun _ => True) (Rops eps) (n_vo no) jo recon phi fom P PJ c ->
  forall xt : exts X X J H L,
  linear_ok xt (if_solvable (normal_exact apH)) (if_solvable (qr_exact no ap)) (if_solvable (newton_exact ap)) nothing ->
  forall cf, newton_absolute cf ->
  forall s w r s' w', root_object (Rops eps) s ->
  exec (steady_method c) (root_solve (Rops eps) no xt cf) (s, w) = (r, (s', w')) ->
  let F := fun x => P (f (recon x)) in
  r = Ok tt /\ root_object (Rops eps) s' /\
  (forall far, starts_well no (n_vo no) ap cf F (fun x => PJ (df (recon x) phi)) (g_x s) far -> n_rnorm no (F (g_x s')) <= far * f_tol cf).
Proof.
  intros eps X Y Rf Jf Rm Jm B J H L W no jo ap apH HL HJ recon phi fom f df dv Hfom P PJ c HG xt Hlin cf Hcf s w r s' w' Ho E.
  exact (steady_galerkin_newton no jo ap apH HL HJ recon phi fom f df dv Hfom P PJ c HG xt Hlin cf Hcf s w r s' w' Ho E).
Qed.
Lemma steady_nl_galerkin_error :
  forall (eps : R) (X Y Jf Rm Jm B J H L W : Type) (no : nlops R X X J H) (jo : vops R J) (ap : J -> X -> X) (apH : H -> X -> X),
  nl_laws eps no (n_vo no) ap apH -> vspace (Rops eps) jo ->
  forall (recon : X -> Y) (phi : B) (fom : steady_fom (Y:=Y) (Rf:=Y) (Jf:=Jf) (B:=B) (W:=W))
    (f : Y -> Y) (df : Y -> B -> Jf) (dv : Y -> Y -> Y),
  steady_is true (fun _ => True) fom f df dv ->
  forall (P : Y -> X) (PJ : Jf -> J)
    (cmd : X -> gcmd (X:=X) (Y:=Y) (Rf:=Y) (Jf:=Jf) (Mf:=unit) (Rm:=Rm) (Jm:=Jm) (J:=J) (M:=unit) (W:=W)),
  galerkin_steady true (fun _ => True) (Rops eps) (n_vo no) jo recon phi fom P PJ cmd ->
  forall xt : exts X X J H L,
  linear_ok xt (if_solvable (normal_exact apH)) (if_solvable (qr_exact no ap)) (if_solvable (newton_exact ap)) nothing ->
  forall cf, newton_absolute cf ->
  forall s w r s' w', root_object (Rops eps) s ->
  exec (steady_method cmd) (root_solve (Rops eps) no xt cf) (s, w) = (r, (s', w')) ->
  forall (yo : vops R Y) (ip : Y -> Y -> R), vspace (Rops eps) yo -> DissipSpec.inner yo ip ->
  forall (ys : Y) (c K : R) (bapp : X -> Y) (off : Y), 0 < c -> 0 <= K -> f ys = vzero yo ->
  strongly_monotone eps yo ip c f -> lipschitz_fom eps yo ip K f ->
  orthonormal_trial (n_vo no) yo ip (n_rdot no) recon bapp off P ->
  forall far, starts_well no (n_vo no) ap cf (fun x => P (f (recon x))) (fun x => PJ (df (recon x) phi)) (g_x s) far ->
  r = Ok tt /\ forall z, distance eps yo ip (recon (g_x s')) ys <= (K * distance eps yo ip (recon z) ys + 2 * (far * f_tol cf)) / c.
Proof.
  intros eps X Y Jf Rm Jm B J H L W no jo ap apH HL HJ recon phi fom f df dv Hfom P PJ cmd HG xt Hlin cf Hcf s w r s' w' Ho E
    yo ip HY HI ys c K bapp off Hc HK Hz Hm Hl HO far Hs.
  destruct (steady_galerkin_newton no jo ap apH HL HJ recon phi fom f df dv Hfom P PJ cmd HG xt Hlin cf Hcf s w r s' w' Ho E) as (Er & _ & N).
  split; [exact Er|]. intros z. specialize (N far Hs). pose proof (nl_r _ _ _ _ _ HL) as HR.
  assert (HX : vspace (Rops eps) (n_vo no)) by exact (in_space _ _ HR).
  assert (HXI : DissipSpec.inner (n_vo no) (n_rdot no)) by exact (dissip_inner HR).
  eapply Rle_trans; [exact (galerkin_quasi_optimal eps X Y (n_vo no) yo ip (n_rdot no) HX HY HI HXI f ys c K recon bapp off P Hc HK Hz Hm Hl HO (g_x s') z)|].
  unfold Rdiv. apply Rmult_le_compat_r; [left; apply Rinv_0_lt_compat; exact Hc|].
  apply Rplus_le_compat_l. apply Rmult_le_compat_l; [lra|].
  unfold length_of. rewrite <- (nl_rnorm _ _ _ _ _ HL). exact N.
Qed.
Lemma steady_nl_lspg_gauss_newton :
  forall (eps : R) (X Y Rf Jf Rm Jm B Rs J H L W : Type) (no : nlops R X Rs J H) (ro : vops R Rs) (ap : J -> X -> Rs) (apH : H -> X -> X),
  nl_laws eps no ro ap apH ->
  forall (recon : X -> Y) (phi : B) (fom : steady_fom (Y:=Y) (Rf:=Rf) (Jf:=Jf) (B:=B) (W:=W)) (f : Y -> Rf) (df : Y -> B -> Jf),
  steady_rj_is true (fun _ => True) fom f df ->
  forall (P : Y -> Rf -> Rs) (PJ : Y -> Jf -> J)
    (prob : X -> Rs -> option J -> sobj Y Rf Jf W -> outcome unit * (Rs * option J * sobj Y Rf Jf W)),
  lspg_steady (Rm:=Rm) (Jm:=Jm) true (fun _ => True) recon phi fom Rs J P PJ prob ->
  forall xt : exts X Rs J H L,
  linear_ok xt (if_solvable (normal_exact apH)) (if_solvable (qr_exact no ap)) (if_solvable (newton_exact ap)) nothing ->
  forall wr wj, weights_ok xt wr wj nothing ->
  forall tag cf, gauss_newton tag cf ->
  forall s w r s' w', ls_object (Rops eps) s ->
  exec prob (ls_solve (Rops eps) no xt tag cf) (s, w) = (r, (s', w')) ->
  let F := fun x => P (recon x) (f (recon x)) in
  let DF := fun x => PJ (recon x) (df (recon x) phi) in
  r = Ok tt /\ ls_object (Rops eps) s' /\ lands no ro ap apH tag cf F DF (g_x s) (g_x s').
Proof.
  intros eps X Y Rf Jf Rm Jm B Rs J H L W no ro ap apH HL recon phi fom f df Hfom P PJ prob HG xt Hlin wr wj Hw tag cf Hcf s w r s' w' Ho E F DF.
  exact (steady_lspg_gn no ro ap apH HL recon phi fom f df Hfom P PJ prob HG xt Hlin wr wj Hw tag cf Hcf s w r s' w' Ho E).
Qed.
Lemma steady_nl_lspg_fom_solution :
  forall (eps : R) (X Y Rf Jf Rm Jm B Rs J H L W : Type) (no : nlops R X Rs J H) (ro : vops R Rs) (ap : J -> X -> Rs) (apH : H -> X -> X),
  nl_laws eps no ro ap apH ->
  forall (recon : X -> Y) (phi : B) (fom : steady_fom (Y:=Y) (Rf:=Rf) (Jf:=Jf) (B:=B) (W:=W)) (f : Y -> Rf) (df : Y -> B -> Jf),
  steady_rj_is true (fun _ => True) fom f df ->
  forall (P : Y -> Rf -> Rs) (PJ : Y -> Jf -> J)
    (prob : X -> Rs -> option J -> sobj Y Rf Jf W -> outcome unit * (Rs * option J * sobj Y Rf Jf W)),
  lspg_steady (Rm:=Rm) (Jm:=Jm) true (fun _ => True) recon phi fom Rs J P PJ prob ->
  forall xt : exts X Rs J H L,
  linear_ok xt (if_solvable (normal_exact apH)) (if_solvable (qr_exact no ap)) (if_solvable (newton_exact ap)) nothing ->
  forall wr wj, weights_ok xt wr wj nothing ->
  forall tag cf, gauss_newton tag cf ->
  forall s w r s' w', ls_object (Rops eps) s ->
  exec prob (ls_solve (Rops eps) no xt tag cf) (s, w) = (r, (s', w')) ->
  let F := fun x => P (recon x) (f (recon x)) in
  let DF := fun x => PJ (recon x) (df (recon x) phi) in
  forall (xs : X) (rad beta gamma : R), F xs = vzero ro -> 0 <= beta -> 0 <= gamma -> 0 <= rad ->
  (forall x, NewtonSpec.apart no x xs <= rad -> forall v, n_norm no v <= beta * n_rnorm no (ap (DF x) v)) ->
  derivative_near no ap F DF xs rad -> lipschitz_near no ro ap DF xs rad gamma -> beta * (gamma / 2) * rad < 1 ->
  (forall x, NewtonSpec.apart no x xs <= rad -> forall b, exists d,
     match tag with
     | GaussNewtonQr => qr_exact no ap (DF x) b d
     | _ => normal_exact apH (n_jtj no (DF x) (DF x)) (n_jtr no (DF x) b) d
     end) ->
  NewtonSpec.apart no (g_x s) xs <= rad ->
  NewtonSpec.apart no (g_x s') xs <= rad /\
  forall M near far n, judged_minimum (f_stop cf) (beta * (gamma / 2) * rad) beta M near far ->
  (f_stop cf = WhenAbsGradient -> forall z, NewtonSpec.apart no z xs <= rad -> forall v, n_rnorm no (ap (DF z) v) <= M * n_norm no v) ->
  near * shrunk 0 (beta * (gamma / 2)) (NewtonSpec.apart no (g_x s) xs) n < f_tol cf -> (Z.of_nat n < f_max cf)%Z ->
  NewtonSpec.apart no (g_x s') xs <= far * f_tol cf.
Proof.
  intros eps X Y Rf Jf Rm Jm B Rs J H L W no ro ap apH HL recon phi fom f df Hfom P PJ prob HG xt Hlin wr wj Hw tag cf Hcf s w r s' w' Ho E F DF
    xs rad beta gamma Hz Hb Hg Hr Hi HD Hl Hsm Hsol Hst.
  destruct (steady_lspg_gn no ro ap apH HL recon phi fom f df Hfom P PJ prob HG xt Hlin wr wj Hw tag cf Hcf s w r s' w' Ho E) as (_ & _ & N).
  pose proof (zero_minimum no ro ap apH F DF xs rad beta gamma HL Hz Hb Hg Hr Hi HD Hl Hsm) as HR.
  destruct (N xs rad beta gamma 0 HR Hst Hsol) as [N1 N2]. split; [exact N1|]. intros M near far n HJ HM Hn Hm.
  apply (N2 M near far n); [|exact HM| |exact Hm].
  - replace (beta ^ 2 * gamma * 0 + beta * (gamma / 2) * rad) with (beta * (gamma / 2) * rad) by ring. exact HJ.
  - replace (beta ^ 2 * gamma * 0) with 0 by ring. exact Hn.
Qed.
Lemma steady_nl_lspg_error :
  forall (eps : R) (X Y Rf Jf Rm Jm B Rs J H L W : Type) (no : nlops R X Rs J H) (ro : vops R Rs) (ap : J -> X -> Rs) (apH : H -> X -> X),
  nl_laws eps no ro ap apH ->
  forall (recon : X -> Y) (phi : B) (fom : steady_fom (Y:=Y) (Rf:=Rf) (Jf:=Jf) (B:=B) (W:=W)) (f : Y -> Rf) (df : Y -> B -> Jf),
  steady_rj_is true (fun _ => True) fom f df ->
  forall (P : Y -> Rf -> Rs) (PJ : Y -> Jf -> J)
    (prob : X -> Rs -> option J -> sobj Y Rf Jf W -> outcome unit * (Rs * option J * sobj Y Rf Jf W)),
  lspg_steady (Rm:=Rm) (Jm:=Jm) true (fun _ => True) recon phi fom Rs J P PJ prob ->
  forall xt : exts X Rs J H L,
  linear_ok xt (if_solvable (normal_exact apH)) (if_solvable (qr_exact no ap)) (if_solvable (newton_exact ap)) nothing ->
  forall wr wj, weights_ok xt wr wj nothing ->
  forall tag cf, gauss_newton tag cf ->
  forall s w r s' w', ls_object (Rops eps) s ->
  exec prob (ls_solve (Rops eps) no xt tag cf) (s, w) = (r, (s', w')) ->
  let F := fun x => P (recon x) (f (recon x)) in
  let DF := fun x => PJ (recon x) (df (recon x) phi) in
  forall (yo : vops R Y) (ip : Y -> Y -> R), vspace (Rops eps) yo -> DissipSpec.inner yo ip ->
  forall (ys : Y) (c K l : R), 0 < c ->
  forall around : Y -> Prop,
  (forall y, around y -> c * distance eps yo ip y ys <= n_rnorm no (P y (f y)) <= K * distance eps yo ip y ys) ->
  (forall x z, distance eps yo ip (recon x) (recon z) <= l * NewtonSpec.apart no x z) -> 0 <= l ->
  forall (xs : X) (rad beta gamma rho : R), regular_minimum no ro ap F DF xs rad beta gamma rho ->
  around (recon xs) -> (forall z, n_rnorm no (F xs) <= n_rnorm no (F z)) ->
  (forall x, NewtonSpec.apart no x xs <= rad -> forall b, exists d,
     match tag with
     | GaussNewtonQr => qr_exact no ap (DF x) b d
     | _ => normal_exact apH (n_jtj no (DF x) (DF x)) (n_jtr no (DF x) b) d
     end) ->
  NewtonSpec.apart no (g_x s) xs <= rad ->
  forall M near far n, judged_minimum (f_stop cf) (beta ^ 2 * gamma * rho + beta * (gamma / 2) * rad) beta M near far ->
  (f_stop cf = WhenAbsGradient -> forall z, NewtonSpec.apart no z xs <= rad -> forall v, n_rnorm no (ap (DF z) v) <= M * n_norm no v) ->
  near * shrunk (beta ^ 2 * gamma * rho) (beta * (gamma / 2)) (NewtonSpec.apart no (g_x s) xs) n < f_tol cf -> (Z.of_nat n < f_max cf)%Z ->
  forall z, around (recon z) -> distance eps yo ip (recon (g_x s')) ys <= l * (far * f_tol cf) + K / c * distance eps yo ip (recon z) ys.
Proof.
  intros eps X Y Rf Jf Rm Jm B Rs J H L W no ro ap apH HL recon phi fom f df Hfom P PJ prob HG xt Hlin wr wj Hw tag cf Hcf s w r s' w' Ho E F DF
    yo ip HY HI ys c K l Hc around Hg Hl Hl0 xs rad beta gamma rho HR Hxs Hbest Hsol Hst M near far n HJ HM Hn Hm z Haz.
  destruct (steady_lspg_gn no ro ap apH HL recon phi fom f df Hfom P PJ prob HG xt Hlin wr wj Hw tag cf Hcf s w r s' w' Ho E) as (_ & _ & N).
  destruct (N xs rad beta gamma rho HR Hst Hsol) as [_ N2]. specialize (N2 M near far n HJ HM Hn Hm).
  eapply Rle_trans; [apply (dist_triangle eps yo ip HY HI _ (recon xs))|]. apply Rplus_le_compat.
  - eapply Rle_trans; [apply Hl|]. apply Rmult_le_compat_l; [exact Hl0|exact N2].
  - apply (Rmult_le_reg_l c); [exact Hc|].
    replace (c * (K / c * distance eps yo ip (recon z) ys)) with (K * distance eps yo ip (recon z) ys) by (field; lra).
    eapply Rle_trans; [exact (proj1 (Hg (recon xs) Hxs))|]. eapply Rle_trans; [exact (Hbest z)|]. exact (proj2 (Hg (recon z) Haz)).
Qed.

(** C67, C68, C69: steady LSPG problems; the Trilinos updater of hyper-reduced problems. *)
From Coq Require Import ZArith List Bool Reals.
From Verif Require Import Base RInst Laws ExplicitModel ImplicitModel LspgModel LspgSpec RomSpec GalerkinModel GalerkinSpec
  NonlinDiag NonlinModel NonlinSpec NonlinLaws Tuples QrModel QrSpec QrExts
  SteadyLspgModel SteadyLspgSpec SteadyLspgProofs SteadyLspgSolve TrilinosModel TrilinosSpec TrilinosProofs.
Import ListNotations.

(** C67. Whatever was called before (the object [b] is arbitrary), the problem returns the FOM's
    residual and Jacobian action at the state of the trial space, masked and scaled. *)
Theorem C67_residual_and_jacobian :
  forall (X Y Rf Jf Rm Jm B W : Type) (must : bool) (good : W -> Prop) (recon : X -> Y) (phi : B)
    (fom : steady_fom (Y:=Y) (Rf:=Rf) (Jf:=Jf) (B:=B) (W:=W)) f df, steady_rj_is must good fom f df ->
  forall R J P PJ m, lspg_steady (Rm:=Rm) (Jm:=Jm) must good recon phi fom R J P PJ m ->
  forall x r j b, good (so_w b) ->
  returns must (fun b => good (so_w b)) (m x r j b)
    (P (recon x) (f (recon x)), option_map (fun _ => PJ (recon x) (df (recon x) phi)) j).
Proof. exact @steady_lspg_value. Qed.
Print Assumptions C67_residual_and_jacobian.

(** If what is done to residuals is linear and does not depend on the state, the Jacobian is the
    derivative of the residual. *)
Theorem C67_jacobian_is_derivative :
  forall (X Y Rf Jf Rm Jm B W Rs J : Type) (xo : vops R X) (yo : vops R Y) (ro : vops R Rf) (so : vops R Rs)
    (nx : X -> R) (ny : Y -> R) (nr : Rf -> R) (ns : Rs -> R),
  (forall d, 0 <= nx d)%R -> (forall d, 0 <= nr d)%R ->
  forall (recon bapp : X -> Y) (fapp : Jf -> X -> Rf) (sapp : J -> X -> Rs),
  (forall x d, recon (vadd xo x d) = vadd yo (recon x) (bapp d)) -> (exists K, forall d, ny (bapp d) <= K * nx d)%R ->
  forall must (good : W -> Prop) (phi : B) (fom : steady_fom (Y:=Y) (Rf:=Rf) (Jf:=Jf) (B:=B) (W:=W)) f df Df P PJ m,
  steady_rj_is must good fom f df ->
  (forall y, derivative2 yo ny ro nr f y (Df y)) -> (forall y d, fapp (df y phi) d = Df y (bapp d)) ->
  RomSpec.bounded ro nr so ns P -> (forall A d, sapp (PJ A) d = P (fapp A d)) ->
  lspg_steady (Rm:=Rm) (Jm:=Jm) must good recon phi fom Rs J (fun _ => P) (fun _ => PJ) m ->
  forall x r j b r' j' b', good (so_w b) -> m x r (Some j) b = (Ok tt, (r', Some j', b')) ->
  r' = P (f (recon x)) /\ derivative2 xo nx so ns (fun x => P (f (recon x))) x (sapp j').
Proof. intros. eapply steady_lspg_derivative; eassumption. Qed.
Print Assumptions C67_jacobian_is_derivative.

(** A failure of the FOM reaches the caller, and nothing is called after it. *)
Theorem C67_fom_failure :
  forall (X Y Rf Jf Rm Jm B W : Type) (recon : X -> Y) (phi : B)
    (fom : steady_fom (Y:=Y) (Rf:=Rf) (Jf:=Jf) (B:=B) (W:=W)) x (b : sobj Y Rf Jf W) e,
  e <> Ok tt ->
  (forall sc r j r1 j1 w1, sf_rj fom (recon x) r phi j (so_w b) = (e, (r1, j1, w1)) ->
     exists r' j' b', lspg_steady_default recon phi fom sc x r j b = (e, (r', j', b')) /\ so_w b' = w1) /\
  (forall msk sc (r : Rm) (j : option Jm) r1 j1 w1,
     sf_rj fom (recon x) (so_r b) phi (option_map (fun _ => so_j b) j) (so_w b) = (e, (r1, j1, w1)) ->
     exists b', lspg_steady_masked recon phi fom msk sc x r j b = (e, (r, j, b')) /\ so_w b' = w1).
Proof. exact @steady_lspg_failure. Qed.
Print Assumptions C67_fom_failure.

(** The FOM's Jacobian is only asked for if the caller wants the Jacobian. *)
Theorem C67_jacobian_only_on_request :
  forall (X Y Rf Jf Rm Jm B W : Type) (recon : X -> Y) (phi : B)
    (fom fom' : steady_fom (Y:=Y) (Rf:=Rf) (Jf:=Jf) (B:=B) (W:=W)),
  (forall y r w, sf_rj fom y r phi None w = sf_rj fom' y r phi None w) ->
  forall x (b : sobj Y Rf Jf W),
  (forall sc r, lspg_steady_default recon phi fom sc x r None b = lspg_steady_default recon phi fom' sc x r None b) /\
  (forall msk sc (r : Rm), lspg_steady_masked (Jm:=Jm) recon phi fom msk sc x r None b =
                           lspg_steady_masked recon phi fom' msk sc x r None b).
Proof. exact @steady_no_jacobian. Qed.
Print Assumptions C67_jacobian_only_on_request.

(** C68. A steady LSPG problem of an affine FOM, solved by Gauss-Newton: the solver returns, after
    at most one correction, and the FOM state it found has the smallest (masked, scaled) residual
    in the whole trial space, unless the initial guess already met the stop criterion. *)
Theorem C68_lspg_gauss_newton :
  forall (Y Rf Jf Rm Jm B W : Type) (eps : R) (m n : nat) (yo : vops R Y) (ro : vops R Rf), vspace (Rops eps) ro ->
  forall (recon : tup R n -> Y) (phi : B) (fapp : Jf -> tup R n -> Rf)
    (fom : steady_fom (Y:=Y) (Rf:=Rf) (Jf:=Jf) (B:=B) (W:=W)) f df Phi A,
  affine_fom (tvec (Rops eps) n) yo ro recon phi fapp f df Phi A ->
  forall (P : Rf -> tup R m) (PJ : Jf -> mat (S:=R) m n) problem wr wj tag cf
    (s : reg R (tup R n) (tup R m) (mat (S:=R) m n) (mat (S:=R) n n) (object eps m n)) (w : sobj Y Rf Jf W) r s' w',
  steady_rj_is true (fun _ => True) fom f df ->
  linear ro (tvec (Rops eps) m) P -> (forall a d, tapply (Rops eps) (PJ a) d = P (fapp a d)) ->
  lspg_steady (Rm:=Rm) (Jm:=Jm) true (fun _ => True) recon phi fom _ _ (fun _ => P) (fun _ => PJ) problem ->
  (forall d, P (A (Phi d)) = vzero (tvec (Rops eps) m) -> d = vzero (tvec (Rops eps) n)) ->
  ls_object (Rops eps) s -> tag = GaussNewton \/ tag = GaussNewtonQr -> f_update cf = UStandard ->
  f_stop cf = WhenAbsCorrection \/ f_stop cf = WhenRelCorrection \/ f_stop cf = WhenAbsGradient \/ f_stop cf = WhenRelGradient ->
  (0 < f_tol cf)%R -> (2 <= f_max cf < int32_max)%Z ->
  let no := tuple_ops (Rops eps) sqrt m n in
  exec problem (ls_solve (Rops eps) no (mgs_exts eps m n wr wj false) tag cf) (s, w) = (r, (s', w')) ->
  exists ls, g_log s' = g_log s ++ ls /\ r = Ok tt /\
    (length ls = 1%nat /\ g_x s' = g_x s \/
     length ls = 2%nat /\ forall z, (n_rnorm no (P (f (recon (g_x s')))) <= n_rnorm no (P (f (recon z))))%R) /\
    exists a l, ls = a ++ [l] /\ l_state l = g_x s' /\ line_met (Rops eps) cf l.
Proof. intros. eapply lspg_gauss_newton; eassumption. Qed.
Print Assumptions C68_lspg_gauss_newton.

(** The same for steady Galerkin problems and Newton's method: the projected residual is zero. *)
Theorem C68_galerkin_newton :
  forall (Y Rf Jf Rm Jm B W : Type) (eps : R) (n : nat) (yo : vops R Y) (ro : vops R Rf) (jo : vops R (mat (S:=R) n n)),
  vspace (Rops eps) ro -> vspace (Rops eps) jo ->
  forall (recon : tup R n -> Y) (phi : B) (fapp : Jf -> tup R n -> Rf)
    (fom : steady_fom (Y:=Y) (Rf:=Rf) (Jf:=Jf) (B:=B) (W:=W)) f df dv Phi A,
  affine_fom (tvec (Rops eps) n) yo ro recon phi fapp f df Phi A ->
  forall (P : Rf -> tup R n) (PJ : Jf -> mat (S:=R) n n) c wr wj cf
    (s : reg R (tup R n) (tup R n) (mat (S:=R) n n) (mat (S:=R) n n) (object eps n n)) (w : gobj Y Rf Jf unit Rm Jm W) r s' w',
  steady_is true (fun _ => True) fom f df dv ->
  linear ro (tvec (Rops eps) n) P -> (forall a d, tapply (Rops eps) (PJ a) d = P (fapp a d)) ->
  galerkin_steady true (fun _ => True) (Rops eps) (tvec (Rops eps) n) jo recon phi fom P PJ c ->
  (forall d, P (A (Phi d)) = vzero (tvec (Rops eps) n) -> d = vzero (tvec (Rops eps) n)) ->
  root_object (Rops eps) s -> root_supported cf -> f_update cf = UStandard -> (0 < f_tol cf)%R -> (2 <= f_max cf < int32_max)%Z ->
  exec (steady_method c) (root_solve (Rops eps) (tuple_ops (Rops eps) sqrt n n) (mgs_exts eps n n wr wj false) cf) (s, w)
    = (r, (s', w')) ->
  exists ls, g_log s' = g_log s ++ ls /\ r = Ok tt /\
    (length ls = 1%nat /\ g_x s' = g_x s \/
     length ls = 2%nat /\ P (f (recon (g_x s'))) = vzero (tvec (Rops eps) n)) /\
    exists a l, ls = a ++ [l] /\ l_state l = g_x s' /\ line_met (Rops eps) cf l.
Proof. intros. eapply galerkin_newton; eassumption. Qed.
Print Assumptions C68_galerkin_newton.

(** C69. The entries of the sample mesh are combined with those of the stencil mesh that have the
    same global index, and nothing else changes. *)
Theorem C69_same_index_partial :
  forall (S : Type) (o : sops S) (alpha beta : S) (sample stencil : tmv S),
  well_formed sample -> well_formed stencil ->
  incl (t_ids sample) (t_ids stencil) -> (length (t_cols sample) <= length (t_cols stencil))%nat ->
  exists v, update_sample o sample alpha stencil beta = Ok v /\ well_formed v /\ t_ids v = t_ids sample /\
    length (t_cols v) = length (t_cols sample) /\
    forall g j c, value v g j c <->
      exists a b, value sample g j a /\ value stencil g j b /\ c = sadd o (smul o alpha a) (smul o beta b).
Proof. exact @update_combines. Qed.
Print Assumptions C69_same_index_partial.

(** Without the assertion, an index that the stencil mesh does not have is an access out of bounds. *)
Theorem C69_missing_index_refuted :
  forall (S : Type) (o : sops S) (alpha beta : S) (sample stencil : tmv S) (g : Z),
  well_formed sample -> well_formed stencil -> t_cols sample <> [] -> t_cols stencil <> [] ->
  In g (t_ids sample) -> ~ In g (t_ids stencil) ->
  update_sample o sample alpha stencil beta = Undef UOutOfBounds.
Proof. exact @update_missing. Qed.
Print Assumptions C69_missing_index_refuted.

(** With it the hyper-reduced LSPG problem gives the entries of the full problem's residual and
    Jacobian on the sample mesh (compare C38_hyper_reduced). *)
Theorem C69_hyper_reduced :
  forall (S X W : Type) (o : sops S), sfield o -> schar0 o ->
  forall (N k : nat) (sample stencil : list Z), incl sample stencil ->
  let E := restricted o stencil in let P := restricted o sample in
  forall (recon : X -> tup S N) (fom fh : sfom) (phi : tup (tup S N) k),
  fom_restricts E P (restricted_cols o stencil) (restricted_cols o sample) fom fh ->
  forall (name : scheme) (x : X) (st : list X) fs fsh (t : S) (step : Z) (dt : S) r rh Jo Joh (p : lpol (W:=W)),
  Joh = None <-> Jo = None ->
  let '(eh, (fsh', rh', jh', ph')) :=
    hypred_policy o (tvec o (length stencil)) (fun x => E (recon x)) fh (restricted_cols o stencil phi)
      (tpetra_updater o sample stencil k) name x st fsh t step dt rh Joh
      (mk_lpol (states_restrict E (lp_h p)) (lp_w p)) in
  let '(e, (fs', r', j', p')) := default_policy o (tvec o N) (colvec o N k) recon fom phi name x st fs t step dt r Jo p in
  eh = e /\ fsh' = fsh /\ fs' = fs /\ ph' = mk_lpol (states_restrict E (lp_h p')) (lp_w p') /\
  (e = Ok tt -> rh' = P r' /\ jh' = option_map (restricted_cols o sample) j').
Proof. exact @tpetra_problem_restricts. Qed.
Print Assumptions C69_hyper_reduced.

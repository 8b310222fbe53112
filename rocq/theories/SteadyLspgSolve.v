(** Steady problems of an affine FOM with the nonlinear solvers (C68). *)
From Coq Require Import ZArith List Bool Reals Lra.
From Verif Require Import Base RInst Laws LawInst ImplicitModel LspgModel GalerkinModel GalerkinSpec GalerkinProofs
  NonlinDiag NonlinModel NonlinSpec NonlinLaws Tuples QrModel QrSpec QrSolve QrExts QrEnd
  SteadyLspgModel SteadyLspgSpec SteadyLspgProofs.
Import ListNotations.
Local Open Scope R_scope.

Section Solve.
  Context {Y Rf Jf Rm Jm B W : Type} (eps : R) (m n : nat).
  Notation o := (Rops eps).
  Notation X := (tup R n).
  Notation xo := (tvec o n).
  Variables (yo : vops R Y) (ro : vops R Rf).
  Hypothesis HR : vspace o ro.
  Variables (recon : X -> Y) (phi : B) (fapp : Jf -> X -> Rf).
  Variable fom : steady_fom (Y:=Y) (Rf:=Rf) (Jf:=Jf) (B:=B) (W:=W).
  Variables (f : Y -> Rf) (df : Y -> B -> Jf) (Phi : X -> Y) (A : Y -> Rf).
  Hypothesis HA : affine_fom xo yo ro recon phi fapp f df Phi A.

  (** The reduced residual is affine. *)
  Lemma reduced_affine (P : Rf -> tup R m) (PJ : Jf -> mat (S:=R) m n) :
    linear ro (tvec o m) P -> (forall a d, tapply o (PJ a) d = P (fapp a d)) ->
    exists j b, (forall y, df y phi = j) /\ (forall d, tapply o (PJ j) d = P (A (Phi d))) /\
      forall x, P (f (recon x)) = affine (tvec o m) (tapply o) (PJ j) b x.
  Proof.
    intros HP HPJ. destruct HA as [[t Ht] HL [b0 Hb] [j [Hj1 Hj2]]].
    exists j, (P (vadd ro (A t) b0)). split; [exact Hj1|].
    assert (E : forall d, tapply o (PJ j) d = P (A (Phi d))) by (intros d; rewrite HPJ, Hj2; reflexivity).
    split; [exact E|]. intros x. unfold affine. rewrite E, Hb, Ht, (lin_add _ _ _ HL), <- (lin_add _ _ _ HP).
    f_equal. symmetry. apply (va_assoc _ _ HR).
  Qed.

  Lemma lspg_gauss_newton (P : Rf -> tup R m) (PJ : Jf -> mat (S:=R) m n) prob wr wj tag cf
    (s : reg R X (tup R m) (mat (S:=R) m n) (mat (S:=R) n n) (object eps m n)) (w : sobj Y Rf Jf W) r s' w' :
    steady_rj_is true (fun _ => True) fom f df ->
    linear ro (tvec o m) P -> (forall a d, tapply o (PJ a) d = P (fapp a d)) ->
    lspg_steady (Rm:=Rm) (Jm:=Jm) true (fun _ => True) recon phi fom _ _ (fun _ => P) (fun _ => PJ) prob ->
    (forall d, P (A (Phi d)) = vzero (tvec o m) -> d = vzero xo) ->
    ls_object o s -> tag = GaussNewton \/ tag = GaussNewtonQr -> f_update cf = UStandard ->
    f_stop cf = WhenAbsCorrection \/ f_stop cf = WhenRelCorrection \/ f_stop cf = WhenAbsGradient \/ f_stop cf = WhenRelGradient ->
    0 < f_tol cf -> (2 <= f_max cf < int32_max)%Z ->
    exec prob (ls_solve o (tuple_ops o sqrt m n) (mgs_exts eps m n wr wj false) tag cf) (s, w) = (r, (s', w')) ->
    exists ls, g_log s' = g_log s ++ ls /\ r = Ok tt /\
      ((length ls = 1%nat /\ g_x s' = g_x s) \/
       (length ls = 2%nat /\ forall z, n_rnorm (tuple_ops o sqrt m n) (P (f (recon (g_x s')))) <=
                                       n_rnorm (tuple_ops o sqrt m n) (P (f (recon z))))) /\
      exists a l, ls = a ++ [l] /\ l_state l = g_x s' /\ line_met o cf l.
  Proof.
    intros HF HP HPJ HG Hinj Ho Htag Hu Hst Ht Hmax E.
    destruct (reduced_affine P PJ HP HPJ) as (j & b & Hj & Hap & Hres).
    assert (Hc : computes prob (affine (tvec o m) (tapply o) (PJ j) b) (fun _ => PJ j)).
    { intros x r0 j0 w0.
      destruct (steady_lspg_value true (fun _ => True) recon phi fom f df HF _ _ _ _ _ HG x r0 j0 w0 I) as (_ & V & M).
      specialize (M eq_refl). specialize (V M). destruct (prob x r0 j0 w0) as [e [[r1 j1] w1]]. cbn [fst snd] in *. subst e.
      injection V as -> ->. rewrite Hres. eexists. eexists. split; [reflexivity|]. destruct j0; [|exact I].
      cbn [option_map]. rewrite Hj. reflexivity. }
    assert (Hf : full_rank (tuple_ops o sqrt m n) (tvec o m) (tapply o) (PJ j)).
    { intros v Hv. apply Hinj. rewrite <- Hap. exact Hv. }
    destruct (gn_mgs eps m n wr wj _ prob (PJ j) b Hc Hf tag cf s w r s' w' Ho Htag Hu Hst Ht Hmax E)
      as (ls & L1 & L2 & L3 & L4).
    exists ls. split; [exact L1|]. split; [exact L2|]. split; [|exact L4].
    destruct L3 as [L3|[L3 L5]]; [left; exact L3|right]. split; [exact L3|]. intros z. rewrite !Hres. apply L5.
  Qed.
End Solve.

(** Steady Galerkin problems with Newton's method *)
Section SolveGalerkin.
  Context {Y Rf Jf Rm Jm B W : Type} (eps : R) (n : nat).
  Notation o := (Rops eps).
  Notation X := (tup R n).
  Notation xo := (tvec o n).
  Variables (yo : vops R Y) (ro : vops R Rf) (jo : vops R (mat (S:=R) n n)).
  Hypotheses (HR : vspace o ro) (HJ : vspace o jo).
  Variables (recon : X -> Y) (phi : B) (fapp : Jf -> X -> Rf).
  Variable fom : steady_fom (Y:=Y) (Rf:=Rf) (Jf:=Jf) (B:=B) (W:=W).
  Variables (f : Y -> Rf) (df : Y -> B -> Jf) (dv : Y -> Y -> Rf) (Phi : X -> Y) (A : Y -> Rf).
  Hypothesis HA : affine_fom xo yo ro recon phi fapp f df Phi A.
  Lemma galerkin_newton (P : Rf -> X) (PJ : Jf -> mat (S:=R) n n) c wr wj cf
    (s : reg R X X (mat (S:=R) n n) (mat (S:=R) n n) (object eps n n)) (w : gobj Y Rf Jf unit Rm Jm W) r s' w' :
    steady_is true (fun _ => True) fom f df dv ->
    linear ro xo P -> (forall a d, tapply o (PJ a) d = P (fapp a d)) ->
    galerkin_steady true (fun _ => True) o xo jo recon phi fom P PJ c ->
    (forall d, P (A (Phi d)) = vzero xo -> d = vzero xo) ->
    root_object o s -> root_supported cf -> f_update cf = UStandard -> 0 < f_tol cf -> (2 <= f_max cf < int32_max)%Z ->
    exec (steady_method c) (root_solve o (tuple_ops o sqrt n n) (mgs_exts eps n n wr wj false) cf) (s, w) = (r, (s', w')) ->
    exists ls, g_log s' = g_log s ++ ls /\ r = Ok tt /\
      ((length ls = 1%nat /\ g_x s' = g_x s) \/ (length ls = 2%nat /\ P (f (recon (g_x s'))) = vzero xo)) /\
      exists a l, ls = a ++ [l] /\ l_state l = g_x s' /\ line_met o cf l.
  Proof.
    intros HF HP HPJ HG Hinj Ho Hsup Hu Ht Hmax E.
    destruct (reduced_affine eps n n yo ro HR recon phi fapp f df Phi A HA P PJ HP HPJ) as (j & b & Hj & Hap & Hres).
    assert (Hc : computes (steady_method c) (affine xo (tapply o) (PJ j) b) (fun _ => PJ j)).
    { intros x r0 j0 w0.
      destruct (steady_value o xo jo (tvec_space o (R_field eps) n) HJ true (fun _ => True) recon phi fom f df dv HF P PJ c HG x r0 j0 w0 I) as (_ & V & M).
      specialize (M eq_refl). specialize (V M). destruct (steady_method c x r0 j0 w0) as [e [[r1 j1] w1]]. cbn [fst snd] in *. subst e.
      injection V as -> ->. rewrite Hres. eexists. eexists. split; [reflexivity|]. destruct j0; [|exact I].
      cbn [option_map]. rewrite Hj. reflexivity. }
    assert (Hf : full_rank (tuple_ops o sqrt n n) xo (tapply o) (PJ j)).
    { intros v Hv. apply Hinj. rewrite <- Hap. exact Hv. }
    destruct (newton_mgs eps n wr wj _ (steady_method c) (PJ j) b Hc Hf cf s w r s' w' Ho Hsup Hu Ht Hmax E)
      as (ls & L1 & L2 & L3 & L4).
    exists ls. split; [exact L1|]. split; [exact L2|]. split; [|exact L4].
    destruct L3 as [L3|[L3 L5]]; [left; exact L3|right]. split; [exact L3|]. rewrite Hres. exact L5.
  Qed.
End SolveGalerkin.

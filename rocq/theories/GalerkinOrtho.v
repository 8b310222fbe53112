(** The implicit Galerkin step and the FOM's time-discrete residual (C63). *)
From Coq Require Import ZArith List Bool Field QArith Qcanon.
From Verif Require Import Base QcInst Laws LawInst ExplicitModel ExplicitExtra ImplicitModel ImplicitSpec ImplicitClaims LspgModel RomSpec
  GalerkinModel GalerkinSpec GalerkinProofs GalerkinClaims.
Import ListNotations.
Local Open Scope Z_scope.

Section Ortho.
  Context {S X Y Jf Mf Rm Jm J B W : Type} (o : sops S) (xo : vops S X) (yo : vops S Y) (jo : vops S J).
  Hypotheses (HF : sfield o) (HC : schar0 o) (HX : vspace o xo) (HY : vspace o yo) (HJ : vspace o jo).
  Add Field Sf : (sfield_th o HF).
  Variables (jid : J) (japp : J -> X -> X).
  Variables (recon bapp : X -> Y) (tr : Y) (phi : B).
  Hypothesis Hbapp : linear xo yo bapp.
  Hypothesis Hrecon : forall x, recon x = vadd yo (bapp x) tr.
  Variable fom : sfom (S:=S) (Y:=Y) (R:=Y) (J:=Jf) (B:=B) (W:=W).
  Variables (f : Y -> S -> Y) (df : Y -> B -> S -> Jf).
  Hypothesis Hf : fom_rhs false (fun _ => True) fom f.
  Hypothesis Hdf : fom_jac false (fun _ => True) fom df.
  Variables (prodv : S -> B -> Y -> S -> X -> X) (prodj : S -> B -> Jf -> S -> J -> J) (T : Y -> X) (TJ : Jf -> J).
  Hypothesis HT : product_is xo prodv phi T.
  Hypothesis HTJ : product_is jo prodj phi TJ.
  Hypothesis HTlin : linear yo xo T.
  Notation go := (gobj Y Y Jf Mf Rm Jm W).
  Notation sys := (rhs_jac_system (Mf:=Mf) (Rm:=Rm) (Jm:=Jm) (default_rhs_jac o recon phi prodv prodj fom)).

  Lemma default_rhs_is : rhs_is sys (fun x t => T (f (recon x) t)).
  Proof.
    intros x t r j b f' j' b' E. cbn in E.
    destruct (rhs_jac_value o xo jo HX HJ false (fun _ => True) recon phi fom f df Hf Hdf (fun _ => T) (fun _ => TJ) _
      (DefaultRhsJac false (fun _ => True) o xo jo recon phi fom prodv prodj T TJ HT HTJ) x t r j b I) as (_ & V & _).
    rewrite E in V. specialize (V eq_refl). cbn in V. injection V as -> _. reflexivity.
  Qed.
  Ltac push := rewrite ?Hrecon; unfold bdf1_R, bdf2_R, vminus;
    rewrite ?(lin_add _ _ _ HTlin), ?(lin_scale _ _ _ HTlin), ?(lin_add _ _ _ HTlin), ?(lin_scale _ _ _ HTlin).
  Section Orthonormal.
    Hypothesis Hortho : forall d, T (bapp d) = d.
    Lemma ortho_bdf1 x_n st t k dt x R Jo g r jo' g' :
      std_rj (policy_std o xo jo jid sys) BDF1 (x_n :: st) t k dt x R Jo g = (Ok tt, (r, jo', g')) ->
      r = T (bdf1_R o yo (recon x_n) dt (f (recon x) t) (recon x)).
    Proof.
      intros E. destruct (shown_bdf1 o xo jo jid sys HF HX HJ _ (fun _ _ => jid) default_rhs_is _ _ _ _ _ _ _ _ _ _ _ _ E) as [-> _].
      push. rewrite !Hortho. rewrite <- !Hrecon. vreduce o xo HF HX; unfold neg1; ring.
    Qed.
    Lemma ortho_bdf2 x_n x_nm1 st t k dt x R Jo g r jo' g' : k <> 1 ->
      std_rj (policy_std o xo jo jid sys) BDF2 (x_n :: x_nm1 :: st) t k dt x R Jo g = (Ok tt, (r, jo', g')) ->
      r = T (bdf2_R o yo (recon x_n) (recon x_nm1) dt (f (recon x) t) (recon x)).
    Proof.
      intros Hk E. destruct (shown_bdf2 o xo jo jid sys HF HC HX HJ _ (fun _ _ => jid) default_rhs_is _ _ _ _ _ _ _ _ _ _ _ _ _ Hk E) as [-> _].
      push. rewrite !Hortho. rewrite <- !Hrecon. unfold frac.
      assert (H3 : sadd o (s1 o) (sadd o (s1 o) (s1 o)) <> s0 o).
      { intros Q0. apply (HC 3%positive). cbn. rewrite <- Q0. ring. }
       vreduce o xo HF HX; unfold neg1; cbn; try ring. field. exact H3.
    Qed.
  End Orthonormal.

  (** With the reduced mass matrix: [mapp y t] is the FOM's mass matrix. *)
  Variable mass : Y -> B -> S -> Mf -> W -> outcome unit * (Mf * W).
  Variables (dm : Y -> B -> S -> Mf) (mapp : Y -> S -> Y -> Y).
  Hypothesis Hm : fom_mass false (fun _ => True) mass dm.
  Hypothesis Hmlin : forall y t, linear yo yo (mapp y t).
  Variables (prodm : S -> B -> Mf -> S -> J -> J) (TM : Mf -> J).
  Hypothesis HTM : product_is jo prodm phi TM.
  Hypothesis HTMapp : forall y t d, japp (TM (dm y phi t)) d = T (mapp y t (bapp d)).
  Notation msys := (mass_rhs_jac_system (Rm:=Rm) (Jm:=Jm) (default_mass_rhs_jac o recon phi prodv prodj prodm fom mass)).
  Lemma default_rhs_mass_is : rhs_mass_is msys (fun x t => TM (dm (recon x) phi t)) (fun x t => T (f (recon x) t)).
  Proof.
    intros x t m r j b m' f' j' b' E. cbn in E.
    destruct (mass_rhs_jac_value o xo jo HX HJ false (fun _ => True) recon phi fom f df Hf Hdf mass dm Hm prodv prodj prodm
      T TJ TM HT HTJ HTM x t m r j b I) as (_ & V & _).
    rewrite E in V. specialize (V eq_refl). cbn in V. injection V as -> -> _. split; reflexivity.
  Qed.
  Lemma ortho_bdf1_mm x_n st t k dt x R Jo g r jo' g' :
    std_rj (policy_mm o xo jo japp msys) BDF1 (x_n :: st) t k dt x R Jo g = (Ok tt, (r, jo', g')) ->
    r = T (bdf1_R_mm o yo (fun m v => m v) (recon x_n) dt (mapp (recon x) t) (f (recon x) t) (recon x)).
  Proof.
    intros E. destruct (shown_bdf1_mm o xo jo japp msys HF HX HJ _ (fun _ _ => jid) _ default_rhs_mass_is _ _ _ _ _ _ _ _ _ _ _ _ E) as [-> _].
    unfold bdf1_R_mm. rewrite HTMapp.
    replace (vminus o yo (recon x) (recon x_n)) with (bapp (vminus o xo x x_n)).
    - unfold vminus. rewrite ?(lin_add _ _ _ HTlin), ?(lin_scale _ _ _ HTlin). rewrite ?(lin_scale _ _ _ HTlin). reflexivity.
    - rewrite !Hrecon. unfold vminus. rewrite (lin_add _ _ _ Hbapp), (lin_scale _ _ _ Hbapp).
      vreduce o yo HF HY; unfold neg1; ring.
  Qed.
  Lemma ortho_bdf2_mm x_n x_nm1 st t k dt x R Jo g r jo' g' : k <> 1 ->
    std_rj (policy_mm o xo jo japp msys) BDF2 (x_n :: x_nm1 :: st) t k dt x R Jo g = (Ok tt, (r, jo', g')) ->
    r = T (bdf2_R_mm o yo (fun m v => m v) (recon x_n) (recon x_nm1) dt (mapp (recon x) t) (f (recon x) t) (recon x)).
  Proof.
    intros Hk E. destruct (shown_bdf2_mm o xo jo japp msys HF HC HX HJ _ (fun _ _ => jid) _ default_rhs_mass_is _ _ _ _ _ _ _ _ _ _ _ _ _ Hk E) as [-> _].
    assert (H3 : sadd o (s1 o) (sadd o (s1 o) (s1 o)) <> s0 o).
      { intros Q0. apply (HC 3%positive). cbn. rewrite <- Q0. ring. } 
    unfold bdf2_R_mm. rewrite HTMapp.
    replace (vadd yo (vminus o yo (recon x) (vscale yo (frac o 4 3) (recon x_n))) (vscale yo (frac o 1 3) (recon x_nm1)))
      with (bapp (vadd xo (vminus o xo x (vscale xo (frac o 4 3) x_n)) (vscale xo (frac o 1 3) x_nm1))).
    - unfold vminus. rewrite ?(lin_add _ _ _ HTlin), ?(lin_scale _ _ _ HTlin). rewrite ?(lin_scale _ _ _ HTlin). reflexivity.
    - rewrite !Hrecon. unfold vminus. rewrite !(lin_add _ _ _ Hbapp), !(lin_scale _ _ _ Hbapp). unfold frac.
      vreduce o yo HF HY; unfold neg1; cbn; try ring. field. exact H3.
  Qed.
End Ortho.

(** * Basis 2 on the line, y' = y: the accepted state makes the FOM's residual not orthogonal *)
Definition two_fom : sfom (S:=Qc) (Y:=Qc) (R:=Qc) (J:=Qc) (B:=Qc) (W:=unit) :=
  mk_sfom (fun y t r w => (Ok tt, (y, w))) (fun y phi t j w => (Ok tt, (phi, w))).
Definition two_prod (a phi v b r : Qc) : Qc := (a * (phi * v) + b * r)%Qc.
Definition two_recon (x : Qc) : Qc := (q 2 * x)%Qc.
Definition two_obj : gobj Qc Qc Qc unit unit unit unit := mk_gobj (q 0) (q 0) (q 0) tt tt tt tt.
Definition two_sys := rhs_jac_system (Mf:=unit) (Rm:=unit) (Jm:=unit)
  (default_rhs_jac QcS two_recon (q 2) two_prod two_prod two_fom).
Lemma two_product : product_is QcV two_prod (q 2) (fun v => q 2 * v)%Qc.
Proof. intros a v b r. reflexivity. Qed.
Lemma not_orthogonal :
  exists x_n dt x jo' g',
    std_rj (policy_std QcS QcV QcV (q 1) two_sys) BDF1 [x_n] (q 0) 1 dt x (q 0) None ([], mk_ppol (-1) two_obj)
      = (Ok tt, (q 0, jo', g')) /\
    (q 2 * bdf1_R QcS QcV (two_recon x_n) dt (two_recon x) (two_recon x))%Qc <> q 0.
Proof.
  exists (q 1), (q 1 / q 8)%Qc, (q 2). do 2 eexists. split; [vm_compute; reflexivity|].
  intros E. apply (f_equal this) in E. revert E. vm_compute. discriminate.
Qed.

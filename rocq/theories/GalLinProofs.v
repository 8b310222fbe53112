(** C83: proofs. *)
From Coq Require Import Reals ZArith List Lra Lia FunctionalExtensionality.
From Verif Require Import Base RInst Laws LawInst AdvanceModel AdvanceSpec AdvanceProofs TargetProofs Track ExplicitModel ImplicitModel ImplicitSpec
  ImplicitSim LspgModel RomSpec GalerkinModel GalerkinSpec GalerkinProofs GalerkinClaims NonlinDiag NonlinModel NonlinSpec NonlinLaws NonlinMoreSpec RomLsSpec
  StabilitySpec StabilityOrder DissipSpec DissipProofs DissipChain DissipClaims RomErrorClaims RomErrorRuns LinRunSpec LinRunProofs LinRunClaims GalLinSpec.
Import ListNotations.
Local Open Scope R_scope.

Section Rom.
  Context {X Y Rf Jf Mf Rm Jm J B W : Type} (eps : R) (xo : vops R X) (yo : vops R Y) (ro : vops R Rf) (jo : vops R J).
  Variables (ap : J -> X -> X) (fapp : Jf -> X -> Rf) (recon bapp : X -> Y) (off : Y) (phi : B).
  Variables (fom : sfom (S:=R) (Y:=Y) (R:=Rf) (J:=Jf) (B:=B) (W:=W)) (f : Y -> R -> Rf) (D : R -> Y -> Rf) (AB : R -> Jf).
  Variables (P : R -> Rf -> X) (PJ : R -> Jf -> J).
  Variable c : X -> R -> gcmd (X:=X) (Y:=Y) (Rf:=Rf) (Jf:=Jf) (Mf:=Mf) (Rm:=Rm) (Jm:=Jm) (J:=J) (M:=unit) (W:=W).
  Notation o := (Rops eps).
  Hypothesis HR : linear_rom eps xo yo ro jo ap fapp recon bapp off phi fom f D AB P PJ c.
  Hypotheses (HX : vspace o xo) (HJ : vspace o jo).
  Lemma reduced_linear : linear_rhs xo ap (fun t => PJ t (AB t)) (fun t => P t (f off t)) = reduced recon f P.
  Proof.
    apply functional_extensionality. intros x. apply functional_extensionality. intros t. unfold linear_rhs, reduced.
    rewrite (lr_recon _ _ _ _ _ _ _ _ _ _ _ _ _ _ _ _ _ _ HR), (va_comm _ _ (lr_space _ _ _ _ _ _ _ _ _ _ _ _ _ _ _ _ _ _ HR)).
    rewrite (lr_affine _ _ _ _ _ _ _ _ _ _ _ _ _ _ _ _ _ _ HR), (lin_add _ _ _ (lr_reduce _ _ _ _ _ _ _ _ _ _ _ _ _ _ _ _ _ _ HR t)).
    rewrite (lr_reduce_jac _ _ _ _ _ _ _ _ _ _ _ _ _ _ _ _ _ _ HR), (lr_action _ _ _ _ _ _ _ _ _ _ _ _ _ _ _ _ _ _ HR).
    apply (va_comm _ _ HX).
  Qed.
  Lemma rom_linear_user : linear_user xo ap (rhs_jac_system c) (fun t => PJ t (AB t)) (fun t => P t (f off t)).
  Proof.
    intros x t r j b. cbn. destruct (lr_jac _ _ _ _ _ _ _ _ _ _ _ _ _ _ _ _ _ _ HR) as (df & Hdf & Hd).
    destruct (rhs_jac_value o xo jo HX HJ true (fun _ => True) recon phi fom f df (lr_rhs _ _ _ _ _ _ _ _ _ _ _ _ _ _ _ _ _ _ HR) Hdf P PJ c
      (lr_kind _ _ _ _ _ _ _ _ _ _ _ _ _ _ _ _ _ _ HR) x t r j b I) as (_ & V & M).
    destruct (rhs_jac_method c x t r j b) as [e [v b']]. cbn [fst snd] in *. rewrite (M eq_refl) in *. rewrite (V eq_refl).
    exists b'. rewrite Hd. change (P t (f (recon x) t)) with (reduced recon f P x t). rewrite <- reduced_linear. reflexivity.
  Qed.
End Rom.

Section Lifted.
  Context {X Y Jf Mf Rm Jm J B W : Type} (eps : R) (xo : vops R X) (yo : vops R Y) (jo : vops R J).
  Variables (ap : J -> X -> X) (fapp : Jf -> X -> Y) (recon bapp : X -> Y) (off : Y) (phi : B).
  Variables (fom : sfom (S:=R) (Y:=Y) (R:=Y) (J:=Jf) (B:=B) (W:=W)) (f : Y -> R -> Y) (D : R -> Y -> Y) (AB : R -> Jf).
  Variables (P : R -> Y -> X) (PJ : R -> Jf -> J).
  Variable c : X -> R -> gcmd (X:=X) (Y:=Y) (Rf:=Y) (Jf:=Jf) (Mf:=Mf) (Rm:=Rm) (Jm:=Jm) (J:=J) (M:=unit) (W:=W).
  Notation o := (Rops eps).
  Hypothesis HR : linear_rom eps xo yo yo jo ap fapp recon bapp off phi fom f D AB P PJ c.
  Hypothesis HX : vspace o xo.
  Let HF := R_field eps.
  Let HC := R_char0 eps.
  Let Hrec := lr_recon _ _ _ _ _ _ _ _ _ _ _ _ _ _ _ _ _ _ HR.
  Let Hred := lr_reduce _ _ _ _ _ _ _ _ _ _ _ _ _ _ _ _ _ _ HR.
  Section Left.
    Hypothesis Hpb : forall t x, P t (bapp x) = x.
    Lemma reduce_recon t x : P t (recon x) = vadd xo x (P t off).
    Proof. rewrite Hrec, (lin_add _ _ _ (Hred t)), Hpb. reflexivity. Qed.
    Lemma back_bdf1 t h x_n x F : recon x = vadd yo (recon x_n) (vscale yo h F) -> x = vadd xo x_n (vscale xo h (P t F)).
    Proof.
      intros E. apply (f_equal (P t)) in E. rewrite (lin_add _ _ _ (Hred t)), (lin_scale _ _ _ (Hred t)), !reduce_recon in E.
      transitivity (vminus o xo (vadd xo x (P t off)) (P t off)); [unfold vminus, neg1; vreduce (Rops eps) xo HF HX; cbn; lra|].
      rewrite E. unfold vminus, neg1. vreduce (Rops eps) xo HF HX; cbn; lra.
    Qed.
    Lemma back_bdf2 t h x_n x_m x F :
      vadd yo (recon x) (vscale yo (frac o 1 3) (recon x_m)) = vadd yo (vscale yo (frac o 4 3) (recon x_n)) (vscale yo (smul o (frac o 2 3) h) F) ->
      vadd xo x (vscale xo (frac o 1 3) x_m) = vadd xo (vscale xo (frac o 4 3) x_n) (vscale xo (smul o (frac o 2 3) h) (P t F)).
    Proof.
      intros E. apply (f_equal (P t)) in E.
      rewrite !(lin_add _ _ _ (Hred t)), !(lin_scale _ _ _ (Hred t)), !reduce_recon in E.
      transitivity (vminus o xo (vadd xo (vadd xo x (P t off)) (vscale xo (frac o 1 3) (vadd xo x_m (P t off)))) (vscale xo (frac o 4 3) (P t off)));
        [unfold vminus, neg1, frac; vreduce (Rops eps) xo HF HX; cbn; lra|].
      rewrite E. unfold vminus, neg1, frac. vreduce (Rops eps) xo HF HX; cbn; lra.
    Qed.
    Lemma scheme_reduced name : (name = CrankNicolson -> forall t t' y, P t y = P t' y) -> forall past t dt x,
      scheme_step o yo f name (map recon past) t dt (recon x) -> scheme_step o xo (reduced recon f P) name past t dt x.
    Proof.
      intros Hcn past t dt x.
      assert (B1 : forall x_n, bdf1_eq yo (fun y => f y (sadd o t dt)) (recon x_n) dt (recon x) -> bdf1_eq xo (fun x => reduced recon f P x (sadd o t dt)) x_n dt x)
        by (intros x_n; exact (back_bdf1 _ _ _ _ _)).
      destruct past as [|x_n [|x_m past]]; destruct name; cbn [scheme_step fom_step map]; try exact (fun H => H); try exact (B1 _).
      - unfold cn_eq. intros E. apply back_bdf1 with (t := sadd o t dt) in E. rewrite (lin_add _ _ _ (Hred _)), (Hcn eq_refl (sadd o t dt) t (f (recon x_n) t)) in E. exact E.
      - unfold bdf2_eq. exact (back_bdf2 _ _ _ _ _ _).
      - unfold cn_eq. intros E. apply back_bdf1 with (t := sadd o t dt) in E. rewrite (lin_add _ _ _ (Hred _)), (Hcn eq_refl (sadd o t dt) t (f (recon x_n) t)) in E. exact E.
    Qed.
  End Left.
  Variables (ip : Y -> Y -> R) (xip : X -> X -> R).
  Hypotheses (HI : DissipSpec.inner yo ip) (HXI : DissipSpec.inner xo xip).
  Hypothesis Hadj : forall t y a, ip y (bapp a) = xip (P t y) a.
  Hypothesis HD : dissipative eps yo ip f.
  Lemma rom_dissipative : dissipative eps xo xip (reduced recon f P).
  Proof.
    intros x z t. exact (galerkin_dissipative eps xo yo (lr_space _ _ _ _ _ _ _ _ _ _ _ _ _ _ _ _ _ _ HR) recon bapp off
      (lr_basis _ _ _ _ _ _ _ _ _ _ _ _ _ _ _ _ _ _ HR) Hrec ip xip HI HXI f (P t) (Hadj t) HD x z t).
  Qed.
End Lifted.

(** Exact roots are exact in every length that vanishes at zero. *)
Section Lengths.
  Context {X Y : Type} (eps : R) (xo : vops R X) (yo : vops R Y) (xip : X -> X -> R) (ip : Y -> Y -> R) (bapp : X -> Y).
  Notation o := (Rops eps).
  Hypotheses (HX : vspace o xo) (HY : vspace o yo) (Hlin : linear xo yo bapp) (HI : DissipSpec.inner yo ip) (HXI : DissipSpec.inner xo xip) (Hdef : definite xo xip).
  Notation xip' := (fun a b => ip (bapp a) (bapp b)).
  Lemma other_length v : length_of xip v <= 0 -> length_of xip' v <= 0.
  Proof.
    intros Hv. assert (E : v = vzero xo).
    { apply Hdef. unfold length_of in Hv. pose proof (ip_pos _ _ HXI v) as H0. apply sqrt_eq_0; [exact H0|].
      apply Rle_antisym; [exact Hv|apply sqrt_pos]. }
    subst v. unfold length_of. replace (bapp (vzero xo)) with (vscale yo 0 (bapp (vzero xo))).
    - rewrite (ip_scale _ _ HI), Rmult_0_l, sqrt_0. apply Rle_refl.
    - rewrite <- (lin_scale _ _ _ Hlin). f_equal. exact (scale_none o xo (R_field eps) HX (vzero xo)).
  Qed.
  Variables (d : X -> R -> X).
  Lemma run_lengths (near near' : (nat -> R) -> (nat -> R) -> nat -> (nat -> X) -> Prop) start x0 tr :
    (forall ts n z, near ts (fun _ => 0) n z -> near' ts (fun _ => 0) n z) ->
    run_of (V:=X) 0 near start x0 tr -> run_of (V:=X) 0 near' start x0 tr.
  Proof. intros HN (n & ts & z & E1 & E2 & HB & H). exists n, ts, z. split; [exact E1|]. split; [exact E2|]. split; [exact HB|]. apply HN. exact H. Qed.
  Lemma other_bdf1 start x0 tr : run_of 0 (near_bdf1 eps xo xip d) start x0 tr -> run_of 0 (near_bdf1 eps xo xip' d) start x0 tr.
  Proof. apply run_lengths. intros ts n z H k Hk. apply other_length. exact (H k Hk). Qed.
  Lemma other_bdf2 start x0 tr : run_of 0 (near_bdf2 eps xo xip d) start x0 tr -> run_of 0 (near_bdf2 eps xo xip' d) start x0 tr.
  Proof. apply run_lengths. intros ts n z [H0 H]. split; [intros Hn; apply other_length; exact (H0 Hn)|intros k Hk; apply other_length; exact (H k Hk)]. Qed.
  Lemma other_cn start x0 tr : run_of 0 (near_cn eps xo xip d) start x0 tr -> run_of 0 (near_cn eps xo xip' d) start x0 tr.
  Proof. apply run_lengths. intros ts n z H k Hk. apply other_length. exact (H k Hk). Qed.
End Lengths.

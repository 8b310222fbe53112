(** C93: proofs. *)
From Coq Require Import Reals ZArith List Lra Lia.
From Verif Require Import Base RInst Laws LawInst AdvanceModel AdvanceSpec AdvanceProofs TargetProofs Track ExplicitModel ImplicitModel ImplicitSpec
  ImplicitSim LspgModel RomSpec GalerkinModel GalerkinSpec GalerkinProofs GalerkinClaims NonlinDiag NonlinModel NonlinSpec NonlinLaws NonlinExact NonlinMoreSpec RomLsSpec
  StabilitySpec StabilityOrder DissipSpec DissipProofs DissipChain DissipClaims RomErrorClaims RomErrorRuns LinRunSpec LinRunProofs LinRunClaims GalLinSpec
  NewtonSpec NewtonProofs NewtonRunSpec NewtonRunProofs NewtonRunSteps NewtonRunDissip NewtonRunClaims GalNewtonSpec.
Import ListNotations.
Local Open Scope R_scope.

Section Rom.
  Context {X Y Rf Jf Mf Rm Jm J B W : Type} (eps : R) (xo : vops R X) (yo : vops R Y) (ro : vops R Rf) (jo : vops R J).
  Variables (ap : J -> X -> X) (fapp : Jf -> X -> Rf) (recon bapp : X -> Y) (off : Y) (phi : B).
  Variables (fom : sfom (S:=R) (Y:=Y) (R:=Rf) (J:=Jf) (B:=B) (W:=W)) (f : Y -> R -> Rf) (D : Y -> R -> Y -> Rf) (AB : Y -> R -> Jf).
  Variables (P : R -> Rf -> X) (PJ : R -> Jf -> J).
  Variable c : X -> R -> gcmd (X:=X) (Y:=Y) (Rf:=Rf) (Jf:=Jf) (Mf:=Mf) (Rm:=Rm) (Jm:=Jm) (J:=J) (M:=unit) (W:=W).
  Notation o := (Rops eps).
  Hypothesis HR : smooth_rom eps xo yo ro jo ap fapp recon bapp off phi fom f D AB P PJ c.
  Hypotheses (HX : vspace o xo) (HJ : vspace o jo).
  Lemma rom_smooth_user : smooth_user (rhs_jac_system c) (reduced recon f P) (reduced_jac recon AB PJ).
  Proof.
    intros x t r j b. cbn. destruct (sr_jac _ _ _ _ _ _ _ _ _ _ _ _ _ _ _ _ _ _ HR) as (df & Hdf & Hd).
    destruct (rhs_jac_value o xo jo HX HJ true (fun _ => True) recon phi fom f df (sr_rhs _ _ _ _ _ _ _ _ _ _ _ _ _ _ _ _ _ _ HR) Hdf P PJ c
      (sr_kind _ _ _ _ _ _ _ _ _ _ _ _ _ _ _ _ _ _ HR) x t r j b I) as (_ & V & M).
    destruct (rhs_jac_method c x t r j b) as [e [v b']]. cbn [fst snd] in *. rewrite (M eq_refl) in *. rewrite (V eq_refl).
    exists b'. rewrite Hd. reflexivity.
  Qed.
End Rom.

Section Inherit.
  Context {X Y Jf Mf Rm Jm J B W : Type} (eps : R) (xo : vops R X) (yo : vops R Y) (jo : vops R J).
  Variables (ap : J -> X -> X) (fapp : Jf -> X -> Y) (recon bapp : X -> Y) (off : Y) (phi : B).
  Variables (fom : sfom (S:=R) (Y:=Y) (R:=Y) (J:=Jf) (B:=B) (W:=W)) (f : Y -> R -> Y) (D : Y -> R -> Y -> Y) (AB : Y -> R -> Jf).
  Variables (P : R -> Y -> X) (PJ : R -> Jf -> J).
  Variable c : X -> R -> gcmd (X:=X) (Y:=Y) (Rf:=Y) (Jf:=Jf) (Mf:=Mf) (Rm:=Rm) (Jm:=Jm) (J:=J) (M:=unit) (W:=W).
  Notation o := (Rops eps).
  Hypothesis HR : smooth_rom eps xo yo yo jo ap fapp recon bapp off phi fom f D AB P PJ c.
  Variables (ip : Y -> Y -> R) (xip : X -> X -> R).
  Hypotheses (HI : NonlinLaws.inner eps yo ip) (HXI : NonlinLaws.inner eps xo xip).
  Hypothesis Hadj : forall t y a, ip y (bapp a) = xip (P t y) a.
  Notation app := (fun (a : Y -> Y) v => a v).
  Notation redf := (reduced recon f P).
  Notation redJ := (reduced_jac recon AB PJ).
  Let Hrec := sr_recon _ _ _ _ _ _ _ _ _ _ _ _ _ _ _ _ _ _ HR.
  Let Hbas := sr_basis _ _ _ _ _ _ _ _ _ _ _ _ _ _ _ _ _ _ HR.
  Lemma recon_add x d : recon (vadd xo x d) = vadd yo (recon x) (bapp d).
  Proof.
    rewrite !Hrec, (lin_add _ _ _ Hbas). apply (dot_ext yo ip HI). intros v. rewrite !(in_add _ _ HI). ring.
  Qed.
  Lemma jac_apply x t v : ap (redJ x t) v = P t (D (recon x) t (bapp v)).
  Proof. unfold reduced_jac. rewrite (sr_reduce_jac _ _ _ _ _ _ _ _ _ _ _ _ _ _ _ _ _ _ HR), (sr_action _ _ _ _ _ _ _ _ _ _ _ _ _ _ _ _ _ _ HR). reflexivity. Qed.
  Lemma reduced_derivative : derivative_of yo app ip f D -> derivative_of xo ap xip redf redJ.
  Proof.
    intros Hd t x d w s. rewrite jac_apply, <- Hadj, recon_add, (lin_scale _ _ _ Hbas).
    eapply derivable_pt_lim_ext; [|exact (Hd t (recon x) (bapp d) (bapp w) s)].
    intros u. unfold reduced. rewrite recon_add, (lin_scale _ _ _ Hbas), (Hadj t). reflexivity.
  Qed.
  Lemma reduced_negative : dissipative_derivative app ip D -> dissipative_derivative ap xip redJ.
  Proof. intros Hd x t v. rewrite jac_apply, <- Hadj. apply Hd. Qed.
  Variables (lip K : R).
  Hypotheses (Hlip0 : 0 <= lip) (HK : forall x, length_of ip (bapp x) <= K * length_of xip x) (HK0 : 0 <= K).
  Lemma reduced_lipschitz : lipschitz_derivative yo app ip D lip -> lipschitz_derivative xo ap xip redJ (lip * K ^ 3).
  Proof.
    intros Hd x d t v. rewrite !jac_apply, recon_add.
    set (a := D (vadd yo (recon x) (bapp d)) t (bapp v)). set (b := D (recon x) t (bapp v)).
    set (z := vadd xo (P t a) (vscale xo (- (1)) (P t b))).
    pose proof (Hd (recon x) (bapp d) t (bapp v)) as L. cbv beta in L. fold a b in L. set (q := vadd yo a (vscale yo (- (1)) b)) in *.
    assert (E : xip z z = ip q (bapp z)).
    { unfold q. rewrite (in_add _ _ HI), (in_scale _ _ HI), !(Hadj t). unfold z at 1. rewrite (in_add _ _ HXI), (in_scale _ _ HXI). reflexivity. }
    pose proof (cauchy_dot yo ip HI q (bapp z)) as C. fold (length_of ip q) in C. fold (length_of ip (bapp z)) in C. rewrite <- E in C.
    pose proof (HK z) as Kz. pose proof (HK d) as Kd. pose proof (HK v) as Kv.
    assert (Pq : 0 <= length_of ip q) by apply R_sqrt.sqrt_pos. assert (Pbz : 0 <= length_of ip (bapp z)) by apply R_sqrt.sqrt_pos.
    assert (Pbd : 0 <= length_of ip (bapp d)) by apply R_sqrt.sqrt_pos. assert (Pbv : 0 <= length_of ip (bapp v)) by apply R_sqrt.sqrt_pos.
    assert (Pz : 0 <= length_of xip z) by apply R_sqrt.sqrt_pos. assert (Pd : 0 <= length_of xip d) by apply R_sqrt.sqrt_pos. assert (Pv : 0 <= length_of xip v) by apply R_sqrt.sqrt_pos.
    assert (Sz : length_of xip z * length_of xip z = xip z z) by (apply sqrt_sqrt, (in_pos _ _ HXI)).
    assert (L2 : length_of ip q <= lip * (K * length_of xip d) * (K * length_of xip v)).
    { eapply Rle_trans; [exact L|]. apply Rmult_le_compat; try assumption; [apply Rmult_le_pos; assumption|]. apply Rmult_le_compat_l; assumption. }
    assert (M : length_of ip q * length_of ip (bapp z) <= lip * (K * length_of xip d) * (K * length_of xip v) * (K * length_of xip z)) by (apply Rmult_le_compat; assumption).
    destruct (Req_dec (length_of xip z) 0) as [E0|E0].
    - rewrite E0. assert (0 <= K ^ 3) by (apply pow_le; exact HK0). apply Rmult_le_pos; [apply Rmult_le_pos; [apply Rmult_le_pos|]|]; assumption.
    - apply Rmult_le_reg_r with (length_of xip z); [lra|]. cbn [pow]. lra.
  Qed.
  Lemma lip_pos : 0 <= lip * K ^ 3.
  Proof. apply Rmult_le_pos; [exact Hlip0|]. apply pow_le. exact HK0. Qed.
End Inherit.

(** Proofs for SteadyLspgSpec. *)
From Coq Require Import List Bool Reals Lra.
From Verif Require Import Base RInst Laws LawInst ImplicitModel LspgModel RomSpec RomDeriv GalerkinModel GalerkinSpec
  SteadyLspgModel SteadyLspgSpec.

Section Values.
  Context {X Y Rf Jf Rm Jm B W : Type}.
  Variables (must : bool) (good : W -> Prop) (recon : X -> Y) (phi : B).
  Variable fom : steady_fom (Y:=Y) (Rf:=Rf) (Jf:=Jf) (B:=B) (W:=W).
  Notation obj := (sobj Y Rf Jf W).
  Definition good_sobj (b : obj) : Prop := good (so_w b).

  Lemma no_scaling_is {R J} : scaler_is (Y:=Y) must good (@no_scaling Y W R J) (fun _ r => r) (fun _ j => j).
  Proof. intros y r j w H. split; [exact H|]. split; [|reflexivity]. intros _. destruct j; reflexivity. Qed.

  Section Fom.
    Variables (f : Y -> Rf) (df : Y -> B -> Jf).
    Hypothesis HF : steady_rj_is must good fom f df.
    Lemma default_value sc SR SJ : scaler_is must good sc SR SJ -> forall x r j (b : obj), good_sobj b ->
      returns must good_sobj (lspg_steady_default recon phi fom sc x r j b)
        (SR (recon x) (f (recon x)), option_map (fun _ => SJ (recon x) (df (recon x) phi)) j).
    Proof.
      intros HS x r j b Hb. unfold lspg_steady_default.
      destruct (HF (recon x) r phi j (so_w b) Hb) as (G & V & M). revert G V M.
      destruct (sf_rj fom (recon x) r phi j (so_w b)) as [e [[r1 j1] w1]]. cbn [fst snd]. intros G V M.
      destruct e as [[]|e|u|].
      2-4: split; [exact G|]; split; [discriminate|]; intros E; specialize (M E); discriminate.
      specialize (V eq_refl). injection V as -> ->.
      destruct (HS (recon x) (f (recon x)) (mask j (option_map (fun _ => df (recon x) phi) j)) w1 G) as (G2 & V2 & M2).
      revert G2 V2 M2. destruct (sc _ _ _ _) as [e2 [[r2 j2] w2]]. cbn [fst snd]. intros G2 V2 M2.
      split; [exact G2|]. split; [|exact M2]. intros E. specialize (V2 E). injection V2 as -> ->. cbn [fst snd].
      destruct j; reflexivity.
    Qed.
    Lemma masked_value msk K KJ sc SR SJ : masker_is (Rf:=Rf) (Jf:=Jf) (Rm:=Rm) (Jm:=Jm) must good msk K KJ ->
      scaler_is must good sc SR SJ -> forall x r j (b : obj), good_sobj b ->
      returns must good_sobj (lspg_steady_masked recon phi fom msk sc x r j b)
        (SR (recon x) (K (f (recon x))), option_map (fun _ => SJ (recon x) (KJ (df (recon x) phi))) j).
    Proof.
      intros [HK HKJ] HS x r j b Hb. unfold lspg_steady_masked.
      set (given := match j with Some _ => Some (so_j b) | None => None end).
      destruct (HF (recon x) (so_r b) phi given (so_w b) Hb) as (G & V & M). revert G V M.
      destruct (sf_rj fom (recon x) (so_r b) phi given (so_w b)) as [e [[r1 j1] w1]]. cbn [fst snd]. intros G V M.
      destruct e as [[]|e|u|].
      2-4: split; [exact G|]; split; [discriminate|]; intros E; specialize (M E); discriminate.
      specialize (V eq_refl). injection V as -> ->.
      destruct (HK (f (recon x)) r w1 G) as (G2 & V2 & M2). revert G2 V2 M2.
      destruct (mk_R msk _ _ _) as [e2 [r2 w2]]. cbn [fst snd]. intros G2 V2 M2.
      destruct e2 as [[]|e2|u2|].
      2-4: split; [exact G2|]; split; [discriminate|]; intros E; specialize (M2 E); discriminate.
      specialize (V2 eq_refl). subst r2.
      destruct j as [j0|]; subst given; cbn [option_map mask].
      - destruct (HKJ (df (recon x) phi) j0 w2 G2) as (G3 & V3 & M3). revert G3 V3 M3.
        destruct (mk_J msk _ _ _) as [e3 [j3 w3]]. cbn [fst snd]. intros G3 V3 M3.
        destruct e3 as [[]|e3|u3|].
        2-4: split; [exact G3|]; split; [discriminate|]; intros E; specialize (M3 E); discriminate.
        specialize (V3 eq_refl). subst j3.
        destruct (HS (recon x) (K (f (recon x))) (Some (KJ (df (recon x) phi))) w3 G3) as (G4 & V4 & M4).
        revert G4 V4 M4. destruct (sc _ _ _ _) as [e4 [[r4 j4] w4]]. cbn [fst snd]. intros G4 V4 M4.
        split; [exact G4|]. split; [|exact M4]. intros E. specialize (V4 E). injection V4 as -> ->. reflexivity.
      - destruct (HS (recon x) (K (f (recon x))) None w2 G2) as (G4 & V4 & M4).
        revert G4 V4 M4. destruct (sc _ _ _ _) as [e4 [[r4 j4] w4]]. cbn [fst snd]. intros G4 V4 M4.
        split; [exact G4|]. split; [|exact M4]. intros E. specialize (V4 E). injection V4 as -> ->. reflexivity.
    Qed.
    Lemma steady_lspg_value R J P PJ m : lspg_steady (Rm:=Rm) (Jm:=Jm) must good recon phi fom R J P PJ m ->
      forall x r j (b : obj), good_sobj b ->
      returns must good_sobj (m x r j b)
        (P (recon x) (f (recon x)), option_map (fun _ => PJ (recon x) (df (recon x) phi)) j).
    Proof.
      intros H. destruct H.
      - exact (default_value _ _ _ no_scaling_is).
      - exact (masked_value _ _ _ _ _ _ H no_scaling_is).
      - apply default_value. assumption.
      - apply masked_value; assumption.
    Qed.
  End Fom.

End Values.

(** Failures of the FOM reach the caller; nothing else is called. *)
Lemma steady_lspg_failure {X Y Rf Jf Rm Jm B W} (recon : X -> Y) (phi : B)
  (fom : steady_fom (Y:=Y) (Rf:=Rf) (Jf:=Jf) (B:=B) (W:=W)) x (b : sobj Y Rf Jf W) e : e <> Ok tt ->
  (forall sc r j r1 j1 w1, sf_rj fom (recon x) r phi j (so_w b) = (e, (r1, j1, w1)) ->
     exists r' j' b', lspg_steady_default recon phi fom sc x r j b = (e, (r', j', b')) /\ so_w b' = w1) /\
  (forall msk sc (r : Rm) (j : option Jm) r1 j1 w1,
     sf_rj fom (recon x) (so_r b) phi (option_map (fun _ => so_j b) j) (so_w b) = (e, (r1, j1, w1)) ->
     exists b', lspg_steady_masked recon phi fom msk sc x r j b = (e, (r, j, b')) /\ so_w b' = w1).
Proof.
  intros He. split.
  - intros sc r j r1 j1 w1 E. unfold lspg_steady_default. rewrite E.
    destruct e as [[]|e|u|]; [congruence| | |]; eexists; eexists; eexists; split; reflexivity.
  - intros msk sc r j r1 j1 w1 E. unfold lspg_steady_masked.
    change (match j with Some _ => Some (so_j b) | None => None end) with (option_map (fun _ => so_j b) j). rewrite E.
    destruct e as [[]|e|u|]; [congruence| | |]; eexists; split; reflexivity.
Qed.

(** Without a request the Jacobian action is not computed. *)
Lemma steady_no_jacobian {X Y Rf Jf Rm Jm B W} (recon : X -> Y) (phi : B)
  (fom fom' : steady_fom (Y:=Y) (Rf:=Rf) (Jf:=Jf) (B:=B) (W:=W)) :
  (forall y r w, sf_rj fom y r phi None w = sf_rj fom' y r phi None w) ->
  forall x (b : sobj Y Rf Jf W),
  (forall sc r, lspg_steady_default recon phi fom sc x r None b = lspg_steady_default recon phi fom' sc x r None b) /\
  (forall msk sc (r : Rm), lspg_steady_masked (Jm:=Jm) recon phi fom msk sc x r None b =
                           lspg_steady_masked recon phi fom' msk sc x r None b).
Proof.
  intros H x b. split; intros.
  - unfold lspg_steady_default. rewrite H. reflexivity.
  - unfold lspg_steady_masked. rewrite H. reflexivity.
Qed.

(** The Jacobian is the derivative, if what is done to residuals does not depend on the state. *)
Section Derivative.
  Local Open Scope R_scope.
  Context {X Y Rf Jf Rm Jm B W Rs J : Type}.
  Variables (xo : vops R X) (yo : vops R Y) (ro : vops R Rf) (so : vops R Rs).
  Variables (nx : X -> R) (ny : Y -> R) (nr : Rf -> R) (ns : Rs -> R).
  Hypotheses (Hx : forall d, 0 <= nx d) (Hr : forall d, 0 <= nr d).
  Variables (recon bapp : X -> Y) (fapp : Jf -> X -> Rf) (sapp : J -> X -> Rs).
  Hypothesis (HA : forall x d, recon (vadd xo x d) = vadd yo (recon x) (bapp d)).
  Hypothesis (HB : exists K, forall d, ny (bapp d) <= K * nx d).
  Lemma steady_lspg_derivative must (good : W -> Prop) (phi : B)
    (fom : steady_fom (Y:=Y) (Rf:=Rf) (Jf:=Jf) (B:=B) (W:=W)) f df Df P PJ m :
    steady_rj_is must good fom f df ->
    (forall y, derivative2 yo ny ro nr f y (Df y)) -> (forall y d, fapp (df y phi) d = Df y (bapp d)) ->
    bounded ro nr so ns P -> (forall A d, sapp (PJ A) d = P (fapp A d)) ->
    lspg_steady (Rm:=Rm) (Jm:=Jm) must good recon phi fom Rs J (fun _ => P) (fun _ => PJ) m ->
    forall x r j b r' j' b', good (so_w b) -> m x r (Some j) b = (Ok tt, (r', Some j', b')) ->
    r' = P (f (recon x)) /\ derivative2 xo nx so ns (fun x => P (f (recon x))) x (sapp j').
  Proof.
    intros HF HD HJ HP HPJ HG x r j b r' j' b' Hgb E.
    destruct (steady_lspg_value must good recon phi fom f df HF Rs J _ _ m HG x r (Some j) b Hgb) as (_ & V & _).
    rewrite E in V. specialize (V eq_refl). cbn [fst snd option_map] in V. injection V as -> ->. split; [reflexivity|].
    apply (derivative_ext xo nx so ns (fun x => P (f (recon x))) _ (fun d => P (Df (recon x) (bapp d)))); [reflexivity| |].
    - intros d. rewrite HPJ, HJ. reflexivity.
    - apply (derivative_left xo nx ro nr so ns P (fun x => f (recon x)) (fun d => Df (recon x) (bapp d)) x HP Hx Hr).
      apply (derivative_affine xo nx yo ny ro nr recon bapp f (Df (recon x)) x); [apply HA|exact HB|exact Hx|apply HD].
  Qed.
End Derivative.

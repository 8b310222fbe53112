(** C75 for the Galerkin systems of the library. *)
From Coq Require Import ZArith List Bool.
From Verif Require Import Base Laws ExplicitModel ExplicitSpec ExplicitProofs ImplicitModel ImplicitSpec ImplicitClaims
  LspgModel RomSpec GalerkinModel GalerkinSpec GalerkinProofs GalerkinClaims RomExactProofs.
Import ListNotations.
Local Open Scope Z_scope.

Section Claims.
  Context {S X Y Jf Mf Rm Jm J B W : Type} (o : sops S) (xo : vops S X) (yo : vops S Y) (jo : vops S J).
  Hypotheses (HF : sfield o) (HC : schar0 o) (HX : vspace o xo) (HY : vspace o yo) (HJ : vspace o jo).
  Variables (recon bapp : X -> Y) (tr : Y) (phi : B).
  Hypothesis Hlin : linear xo yo bapp.
  Hypothesis Hrec : forall x, recon x = vadd yo (bapp x) tr.
  Variable fom : sfom (S:=S) (Y:=Y) (R:=Y) (J:=Jf) (B:=B) (W:=W).
  Variables (f : Y -> S -> Y) (d : X -> S -> X).
  Notation go := (gobj Y Y Jf Mf Rm Jm W).

  Lemma computes_ext {V M W'} (u : @esys S V M W') good f1 f2 : (forall x t, f1 x t = f2 x t) ->
    computes u good f1 -> computes u good f2.
  Proof.
    intros E [H1 H2]. split; [|exact H2]. intros y t old w Hw. rewrite <- E. apply H1. exact Hw.
  Qed.

  Lemma exact_explicit (good : W -> Prop) : fom_rhs true good fom f ->
    (forall x t, f (recon x) t = bapp (d x t)) ->
    forall obs, (forall k i t v w, good w -> exists w', obs k i t v w = (Ok tt, w') /\ good w') ->
    forall P c, galerkin_rhs true good o xo recon phi fom P c -> (forall t v, P t (bapp v) = v) ->
    forall {M' W'} (v : @esys S Y M' W') good', computes v good' f ->
    let rom := rhs_system (Jf:=Jf) (Mf:=Mf) (Rm:=Rm) (Jm:=Jm) (J:=J) c obs in
    forall name k, explicit_num_bufs name = Ok k ->
    forall g g', used k (explicit_step o xo rom name) g -> used k (explicit_step o yo v name) g' ->
    good (b_w (x_w g)) -> good' (x_w g') -> x_y g' = recon (x_y g) ->
    forall ts hs n, exists gn gn',
      drive (explicit_step o xo rom name) ts hs n g = (Ok tt, gn) /\
      drive (explicit_step o yo v name) ts hs n g' = (Ok tt, gn') /\ x_y gn' = recon (x_y gn).
  Proof.
    intros Hf Hd obs Hobs P c HG HP M' W' v good' Hv rom name k HN g g' U U' G G' E ts hs n.
    refine (exact_drives o xo yo recon bapp tr HF HC HX HY Hlin Hrec f d Hd rom v (fun b => good (b_w b)) good' _ Hv
      name k HN g g' U U' G G' E ts hs n).
    eapply computes_ext; [|exact (explicit_computes o xo HX good recon phi fom f Hf obs Hobs P c HG)].
    intros x t. cbv beta. rewrite Hd. apply HP.
  Qed.

  Lemma exact_explicit_mm (good : W -> Prop) mass (dm : Y -> B -> S -> Mf) :
    fom_rhs true good fom f -> fom_mass true good mass dm ->
    forall obs, (forall k i t v w, good w -> exists w', obs k i t v w = (Ok tt, w') /\ good w') ->
    forall prodv prodm T (TM : Mf -> J), product_is xo prodv phi T -> product_is jo prodm phi TM ->
    forall solve (apply : J -> X -> X),
    (forall x t old w, good w -> exists s w',
       solve (TM (dm (recon x) phi t)) old (T (f (recon x) t)) w = (Ok tt, (s, w')) /\
       apply (TM (dm (recon x) phi t)) s = T (f (recon x) t) /\ good w') ->
    (forall x t z z', apply (TM (dm (recon x) phi t)) z = apply (TM (dm (recon x) phi t)) z' -> z = z') ->
    forall {M' W'} (v : @esys S Y M' W') good' apply' mass', computes_mm v good' apply' mass' f ->
    (forall y t z z', apply' (mass' y t) z = apply' (mass' y t) z' -> z = z') ->
    (forall y t a, apply (TM (dm y phi t)) a = T (apply' (mass' y t) (bapp a))) ->
    forall vel, (forall y t, apply' (mass' y t) (vel y t) = f y t) -> (forall x t, vel (recon x) t = bapp (d x t)) ->
    let rom := mass_rhs_system (Jf:=Jf) (Rm:=Rm) (Jm:=Jm) (default_mass_rhs o recon phi prodv prodm fom mass) solve obs in
    forall name k, explicit_num_bufs_mm name = Ok k ->
    forall g g', used k (explicit_step_mm o xo rom name) g -> used k (explicit_step_mm o yo v name) g' ->
    good (b_w (x_w g)) -> good' (x_w g') -> x_y g' = recon (x_y g) ->
    forall ts hs n, exists gn gn',
      drive (explicit_step_mm o xo rom name) ts hs n g = (Ok tt, gn) /\
      drive (explicit_step_mm o yo v name) ts hs n g' = (Ok tt, gn') /\ x_y gn' = recon (x_y gn).
  Proof.
    intros Hf Hm obs Hobs prodv prodm T TM HT HTM solve apply Hsolve Hinj M' W' v good' apply' mass' Hv Hinj' Hred vel Hvel Hd
      rom name k HN g g' U U' G G' E ts hs n.
    refine (exact_drives_mm o xo yo recon bapp tr HF HC HX HY Hlin Hrec vel d Hd rom v (fun b => good (b_w b)) good'
      _ _ _ _ _ _ (explicit_computes_mm (Jf:=Jf) (Rm:=Rm) (Jm:=Jm) o xo jo HX good recon phi fom f Hf obs Hobs HJ mass dm Hm
    prodv prodm T TM HT HTM solve apply Hsolve) _ Hinj Hv Hvel Hinj' name k HN g g' U U' G G' E ts hs n).
    intros x t. cbv beta. rewrite Hred, <- Hd, Hvel. reflexivity.
  Qed.

  Variable jid : J.
  Variable df : Y -> B -> S -> Jf.
  Lemma exact_implicit : fom_rhs false (fun _ => True) fom f -> fom_jac false (fun _ => True) fom df ->
    (forall x t, f (recon x) t = bapp (d x t)) ->
    forall P PJ c, galerkin_rhs_jac (Mf:=Mf) (Rm:=Rm) (Jm:=Jm) false (fun _ => True) o xo jo recon phi fom P PJ c ->
    (forall t v, P t (bapp v) = v) ->
    let pol := policy_std o xo jo jid (rhs_jac_system c) in
    (forall x_n st t k dt x R Jo g r jo' g',
     std_rj pol BDF1 (x_n :: st) t k dt x R Jo g = (Ok tt, (r, jo', g')) ->
     (r = vzero xo <-> bdf1_eq yo (fun y => f y t) (recon x_n) dt (recon x))) /\
    (forall x_n st t dt x R Jo g r jo' g',
     std_rj pol BDF2 (x_n :: st) t 1 dt x R Jo g = (Ok tt, (r, jo', g')) ->
     (r = vzero xo <-> bdf1_eq yo (fun y => f y t) (recon x_n) dt (recon x))) /\
    (forall x_n x_nm1 st t k dt x R Jo g r jo' g', k <> 1 ->
     std_rj pol BDF2 (x_n :: x_nm1 :: st) t k dt x R Jo g = (Ok tt, (r, jo', g')) ->
     (r = vzero xo <-> bdf2_eq o yo (fun y => f y t) (recon x_n) (recon x_nm1) dt (recon x))) /\
    (forall x_n st t k dt x R Jo g r jo' g', pp_trk (snd g) <> k ->
     std_rj pol CrankNicolson (x_n :: st) t k dt x R Jo g = (Ok tt, (r, jo', g')) ->
     (r = vzero xo <-> cn_eq o yo (f (recon x_n) (ssub o t dt)) (fun y => f y t) (recon x_n) dt (recon x))).
  Proof.
    intros Hf Hdf Hd P PJ c HG HP pol.
    assert (HI : rhs_is (rhs_jac_system c) d).
    { intros x t r j b f' j' b' E. cbn in E.
      destruct (rhs_jac_value o xo jo HX HJ false (fun _ => True) recon phi fom f df Hf Hdf P PJ c HG x t r j b I) as (_ & V & _).
      rewrite E in V. specialize (V eq_refl). cbn in V. injection V as -> _. rewrite Hd. apply HP. }
    split; [|split; [|split]].
    - intros. rewrite <- (bdf1_affine o xo yo recon bapp tr HF HY Hlin Hrec f d Hd (P dt) (HP dt)).
      eapply (root_shown_bdf1 o xo jo jid _ HF HX HJ d (fun _ _ => jid) HI). eassumption.
    - intros. rewrite <- (bdf1_affine o xo yo recon bapp tr HF HY Hlin Hrec f d Hd (P dt) (HP dt)).
      eapply (root_shown_bdf2_first o xo jo jid _ HF HX HJ d (fun _ _ => jid) HI). eassumption.
    - intros. rewrite <- (bdf2_affine o xo yo recon bapp tr HF HC HY Hlin Hrec f d Hd (P dt) (HP dt)).
      eapply (root_shown_bdf2 o xo jo jid _ HF HC HX HJ d (fun _ _ => jid) HI); eassumption.
    - intros. rewrite <- (cn_affine o xo yo recon bapp tr HF HY Hlin Hrec f d Hd (P dt) (HP dt)).
      eapply (root_shown_cn o xo jo jid _ HF HC HX HJ d (fun _ _ => jid) HI); eassumption.
  Qed.
End Claims.

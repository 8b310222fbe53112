(** Lemmas behind C99. *)
From Coq Require Import Reals ZArith List Lra Lia Bool.
From Verif Require Import Base RInst Laws LawInst ImplicitModel ImplicitSpec
  NonlinDiag NonlinModel NonlinWp NonlinDiagProofs NonlinSpec NonlinRuns NonlinProofs NonlinSolve NonlinLines NonlinClaims NonlinSeq NonlinFollow NonlinLaws NonlinExact
  NonlinReal NonlinTheory NonlinRest NonlinMoreSpec NonlinMore NewtonSpec NewtonRunSpec NewtonRunProofs NewtonRunSteps GaussSpec GaussProofs GaussClaims
  LspgModel GalerkinModel GalerkinSpec GalerkinProofs SteadyLspgModel SteadyLspgSpec SteadyLspgProofs LspgGnSpec LspgGnProofs DissipSpec DissipProofs SteadyNlSpec.
Import ListNotations.
Local Open Scope R_scope.

Section Dist.
  Context {X Y : Type} (eps : R) (xo : vops R X) (yo : vops R Y) (ip : Y -> Y -> R) (xip : X -> X -> R).
  Notation o := (Rops eps).
  Hypotheses (HX : vspace o xo) (HY : vspace o yo) (HI : DissipSpec.inner yo ip) (HXI : DissipSpec.inner xo xip).
  Let HF := R_field eps.
  Notation minus := (vminus o yo).
  Notation dist := (distance eps yo ip).
  Lemma ip_zero y : ip (vzero yo) y = 0.
  Proof.
    rewrite <- (vs_0 _ _ HY (vzero yo)). rewrite (ip_scale _ _ HI). cbn. ring.
  Qed.
  Lemma ip_abs {V} (vo : vops R V) q x y : vspace o vo -> DissipSpec.inner vo q -> Rabs (q x y) <= length_of q x * length_of q y.
  Proof.
    intros HV HQ. apply Rabs_le. split; [|exact (cauchy eps vo q HQ x y)].
    pose proof (cauchy eps vo q HQ (vscale vo (-1) x) y) as C. rewrite (ip_scale _ _ HQ) in C.
    assert (E : length_of q (vscale vo (-1) x) = length_of q x).
    { unfold length_of. f_equal. rewrite (ip_scale _ _ HQ), (ip_sym _ _ HQ), (ip_scale _ _ HQ). ring. }
    rewrite E in C. lra.
  Qed.
  Lemma dist_pos y z : 0 <= dist y z.
  Proof. apply R_sqrt.sqrt_pos. Qed.
  Lemma minus_via (y z w : Y) : minus y w = minus (minus y z) (minus w z).
  Proof. unfold vminus, neg1. vreduce (Rops eps) yo HF HY; cbn; lra. Qed.
  Lemma dist_sym y z : dist y z = dist z y.
  Proof.
    unfold distance, length_of. f_equal. rewrite !(ip_minus _ _ _ HI), !(ip_minus_r _ _ _ HI). ring.
  Qed.
  Lemma dist_triangle y z w : dist y w <= dist y z + dist z w.
  Proof.
    rewrite (dist_sym z w). unfold distance at 1. rewrite (minus_via y z w).
    apply (len_minus eps yo ip HI); apply Rle_refl.
  Qed.

  Section Cea.
    Variables (f : Y -> Y) (ys : Y) (c L : R) (recon bapp : X -> Y) (off : Y) (P : Y -> X).
    Hypotheses (Hc : 0 < c) (HL0 : 0 <= L) (Hz : f ys = vzero yo) (Hm : strongly_monotone eps yo ip c f) (Hl : lipschitz_fom eps yo ip L f).
    Hypothesis (HO : orthonormal_trial xo yo ip xip recon bapp off P).
    Lemma recon_between x z : minus (recon x) (recon z) = bapp (vminus o xo x z).
    Proof.
      rewrite !(ot_recon _ _ _ _ _ _ _ _ HO). unfold vminus at 2.
      rewrite (lin_add _ _ _ (ot_linear _ _ _ _ _ _ _ _ HO)), (lin_scale _ _ _ (ot_linear _ _ _ _ _ _ _ _ HO)).
      unfold vminus, neg1. vreduce (Rops eps) yo HF HY; cbn; lra.
    Qed.
    Lemma cea x z : dist (recon x) ys <= (L * dist (recon z) ys + 2 * length_of xip (P (f (recon x)))) / c.
    Proof.
      set (e := dist (recon x) ys). set (d := dist (recon z) ys). set (dl := length_of xip (P (f (recon x)))).
      assert (He : 0 <= e) by apply dist_pos. assert (Hd : 0 <= d) by apply dist_pos.
      assert (Hdl : 0 <= dl) by apply R_sqrt.sqrt_pos.
      assert (Hf : length_of ip (f (recon x)) <= L * e).
      { eapply Rle_trans; [|exact (Hl (recon x) ys)]. unfold distance, length_of. rewrite Hz. apply Req_le. f_equal.
        rewrite !(ip_minus _ _ _ HI), !(ip_minus_r _ _ _ HI), !(ip_sym _ _ HI _ (vzero yo)), !ip_zero. ring. }
      assert (H0 : c * e ^ 2 <= Rabs (ip (f (recon x)) (minus (recon x) ys))).
      { pose proof (Hm (recon x) ys) as H1. rewrite (ip_minus _ _ _ HI), Hz, ip_zero, Rminus_0_r in H1. exact H1. }
      assert (H1 : c * e ^ 2 <= L * e * e).
      { eapply Rle_trans; [exact H0|]. eapply Rle_trans; [apply (ip_abs yo ip _ _ HY HI)|].
        apply Rmult_le_compat_r; [exact He|exact Hf]. }
      assert (H2 : ip (f (recon x)) (minus (recon x) ys) = xip (P (f (recon x))) (vminus o xo x z) + ip (f (recon x)) (minus (recon z) ys)).
      { rewrite (ot_adjoint _ _ _ _ _ _ _ _ HO), <- recon_between, !(ip_minus_r _ _ _ HI). ring. }
      assert (H3 : length_of xip (vminus o xo x z) <= e + d).
      { unfold length_of. rewrite <- (ot_isometry _ _ _ _ _ _ _ _ HO), <- recon_between.
        change (dist (recon x) (recon z) <= e + d). unfold d. rewrite (dist_sym (recon z) ys). apply dist_triangle. }
      assert (H4 : c * e ^ 2 <= dl * (e + d) + L * e * d).
      { eapply Rle_trans; [exact H0|]. rewrite H2. eapply Rle_trans; [apply Rabs_triang|]. apply Rplus_le_compat.
        - eapply Rle_trans; [apply (ip_abs xo xip _ _ HX HXI)|]. apply Rmult_le_compat_l; [exact Hdl|exact H3].
        - eapply Rle_trans; [apply (ip_abs yo ip _ _ HY HI)|]. apply Rmult_le_compat_r; [exact Hd|exact Hf]. }
      assert (K : c * e <= L * d + 2 * dl).
      { clear - Hc HL0 He Hd Hdl H1 H4. destruct (Req_dec e 0) as [E|E].
        - rewrite E. assert (0 <= L * d) by (apply Rmult_le_pos; assumption). lra.
        - assert (Hp : 0 < e) by lra. destruct (Rle_or_lt d e) as [G|G].
          + apply (Rmult_le_reg_l e); [exact Hp|]. assert (dl * d <= dl * e) by (apply Rmult_le_compat_l; assumption). nra.
          + assert (HcL : c <= L).
            { apply (Rmult_le_reg_r (e * e)); [apply Rmult_lt_0_compat; assumption|]. nra. }
            assert (L * e <= L * d) by (apply Rmult_le_compat_l; lra). assert (c * e <= L * e) by (apply Rmult_le_compat_r; lra). lra. }
      apply (Rmult_le_reg_l c); [exact Hc|]. eapply Rle_trans; [exact K|]. apply Req_le. field. lra.
    Qed.
  End Cea.
End Dist.

Lemma galerkin_quasi_optimal :
  forall (eps : R) (X Y : Type) (xo : vops R X) (yo : vops R Y) (ip : Y -> Y -> R) (xip : X -> X -> R),
  vspace (Rops eps) xo -> vspace (Rops eps) yo -> DissipSpec.inner yo ip -> DissipSpec.inner xo xip ->
  forall (f : Y -> Y) (ys : Y) (c L : R) (recon bapp : X -> Y) (off : Y) (P : Y -> X),
  0 < c -> 0 <= L -> f ys = vzero yo -> strongly_monotone eps yo ip c f -> lipschitz_fom eps yo ip L f ->
  orthonormal_trial xo yo ip xip recon bapp off P ->
  forall x z, distance eps yo ip (recon x) ys <= (L * distance eps yo ip (recon z) ys + 2 * length_of xip (P (f (recon x)))) / c.
Proof.
  intros eps X Y xo yo ip xip HX HY HI HXI f ys c L recon bapp off P Hc HL Hz Hm Hl HO x z.
  exact (cea eps xo yo ip xip HX HY HI HXI f ys c L recon bapp off P Hc HL Hz Hm Hl HO x z).
Qed.

(** * Galerkin with Newton *)
Section Galerkin.
  Context {eps : R} {X Y Rf Jf Rm Jm B J H L W : Type}.
  Notation o := (Rops eps).
  Variable no : nlops R X X J H.
  Notation xo := (n_vo no).
  Variable jo : vops R J.
  Variable ap : J -> X -> X.
  Variable apH : H -> X -> X.
  Hypothesis HL : nl_laws eps no xo ap apH.
  Hypothesis HJ : vspace o jo.
  Let HX : vspace o xo := in_space _ _ (nl_r _ _ _ _ _ HL).
  Variables (recon : X -> Y) (phi : B).
  Variable fom : steady_fom (Y:=Y) (Rf:=Rf) (Jf:=Jf) (B:=B) (W:=W).
  Variables (f : Y -> Rf) (df : Y -> B -> Jf) (dv : Y -> Y -> Rf).
  Hypothesis Hfom : steady_is true (fun _ => True) fom f df dv.
  Variables (P : Rf -> X) (PJ : Jf -> J).
  Variable c : X -> gcmd (X:=X) (Y:=Y) (Rf:=Rf) (Jf:=Jf) (Mf:=unit) (Rm:=Rm) (Jm:=Jm) (J:=J) (M:=unit) (W:=W).
  Hypothesis HG : galerkin_steady true (fun _ => True) o xo jo recon phi fom P PJ c.
  Notation F := (fun x => P (f (recon x))).
  Notation DF := (fun x => PJ (df (recon x) phi)).
  Lemma steady_galerkin_computes : computes (steady_method c) F DF.
  Proof.
    intros x r0 j0 w0.
    destruct (steady_value o xo jo HX HJ true (fun _ => True) recon phi fom f df dv Hfom P PJ c HG x r0 j0 w0 I) as (_ & V & M).
    specialize (M eq_refl). specialize (V M). destruct (steady_method c x r0 j0 w0) as [e [[r1 j1] w1]]. cbn [fst snd] in *. subst e.
    injection V as -> ->. eexists. eexists. split; [reflexivity|]. destruct j0; [reflexivity|exact I].
  Qed.
  Variable xt : exts X X J H L.
  Hypothesis Hlin : linear_ok xt (if_solvable (normal_exact apH)) (if_solvable (qr_exact no ap)) (if_solvable (newton_exact ap)) nothing.
  Variable cf : config R.
  Hypothesis Hcf : newton_absolute cf.
  Lemma steady_galerkin_newton s w r s' w' : root_object o s ->
    exec (steady_method c) (root_solve o no xt cf) (s, w) = (r, (s', w')) ->
    r = Ok tt /\ root_object o s' /\
    (forall far, starts_well no xo ap cf F DF (g_x s) far -> n_rnorm no (F (g_x s')) <= far * f_tol cf).
  Proof.
    intros Ho E. destruct (absolute_ends no ap apH xt Hlin cf Hcf _ _ _ _ _ _ _ _ steady_galerkin_computes Ho E) as [Er H1].
    split; [exact Er|]. split; [exact H1|]. intros far (rad & beta & gamma & M & near & HA & HW & HM & n & Hn & Hlt).
    destruct Hcf as (Hu & Hst0 & Hmax).
    destruct (around_finds no xo ap apH HL xt _ F DF steady_galerkin_computes Hlin cf s w _ s' w' Ho (absolute_supported cf Hcf) Hu Hmax E rad beta gamma HA M near far HW HM n Hn Hlt)
      as (a & l & _ & _ & _ & _ & K). exact K.
  Qed.
End Galerkin.

(** * LSPG with Gauss-Newton *)
Section Lspg.
  Context {eps : R} {X Y Rf Jf Rm Jm B Rs J H L W : Type}.
  Notation o := (Rops eps).
  Variable no : nlops R X Rs J H.
  Variable ro : vops R Rs.
  Variable ap : J -> X -> Rs.
  Variable apH : H -> X -> X.
  Hypothesis HL : nl_laws eps no ro ap apH.
  Variables (recon : X -> Y) (phi : B).
  Variable fom : steady_fom (Y:=Y) (Rf:=Rf) (Jf:=Jf) (B:=B) (W:=W).
  Variables (f : Y -> Rf) (df : Y -> B -> Jf).
  Hypothesis Hfom : steady_rj_is true (fun _ => True) fom f df.
  Variables (P : Y -> Rf -> Rs) (PJ : Y -> Jf -> J).
  Variable prob : X -> Rs -> option J -> sobj Y Rf Jf W -> outcome unit * (Rs * option J * sobj Y Rf Jf W).
  Hypothesis HG : lspg_steady (Rm:=Rm) (Jm:=Jm) true (fun _ => True) recon phi fom _ _ P PJ prob.
  Notation F := (fun x => P (recon x) (f (recon x))).
  Notation DF := (fun x => PJ (recon x) (df (recon x) phi)).
  Lemma steady_lspg_computes : computes prob F DF.
  Proof.
    intros x r0 j0 w0.
    destruct (steady_lspg_value true (fun _ => True) recon phi fom f df Hfom _ _ _ _ _ HG x r0 j0 w0 I) as (_ & V & M).
    specialize (M eq_refl). specialize (V M). destruct (prob x r0 j0 w0) as [e [[r1 j1] w1]]. cbn [fst snd] in *. subst e.
    injection V as -> ->. eexists. eexists. split; [reflexivity|]. destruct j0; [reflexivity|exact I].
  Qed.
  Variable xt : exts X Rs J H L.
  Hypothesis Hlin : linear_ok xt (if_solvable (normal_exact apH)) (if_solvable (qr_exact no ap)) (if_solvable (newton_exact ap)) nothing.
  Variables (wr : Rs -> Rs) (wj : J -> J).
  Hypothesis Hw : weights_ok xt wr wj nothing.
  Variables (tag : lstag) (cf : config R).
  Hypothesis Hcf : gauss_newton tag cf.
  Lemma steady_lspg_gn s w r s' w' : ls_object o s -> exec prob (ls_solve o no xt tag cf) (s, w) = (r, (s', w')) ->
    r = Ok tt /\ ls_object o s' /\ lands no ro ap apH tag cf F DF (g_x s) (g_x s').
  Proof.
    intros Ho E. destruct (gn_complete no ap apH xt Hlin wr wj Hw tag cf Hcf _ _ _ _ _ _ _ _ steady_lspg_computes Ho E) as [Er H1].
    split; [exact Er|]. split; [exact H1|]. intros xs rad beta gamma rho HR Hx0 Hs. destruct Hcf as (Htag & Hu & Hmax).
    assert (Hm0 : (0 <= f_max cf < int32_max)%Z) by lia. rewrite Er in E.
    split.
    - destruct (min_converges no ro ap apH HL xt prob F DF steady_lspg_computes Hlin xs rad beta gamma rho HR wr wj Hw tag Hs cf _ _ _ _ _ Ho Htag Hu Hm0 Hx0 E) as (ls & _ & _ & K & _).
      exact K.
    - intros M near far n HJ1 HM Hn Hnm.
      destruct (min_finds no ro ap apH HL xt prob F DF steady_lspg_computes Hlin xs rad beta gamma rho HR wr wj Hw tag Hs cf _ _ _ _ _ Ho Htag Hu Hm0 Hx0 E M near far n HJ1 HM Hn Hnm)
        as (a & l & _ & _ & _ & _ & K). exact K.
  Qed.
End Lspg.
Lemma zero_minimum {eps X Rs J H} (no : nlops R X Rs J H) (ro : vops R Rs) (ap : J -> X -> Rs) (apH : H -> X -> X) F DF z rad beta gamma :
  nl_laws eps no ro ap apH -> F z = vzero ro -> 0 <= beta -> 0 <= gamma -> 0 <= rad ->
  (forall x, NewtonSpec.apart no x z <= rad -> forall v, n_norm no v <= beta * n_rnorm no (ap (DF x) v)) ->
  derivative_near no ap F DF z rad -> lipschitz_near no ro ap DF z rad gamma -> beta * (gamma / 2) * rad < 1 ->
  regular_minimum no ro ap F DF z rad beta gamma 0.
Proof.
  intros HL E Hb Hg Hr Hi HD Hl Hs. pose proof (nl_r _ _ _ _ _ HL) as HR.
  eapply (lipschitz_minimum no ro ap apH HL); try assumption.
  - intros v. rewrite E. apply (dot_0_l _ _ HR).
  - rewrite E, (nl_rnorm _ _ _ _ _ HL), (dot_0_l _ _ HR), sqrt_0. lra.
  - lra.
Qed.

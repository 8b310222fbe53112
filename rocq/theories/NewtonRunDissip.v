(** C91: dissipative equations; whole runs. *)
From Coq Require Import Reals ZArith List Lra Lia.
From Verif Require Import Base RInst Laws LawInst AdvanceModel AdvanceSpec AdvanceProofs TargetProofs Track ExplicitModel ImplicitModel ImplicitSpec ImplicitProofs ImplicitExtra
  NonlinDiag NonlinModel NonlinSpec NonlinLaws NonlinExact NonlinMoreSpec RomLsSpec RomLsProofs StabilitySpec DissipSpec DissipProofs DissipChain DissipClaims DissipPairs
  LinRunSpec LinRunProofs LinRunClaims NewtonSpec NewtonProofs NewtonRunSpec NewtonRunProofs NewtonRunSteps.
Import ListNotations.
Local Open Scope R_scope.

(** ** Remainders and monotonicity from the derivative *)
Section Calculus.
  Context {eps : R} {V J : Type} (vo : vops R V) (ap : J -> V -> V) (dot : V -> V -> R).
  Notation o := (Rops eps).
  Hypothesis HI : NonlinLaws.inner eps vo dot.
  Hypothesis Hlin : forall a c x, ap a (vscale vo c x) = vscale vo c (ap a x).
  Variables (f : V -> R -> V) (Df : V -> R -> J) (lip : R).
  Hypothesis Hder : derivative_of vo ap dot f Df.
  Notation len x := (sqrt (dot x x)).
  Notation line x d s := (vadd vo x (vscale vo s d)).
  Lemma line_1 : forall x d, line x d 1 = vadd vo x d.
  Proof. intros x d. apply (dot_ext vo dot HI). intros v. rewrite !(in_add _ _ HI), ?(in_scale _ _ HI). ring. Qed.
  Lemma line_0 : forall x d, line x d 0 = x.
  Proof. intros x d. apply (dot_ext vo dot HI). intros v. rewrite !(in_add _ _ HI), ?(in_scale _ _ HI). ring. Qed.
  Lemma len_scaled : forall a x, 0 <= a -> len (vscale vo a x) = a * len x.
  Proof.
    intros a x Ha. rewrite (in_scale _ _ HI), (dot_scale_r _ _ HI), <- Rmult_assoc, sqrt_mult; [|nra|apply (in_pos _ _ HI)].
    rewrite sqrt_square by exact Ha. reflexivity.
  Qed.
  Lemma remainder (Hlip : lipschitz_derivative vo ap dot Df lip) : forall x d t,
    len (vadd vo (f (vadd vo x d) t) (vscale vo (- (1)) (vadd vo (f x t) (ap (Df x t) d)))) <= lip / 2 * (len d) ^ 2.
  Proof.
    intros x d t. set (rem := vadd vo (f (vadd vo x d) t) (vscale vo (- (1)) (vadd vo (f x t) (ap (Df x t) d)))).
    pose proof (R_sqrt.sqrt_pos (dot d d)) as Pd. pose proof (R_sqrt.sqrt_pos (dot rem rem)) as Pr.
    set (C := lip * len d * len d * len rem). set (q := dot (ap (Df x t) d) rem).
    set (phi := fun s => dot (f (line x d s) t) rem). set (phi' := fun s => dot (ap (Df (line x d s) t) d) rem).
    set (h := fun s => (phi s - s * q) - C * (s * s / 2)).
    set (h' := fun s => (phi' s - q) - C * s).
    assert (Hd : forall c, 0 <= c <= 1 -> derivable_pt_lim h c (h' c)).
    { intros c _. unfold h, h'. apply (derivable_pt_lim_minus (fun s => phi s - s * q) (fun s => C * (s * s / 2))).
      - apply (derivable_pt_lim_minus phi (fun s => s * q)); [exact (Hder t x d rem c)|].
        refine (eq_ind (1 * q + c * 0) (fun z => derivable_pt_lim (fun s => s * q) c z) _ q ltac:(ring)).
        apply (derivable_pt_lim_mult id (fct_cte q)); [apply derivable_pt_lim_id|apply derivable_pt_lim_const].
      - apply (derivable_pt_lim_scal (fun s => s * s / 2) C c c).
        refine (eq_ind ((1 * c + c * 1) * / 2 + c * c * 0) (fun z => derivable_pt_lim (fun s => s * s / 2) c z) _ c ltac:(field)).
        apply (derivable_pt_lim_mult (fun s => s * s) (fct_cte (/ 2))); [|apply derivable_pt_lim_const].
        apply (derivable_pt_lim_mult id id); apply derivable_pt_lim_id. }
    destruct (MVT_cor2 h h' 0 1 Rlt_0_1 Hd) as [c [Ec Hc]].
    assert (Hneg : h' c <= 0).
    { unfold h', phi', q. set (z := vadd vo (ap (Df (line x d c) t) d) (vscale vo (- (1)) (ap (Df x t) d))).
      assert (Ez : dot (ap (Df (line x d c) t) d) rem - dot (ap (Df x t) d) rem = dot z rem).
      { unfold z. rewrite (in_add _ _ HI), (in_scale _ _ HI). ring. }
      rewrite Ez. pose proof (cauchy_dot vo dot HI z rem) as Cy.
      pose proof (Hlip x (vscale vo c d) t d) as Lz. unfold length_of in Lz. fold z in Lz. rewrite len_scaled in Lz by lra.
      assert (len z * len rem <= lip * (c * len d) * len d * len rem) by (apply Rmult_le_compat_r; assumption).
      unfold C. lra. }
    assert (Hh : h 1 <= h 0) by lra. unfold h, phi in Hh. rewrite line_1, line_0 in Hh.
    assert (Er : dot rem rem = dot (f (vadd vo x d) t) rem - dot (f x t) rem - q).
    { unfold rem at 1, q. rewrite (in_add _ _ HI), (in_scale _ _ HI), (in_add _ _ HI). ring. }
    assert (Hq : dot rem rem <= lip / 2 * (len d) ^ 2 * len rem) by (unfold C in Hh; lra).
    pose proof (sqrt_sqrt _ (in_pos _ _ HI rem)) as Es.
    destruct (Req_dec (len rem) 0) as [E0|E0].
    - rewrite E0. pose proof (Hlip x d t d) as L1. unfold length_of in L1.
      pose proof (R_sqrt.sqrt_pos (dot (vadd vo (ap (Df (vadd vo x d) t) d) (vscale vo (- (1)) (ap (Df x t) d))) (vadd vo (ap (Df (vadd vo x d) t) d) (vscale vo (- (1)) (ap (Df x t) d))))).
      cbn [pow]. lra.
    - apply (Rmult_le_reg_r (len rem)); [lra|]. lra.
  Qed.
  Lemma derivative_dissipative (Hneg : dissipative_derivative ap dot Df) : dissipative eps vo dot f.
  Proof.
    intros y z t. set (d := vminus o vo y z).
    set (phi := fun s => dot (f (line z d s) t) d). set (phi' := fun s => dot (ap (Df (line z d s) t) d) d).
    destruct (MVT_cor2 phi phi' 0 1 Rlt_0_1 (fun c _ => Hder t z d d c)) as [c [Ec Hc]].
    assert (phi' c <= 0) by apply Hneg.
    assert (Ey : vadd vo z d = y).
    { unfold d, vminus, neg1. cbn [sopp s1 Rops]. apply (dot_ext vo dot HI). intros v. rewrite !(in_add _ _ HI), ?(in_scale _ _ HI). ring. }
    unfold phi in Ec. rewrite line_1, line_0, Ey in Ec.
    unfold vminus at 1. rewrite (in_add _ _ HI), (in_scale _ _ HI). unfold neg1. cbn [sopp s1 Rops]. lra.
  Qed.
End Calculus.

(** ** The residual of a step *)
Section Residual.
  Context {S V J : Type} (o : sops S) (vo : vops S V) (jo : vops S J) (jid : J) (ap : J -> V -> V).
  Hypotheses (HF : sfield o) (HV : vspace o vo) (HM : matrices vo jo jid ap).
  Add Field SFnr : (sfield_th o HF).
  Variable f : V -> S -> V.
  Lemma residual_shape name y_n hist t dt : exists k, forall y,
    scheme_residual o vo f name (y_n :: hist) t dt y
    = vadd vo (vadd vo y k) (vscale vo (sopp o (smul o (weight_of o name (y_n :: hist)) dt)) (f y (sadd o t dt))).
  Proof.
    assert (K1 : exists k, forall y, bdf1_R o vo y_n dt (f y (sadd o t dt)) y = vadd vo (vadd vo y k) (vscale vo (sopp o (smul o (s1 o) dt)) (f y (sadd o t dt)))).
    { exists (vscale vo (neg1 o) y_n). intros y. cbv [bdf1_R vminus neg1]. vreduce o vo HF HV; ring. }
    unfold scheme_residual, weight_of. destruct name; try exact K1.
    - destruct hist as [|y_nm1 hist]; [exact K1|].
      exists (vadd vo (vscale vo (neg1 o) (vscale vo (frac o 4 3) y_n)) (vscale vo (frac o 1 3) y_nm1)). intros y.
      set (a := frac o 4 3). set (b := frac o 1 3). set (c := frac o 2 3). unfold bdf2_R. fold a b c. clearbody a b c. cbv [vminus neg1]. vreduce o vo HF HV; ring.
    - exists (vadd vo (vscale vo (neg1 o) y_n) (vscale vo (neg1 o) (vscale vo (smul o (frac o 1 2) dt) (f y_n t)))). intros y.
      set (c := frac o 1 2). unfold cn_R. fold c. clearbody c. cbv [vminus neg1]. vreduce o vo HF HV; ring.
  Qed.
  Lemma residual_short name y_n y_nm1 hist t dt : scheme_residual o vo f name (y_n :: y_nm1 :: hist) t dt = scheme_residual o vo f name [y_n; y_nm1] t dt.
  Proof. destruct name; reflexivity. Qed.
  Lemma weight_short name (y_n y_nm1 : V) hist : weight_of o name (y_n :: y_nm1 :: hist) = weight_of o name [y_n; y_nm1].
  Proof. destruct name; reflexivity. Qed.
End Residual.

Section Dissipative.
  Context {eps : R} {V J H L W : Type}.
  Notation o := (Rops eps).
  Variable no : nlops R V V J H.
  Variable ap : J -> V -> V.
  Variable apH : H -> V -> V.
  Notation vo := (n_vo no).
  Hypothesis HL : nl_laws eps no vo ap apH.
  Notation dot := (n_dot no).
  Hypothesis Hsame : forall x y, n_rdot no x y = dot x y.
  Variables (jo : vops R J) (jid : J).
  Hypotheses (HJ : vspace o jo) (HM : matrices vo jo jid ap).
  Variables (f : V -> R -> V) (Df : V -> R -> J) (lip : R).
  Hypotheses (Hder : derivative_of vo ap dot f Df) (Hneg : dissipative_derivative ap dot Df)
    (Hlip : lipschitz_derivative vo ap dot Df lip) (Hlip0 : 0 <= lip) (Hsq : square vo ap).
  Let HF := R_field eps.
  Let HC := R_char0 eps.
  Let HI := nl_v _ _ _ _ _ HL.
  Let HV : vspace o vo := in_space _ _ HI.
  Notation len x := (length_of dot x).
  Lemma norm_len : forall x, n_norm no x = len x.
  Proof. intros x. apply (nl_norm _ _ _ _ _ HL). Qed.
  Lemma rnorm_len : forall x, n_rnorm no x = len x.
  Proof. intros x. rewrite (nl_rnorm _ _ _ _ _ HL), Hsame. reflexivity. Qed.
  Lemma matrix_below c h y t v : 0 <= c * h -> len v <= len (ap (scheme_J o jo jid c h (Df y t)) v).
  Proof.
    intros Hc. unfold length_of. apply (len_below vo dot HI). rewrite (matrix_apply o vo jo jid ap HF HV HM).
    rewrite (dot_add_r _ _ HI), (dot_scale_r _ _ HI), (in_sym _ _ HI v (ap _ v)). pose proof (Hneg y t v). cbn [sopp smul Rops].
    assert (0 <= c * h * - dot (ap (Df y t) v) v) by (apply Rmult_le_pos; lra). lra.
  Qed.
  Lemma matrix_onto c h y t : 0 <= c * h -> forall r, exists d, ap (scheme_J o jo jid c h (Df y t)) d = r.
  Proof.
    intros Hc. apply Hsq. intros v Hv. apply (NewtonProofs.len_zero vo dot HI).
    pose proof (matrix_below c h y t v Hc) as K. rewrite Hv in K. unfold length_of in K. rewrite (dot_0_l _ _ HI), sqrt_0 in K. exact K.
  Qed.
  Notation res := (scheme_residual o vo f).
  Notation jac := (scheme_jacobian o jo jid Df).
  Lemma residual_remainder name y_n hist t dt x d : 0 <= weight_of o name (y_n :: hist) * dt ->
    let F := res name (y_n :: hist) t dt in
    len (vadd vo (F (vadd vo x d)) (vscale vo (- (1)) (vadd vo (F x) (ap (jac name (y_n :: hist) t dt x) d))))
    <= weight_of o name (y_n :: hist) * dt * lip / 2 * (len d) ^ 2.
  Proof.
    intros Hc F. destruct (residual_shape o vo HF HV f name y_n hist t dt) as [k Ek]. unfold F. rewrite !Ek. unfold scheme_jacobian.
    rewrite (matrix_apply o vo jo jid ap HF HV HM). set (c := weight_of o name (y_n :: hist)) in *. cbn [sadd smul sopp Rops].
    pose proof (remainder vo ap dot HI f Df lip Hder Hlip x d (t + dt)) as K.
    set (rem := vadd vo (f (vadd vo x d) (t + dt)) (vscale vo (- (1)) (vadd vo (f x (t + dt)) (ap (Df x (t + dt)) d)))) in K.
    match goal with |- len ?a <= _ => assert (E : a = vscale vo (- (1)) (vscale vo (c * dt) rem)) end.
    { unfold rem. apply (dot_ext vo dot HI). intros v. 
      rewrite ?(in_add _ _ HI), ?(in_scale _ _ HI), ?(in_add _ _ HI), ?(in_scale _ _ HI), ?(in_add _ _ HI), ?(in_scale _ _ HI), ?(in_add _ _ HI), ?(in_scale _ _ HI). ring. }
    rewrite E. unfold length_of at 1. rewrite (len_opp vo dot HI), (len_scaled vo dot HI) by exact Hc.
    apply (Rmult_le_compat_l (c * dt)) in K; [|exact Hc]. unfold length_of. cbn [pow] in *. lra.
  Qed.
  Lemma step_regular name y_n hist t dt : 0 <= weight_of o name (y_n :: hist) * dt ->
    let F := res name (y_n :: hist) t dt in let e := len (F y_n) in let kappa := weight_of o name (y_n :: hist) * dt * lip / 2 in
    kappa * e < 1 -> regular_around no vo ap F (jac name (y_n :: hist) t dt) y_n (e / (1 - kappa * e)) 1 (2 * kappa).
  Proof.
    intros Hc F e kappa Hk.
    assert (Pk : 0 <= kappa) by (unfold kappa; assert (0 <= weight_of o name (y_n :: hist) * dt * lip) by (apply Rmult_le_pos; assumption); lra).
    constructor.
    - lra.
    - lra.
    - intros x _ v. rewrite norm_len, rnorm_len, Rmult_1_l. apply matrix_below. exact Hc.
    - intros x _. apply matrix_onto. exact Hc.
    - intros x d _ _. rewrite norm_len, rnorm_len. replace (2 * kappa / 2) with kappa by field. exact (residual_remainder name y_n hist t dt x d Hc).
    - rewrite rnorm_len. unfold rate. fold e. replace (2 * kappa / 2 * 1 ^ 2 * e) with (kappa * e) by field. exact Hk.
    - rewrite rnorm_len. unfold rate. fold e. replace (2 * kappa / 2 * 1 ^ 2 * e) with (kappa * e) by field. right. field. lra.
  Qed.

  Variable xt : exts V V J H L.
  Hypothesis Hlin : linear_ok xt (if_solvable (normal_exact apH)) (if_solvable (qr_exact no ap)) (if_solvable (newton_exact ap)) nothing.
  Variable cf : config R.
  Hypothesis Hcf : newton_absolute cf.
  Hypothesis Hst : f_stop cf = WhenAbsResidual.
  Lemma begun_step name y_n hist t dt :
    begun cf (weight_of o name (y_n :: hist)) lip dt (len (res name (y_n :: hist) t dt y_n)) ->
    starts_well no vo ap cf (res name (y_n :: hist) t dt) (jac name (y_n :: hist) t dt) y_n 1.
  Proof.
    intros [Hdt [Hk He]]. set (e := len (res name (y_n :: hist) t dt y_n)) in *. set (kappa := weight_of o name (y_n :: hist) * dt * lip / 2) in *.
    assert (Hc : 0 <= weight_of o name (y_n :: hist) * dt) by (apply Rmult_le_pos; [apply weight_pos|exact Hdt]).
    exists (e / (1 - kappa * e)), 1, (2 * kappa), 0, 1. split; [exact (step_regular name y_n hist t dt Hc Hk)|].
    rewrite Hst. split; [split; reflexivity|]. split; [discriminate|].
    rewrite rnorm_len. fold e. unfold rate. replace (2 * kappa / 2 * 1 ^ 2) with kappa by field. exact He.
  Qed.

  Variable u : isys (S:=R) (V:=V) (J:=J) (W:=W).
  Hypothesis HU : smooth_user u f Df.
  Lemma newton_chain U name start y0 tr : integrated_std U eps no xt cf jo jid u name start y0 tr ->
    (name = BDF1 \/ name = BDF2 \/ name = CrankNicolson) /\
    exists l, reports tr = numbered l /\ linked_from Rplus (met_step (eps:=eps) no ap cf jo jid f Df name) start y0 l.
  Proof.
    intros HI0. inversion HI0; subst.
    - match goal with h : exists w, p = _ |- _ => destruct h as (w1 & ->) end.
      split; [eapply new_name; eassumption|].
      edestruct (new_n_steps_ok (U:=U) no ap apH HL xt Hlin cf Hcf jo jid HJ u f Df name HU) as (t' & d' & l & HK & HR); [eassumption..|].
      eexists. split; [exact HR|exact HK].
    - match goal with h : exists w, p = _ |- _ => destruct h as (w1 & ->) end.
      split; [eapply new_name; eassumption|].
      edestruct (new_target (U:=U) no ap apH HL xt Hlin cf Hcf jo jid HJ u f Df name HU) as (t' & d' & l & HK & HR); [eassumption..|].
      eexists. split; [exact HR|exact HK].
  Qed.
  Notation near_of name := (match name with BDF1 => near_bdf1 eps vo dot f | BDF2 => near_bdf2 eps vo dot f | _ => near_cn eps vo dot f end).
  Lemma newton_run_of U name start y0 tr : integrated_std U eps no xt cf jo jid u name start y0 tr ->
    well_begun eps vo dot f cf lip name tr -> run_of (f_tol cf) (near_of name) start y0 tr.
  Proof.
    intros HI0 Hw. destruct (newton_chain U name start y0 tr HI0) as (Hn & l & HR & HK).
    assert (K : run_of (V:=V) 0 (fun ts _ n ys => forall j, (j < n)%nat ->
       met_step (eps:=eps) no ap cf jo jid f Df name (past ys j) (ts j) (ts (Datatypes.S j) - ts j) (ys (Datatypes.S j))) start y0 tr).
    { eapply (chain_run eps); [exact HK|exact HR|]. intros n ts ys HP. exact HP. }
    destruct K as (n & ts & ys & E1 & E2 & HB & HN). exists n, ts, ys. split; [exact E1|]. split; [exact E2|]. split; [exact HB|].
    assert (HS : forall j, (j < n)%nat -> len (res name (past ys j) (ts j) (ts (Datatypes.S j) - ts j) (ys (Datatypes.S j))) <= f_tol cf).
    { intros j Hj. rewrite <- rnorm_len, <- (Rmult_1_l (f_tol cf)). apply (HN j Hj 1).
      assert (Ia : In (Z.of_nat j, ts j, ys j) (reports tr)) by (apply HB; exists j; repeat split; lia).
      assert (Ib : In ((Z.of_nat j + 1)%Z, ts (Datatypes.S j), ys (Datatypes.S j)) (reports tr)) by (apply HB; exists (Datatypes.S j); repeat split; lia).
      destruct j as [|j].
      - cbn [past hd]. apply begun_step. apply (Hw _ _ _ _ _ Ia Ib [ys 0%nat]). left. split; reflexivity.
      - assert (Ic : In ((Z.of_nat (Datatypes.S j) - 1)%Z, ts j, ys j) (reports tr)) by (apply HB; exists j; repeat split; lia).
        pose proof (Hw _ _ _ _ _ Ia Ib [ys (Datatypes.S j); ys j] (or_intror (ex_intro _ _ (ex_intro _ _ (conj eq_refl Ic))))) as Hb.
        assert (Ep : exists hist, past ys (Datatypes.S j) = ys (Datatypes.S j) :: ys j :: hist) by (destruct j; eexists; reflexivity).
        destruct Ep as [hist Ep]. rewrite Ep. cbn [hd]. apply begun_step. rewrite residual_short, weight_short. exact Hb. }
    assert (Ht : forall a c, a + (c - a) = c) by (intros; ring). clear HN Hw.
    destruct Hn as [->|[->| ->]].
    - intros k Hk. specialize (HS k Hk). destruct k; cbn [past scheme_residual sadd Rops] in HS; rewrite Ht in HS; exact HS.
    - split.
      + intros Hp. specialize (HS 0%nat Hp). cbn [past scheme_residual sadd Rops] in HS. rewrite Ht in HS. exact HS.
      + intros k Hk. specialize (HS (Datatypes.S k) Hk). destruct k; cbn [past scheme_residual sadd Rops] in HS; rewrite Ht in HS; exact HS.
    - intros k Hk. specialize (HS k Hk). destruct k; cbn [past scheme_residual sadd Rops] in HS; rewrite Ht in HS; exact HS.
  Qed.
End Dissipative.

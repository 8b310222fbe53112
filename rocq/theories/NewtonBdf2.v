(** C91: BDF2 with bounded right hand sides. *)
From Coq Require Import Reals ZArith List Lra Lia.
From Verif Require Import Base RInst Laws LawInst AdvanceModel AdvanceSpec AdvanceProofs TargetProofs Track ExplicitModel ImplicitModel ImplicitSpec ImplicitProofs ImplicitExtra
  NonlinDiag NonlinModel NonlinSpec NonlinLaws NonlinExact NonlinMoreSpec RomLsSpec RomLsProofs StabilitySpec DissipSpec DissipProofs DissipChain DissipClaims DissipPairs
  LinRunSpec LinRunProofs LinRunClaims NewtonSpec NewtonProofs NewtonRunSpec NewtonRunProofs NewtonRunSteps NewtonRunDissip NewtonRunClaims.
Import ListNotations.
Local Open Scope R_scope.

Lemma begun_less : forall cf c c' lip dt h e e', 0 <= c <= c' -> 0 <= lip -> 0 <= dt <= h -> 0 <= e <= e' -> begun cf c' lip h e' -> begun cf c lip dt e.
Proof.
  intros cf c c' lip dt h e e' Hc Hl Hd He [_ [H2 (n & H3 & H4)]].
  assert (0 <= c * dt) by (apply Rmult_le_pos; lra).
  assert (c * dt <= c' * h) by (apply Rmult_le_compat; lra).
  assert (K : 0 <= c * dt * lip / 2 <= c' * h * lip / 2).
  { assert (0 <= c * dt * lip) by (apply Rmult_le_pos; lra). assert (c * dt * lip <= c' * h * lip) by (apply Rmult_le_compat_r; lra). lra. }
  split; [lra|]. split.
  - eapply Rle_lt_trans; [|exact H2]. apply Rmult_le_compat; lra.
  - exists n. split; [|exact H4]. eapply Rle_lt_trans; [|exact H3]. rewrite !Rmult_1_l. apply quadratic_mono; assumption.
Qed.

Section Bdf2.
  Context {eps : R} {V J H L W : Type}.
  Notation o := (Rops eps).
  Variable no : nlops R V V J H.
  Variable ap : J -> V -> V.
  Variable apH : H -> V -> V.
  Notation vo := (n_vo no).
  Hypothesis HL : nl_laws eps no vo ap apH.
  Notation dot := (n_dot no).
  Hypothesis Hsame : forall x y, n_rdot no x y = dot x y.
  Variables (jo : vops R J) (jid : J).
  Hypotheses (HJ : vspace o jo) (HM : matrices vo jo jid ap).
  Variables (f : V -> R -> V) (Df : V -> R -> J) (lip : R).
  Hypotheses (Hder : derivative_of vo ap dot f Df) (Hneg : dissipative_derivative ap dot Df)
    (Hlip0 : 0 <= lip) (Hlip : lipschitz_derivative vo ap dot Df lip) (Hsq : square vo ap).
  Variable xt : exts V V J H L.
  Hypothesis Hlin : linear_ok xt (if_solvable (normal_exact apH)) (if_solvable (qr_exact no ap)) (if_solvable (newton_exact ap)) nothing.
  Variable cf : config R.
  Hypothesis Hcf : newton_absolute cf.
  Hypothesis Hst : f_stop cf = WhenAbsResidual.
  Variable u : isys (S:=R) (V:=V) (J:=J) (W:=W).
  Hypothesis HU : smooth_user u f Df.
  Variable B : R.
  Hypothesis HB : forall y t, length_of dot (f y t) <= B.
  Let HI := nl_v _ _ _ _ _ HL.
  Notation len x := (length_of dot x).
  Notation "x -- y" := (vminus (Rops eps) vo x y) (at level 50, left associativity).
  Notation res := (scheme_residual o vo f).
  Lemma tri3 x y z w a b c : x = vadd vo (vadd vo y z) w -> len y <= a -> len z <= b -> len w <= c -> len x <= a + b + c.
  Proof.
    intros ->. pose proof (triangle vo dot HI (vadd vo y z) w) as T1. pose proof (triangle vo dot HI y z) as T2. unfold length_of. lra.
  Qed.
  Lemma scaled_le a x b : 0 <= a -> len x <= b -> len (vscale vo a x) <= a * b.
  Proof. intros Ha Hb. unfold length_of. rewrite (len_scaled vo dot HI) by exact Ha. apply Rmult_le_compat_l; [exact Ha|exact Hb]. Qed.
  Lemma opp_le x b : len x <= b -> len (vscale vo (- (1)) x) <= b.
  Proof. intros Hb. unfold length_of. rewrite (len_opp vo dot HI). exact Hb. Qed.
  Ltac by_dot := apply (dot_ext vo dot HI); intros v; rewrite ?(in_add _ _ HI), ?(in_scale _ _ HI), ?(in_add _ _ HI), ?(in_scale _ _ HI), ?(in_add _ _ HI), ?(in_scale _ _ HI), ?(in_add _ _ HI), ?(in_scale _ _ HI), ?(in_add _ _ HI), ?(in_scale _ _ HI).
  (** the residual with which a step begins *)
  Lemma begins_2 y_n y_nm1 t dt h D : 0 <= dt <= h -> len (y_n -- y_nm1) <= D ->
    len (res BDF2 [y_n; y_nm1] t dt y_n) <= D / 3 + 2 / 3 * (h * B).
  Proof.
    intros Hd HD. assert (0 <= B) by (apply Rle_trans with (len (f y_n t)); [apply R_sqrt.sqrt_pos|apply HB]).
    replace (D / 3 + 2 / 3 * (h * B)) with (1 / 3 * D + 2 / 3 * h * B + 0) by field.
    eapply (tri3 _ (vscale vo (- (1)) (vscale vo (1 / 3) (y_n -- y_nm1))) (vscale vo (- (1)) (vscale vo (2 / 3 * dt) (f y_n (t + dt)))) (vscale vo 0 y_n)).
    - cbn [scheme_residual]. unfold bdf2_R, vminus, neg1, frac. cbn [sopp s1 Rops s_of_pos sadd sdiv smul]. by_dot. field.
    - apply opp_le, scaled_le; [lra|exact HD].
    - apply opp_le. apply Rle_trans with (2 / 3 * dt * B); [apply scaled_le; [lra|apply HB]|apply Rmult_le_compat_r; lra].
    - unfold length_of. rewrite (len_scaled vo dot HI) by lra. lra.
  Qed.
  (** how far a step goes *)
  Lemma goes_1 y_n y t dt h tol : 0 <= dt <= h -> len (res BDF2 [y_n] t dt y) <= tol -> len (y -- y_n) <= tol + h * B.
  Proof.
    intros Hd HD. assert (0 <= B) by (apply Rle_trans with (len (f y_n t)); [apply R_sqrt.sqrt_pos|apply HB]).
    replace (tol + h * B) with (tol + h * B + 0) by ring.
    eapply (tri3 _ (res BDF2 [y_n] t dt y) (vscale vo dt (f y (t + dt))) (vscale vo 0 y_n)).
    - cbn [scheme_residual]. unfold bdf1_R, vminus, neg1, frac. cbn [sopp s1 Rops s_of_pos sadd sdiv smul]. by_dot. ring.
    - exact HD.
    - apply Rle_trans with (dt * B); [apply scaled_le; [lra|apply HB]|apply Rmult_le_compat_r; lra].
    - unfold length_of. rewrite (len_scaled vo dot HI) by lra. lra.
  Qed.
  Lemma goes_2 y_n y_nm1 y t dt h tol D : 0 <= dt <= h -> len (y_n -- y_nm1) <= D -> len (res BDF2 [y_n; y_nm1] t dt y) <= tol ->
    len (y -- y_n) <= tol + 1 / 3 * D + 2 / 3 * h * B.
  Proof.
    intros Hd HD Hr. assert (0 <= B) by (apply Rle_trans with (len (f y_n t)); [apply R_sqrt.sqrt_pos|apply HB]).
    eapply (tri3 _ (res BDF2 [y_n; y_nm1] t dt y) (vscale vo (1 / 3) (y_n -- y_nm1)) (vscale vo (2 / 3 * dt) (f y (t + dt)))).
    - cbn [scheme_residual]. unfold bdf2_R, vminus, neg1, frac. cbn [sopp s1 Rops s_of_pos sadd sdiv smul]. by_dot. field.
    - exact Hr.
    - apply scaled_le; [lra|exact HD].
    - apply Rle_trans with (2 / 3 * dt * B); [apply scaled_le; [lra|apply HB]|apply Rmult_le_compat_r; lra].
  Qed.

  Lemma bounded_begun_bdf2 U start y0 tr h : integrated_std U eps no xt cf jo jid u BDF2 start y0 tr ->
    (forall k t y t' y', In (k, t, y) (reports tr) -> In ((k + 1)%Z, t', y') (reports tr) -> 0 <= t' - t <= h) ->
    0 <= f_tol cf -> begun cf 1 lip h (h * B + f_tol cf / 2) -> well_begun eps vo dot f cf lip BDF2 tr.
  Proof.
    intros HI0 Hh t0 Hb. destruct (newton_chain no ap apH HL jo jid HJ f Df xt Hlin cf Hcf u HU U BDF2 start y0 tr HI0) as (_ & l & HR & HK).
    assert (K : run_of (V:=V) 0 (fun ts _ n ys => forall j, (j < n)%nat ->
       met_step (eps:=eps) no ap cf jo jid f Df BDF2 (past ys j) (ts j) (ts (Datatypes.S j) - ts j) (ys (Datatypes.S j))) start y0 tr).
    { eapply (chain_run eps); [exact HK|exact HR|]. intros n ts ys HP. exact HP. }
    destruct K as (n & ts & ys & E1 & E2 & HIn & HN).
    set (tol := f_tol cf) in *.
    assert (B0 : 0 <= B) by (apply Rle_trans with (len (f y0 0)); [apply R_sqrt.sqrt_pos|apply HB]).
    assert (Hd : forall j, (j < n)%nat -> 0 <= ts (Datatypes.S j) - ts j <= h).
    { intros j Hj. apply (Hh (Z.of_nat j) (ts j) (ys j) _ (ys (Datatypes.S j))); apply HIn; [exists j|exists (Datatypes.S j)]; repeat split; lia. }
    assert (h0 : 0 <= h) by (destruct Hb as [Q _]; exact Q).
    assert (Ew : forall (y y' : V) hist, weight_of o BDF2 (y :: y' :: hist) = 2 / 3) by (intros; unfold weight_of, frac; cbn; field).
    set (D := h * B + 3 / 2 * tol).
    assert (B1 : 0 <= h * B) by (apply Rmult_le_pos; assumption).
    assert (begun_0 : forall t dt, 0 <= dt <= h -> begun cf 1 lip dt (len (res BDF2 [y0] t dt y0))).
    { intros t dt Hdt. eapply begun_less; [| | | |exact Hb]; [lra|exact Hlip0|exact Hdt|]. split; [apply R_sqrt.sqrt_pos|].
      pose proof (start_bdf1 vo dot HI f B HB y0 t dt h [] Hdt) as Q. cbn [scheme_residual] in Q |- *. lra. }
    assert (begun_2 : forall y y' t dt, 0 <= dt <= h -> len (y -- y') <= D -> begun cf (2 / 3) lip dt (len (res BDF2 [y; y'] t dt y))).
    { intros y y' t dt Hdt HD. eapply begun_less; [| | | |exact Hb]; [lra|exact Hlip0|exact Hdt|]. split; [apply R_sqrt.sqrt_pos|].
      pose proof (begins_2 y y' t dt h D Hdt HD) as Q. unfold D in Q. lra. }
    assert (small : forall j, (j < n)%nat -> len (ys (Datatypes.S j) -- ys j) <= D).
    { induction j as [|j IH]; intros Hj.
      - assert (Q : len (res BDF2 [ys 0%nat] (ts 0%nat) (ts 1%nat - ts 0%nat) (ys 1%nat)) <= tol).
        { rewrite <- (rnorm_len no ap apH HL Hsame), <- (Rmult_1_l tol). apply (HN 0%nat Hj 1). cbn [past hd].
          apply (begun_step no ap apH HL Hsame jo jid HM f Df lip Hder Hneg Hlip Hlip0 Hsq cf Hst BDF2). rewrite E2. exact (begun_0 _ _ (Hd 0%nat Hj)). }
        pose proof (goes_1 _ _ _ _ h tol (Hd 0%nat Hj) Q) as G. unfold D. lra.
      - assert (Hj' : (j < n)%nat) by lia. specialize (IH Hj').
        assert (Q : len (res BDF2 [ys (Datatypes.S j); ys j] (ts (Datatypes.S j)) (ts (Datatypes.S (Datatypes.S j)) - ts (Datatypes.S j)) (ys (Datatypes.S (Datatypes.S j)))) <= tol).
        { assert (Ep : exists hist, past ys (Datatypes.S j) = ys (Datatypes.S j) :: ys j :: hist) by (destruct j; eexists; reflexivity).
          destruct Ep as [hist Ep]. pose proof (HN (Datatypes.S j) Hj 1) as G. rewrite Ep in G. cbn [hd] in G.
          rewrite <- (residual_short o vo f BDF2 _ _ hist), <- (rnorm_len no ap apH HL Hsame), <- (Rmult_1_l tol). apply G.
          apply (begun_step no ap apH HL Hsame jo jid HM f Df lip Hder Hneg Hlip Hlip0 Hsq cf Hst BDF2).
          rewrite residual_short, Ew. exact (begun_2 _ _ _ _ (Hd _ Hj) IH). }
        pose proof (goes_2 _ _ _ _ _ h tol D (Hd _ Hj) IH Q) as G. unfold D in *. lra. }
    intros k t y t' y' Ha Hb' pst Hp. pose proof (Hh _ _ _ _ _ Ha Hb') as Hdt.
    apply HIn in Ha. destruct Ha as (j & -> & Hjn & -> & ->).
    apply HIn in Hb'. destruct Hb' as (j' & Ej & Hjn' & -> & ->).
    destruct Hp as [[Hk ->]|(tp & yp & -> & Hp)].
    - assert (j = 0%nat) by lia. subst j. rewrite E2 in *. exact (begun_0 _ _ Hdt).
    - apply HIn in Hp. destruct Hp as (i & Ei & Hi & -> & ->).
      assert (j = Datatypes.S i) by lia. subst j. assert (Hj' : (i < n)%nat) by lia.
      rewrite Ew. exact (begun_2 _ _ _ _ Hdt (small i Hj')).
  Qed.
End Bdf2.

Lemma bounded_bdf2 :
  forall (eps : R) (V J H L W U : Type) (no : nlops R V V J H) (ap : J -> V -> V) (apH : H -> V -> V),
  let o := Rops eps in let vo := n_vo no in let dot := n_dot no in
  nl_laws eps no vo ap apH -> (forall x y, n_rdot no x y = dot x y) ->
  forall (jo : vops R J) (jid : J), vspace o jo -> matrices vo jo jid ap ->
  forall xt : exts V V J H L,
  linear_ok xt (if_solvable (normal_exact apH)) (if_solvable (qr_exact no ap)) (if_solvable (newton_exact ap)) nothing ->
  forall cf, newton_absolute cf -> f_stop cf = WhenAbsResidual ->
  forall (u : isys (S:=R) (V:=V) (J:=J) (W:=W)) (f : V -> R -> V) (Df : V -> R -> J), smooth_user u f Df ->
  forall lip, derivative_of vo ap dot f Df -> dissipative_derivative ap dot Df -> 0 <= lip -> lipschitz_derivative vo ap dot Df lip -> square vo ap ->
  forall B, (forall y t, length_of dot (f y t) <= B) ->
  forall start y0 tr h, integrated_std U eps no xt cf jo jid u BDF2 start y0 tr ->
  (forall k t y t' y', In (k, t, y) (reports tr) -> In ((k + 1)%Z, t', y') (reports tr) -> 0 <= t' - t <= h) ->
  0 <= f_tol cf -> begun cf 1 lip h (h * B + f_tol cf / 2) -> well_begun eps vo dot f cf lip BDF2 tr.
Proof.
  intros eps V J H L W U no ap apH o vo dot HL Hs jo jid HJ HM xt Hlin cf Hcf Hst u f Df HU lip H1 H2 H3 H4 H5 B HB start y0 tr h.
  exact (bounded_begun_bdf2 no ap apH HL Hs jo jid HJ HM f Df lip H1 H2 H3 H4 H5 xt Hlin cf Hcf Hst u HU B HB U start y0 tr h).
Qed.

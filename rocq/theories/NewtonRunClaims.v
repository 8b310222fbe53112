(** C91: the claims. *)
From Coq Require Import Reals ZArith List Lra Lia.
From Verif Require Import Base RInst Laws LawInst AdvanceModel AdvanceSpec AdvanceProofs TargetProofs Track ExplicitModel ImplicitModel ImplicitSpec ImplicitProofs ImplicitExtra
  NonlinDiag NonlinModel NonlinSpec NonlinLaws NonlinExact NonlinMoreSpec RomLsSpec RomLsProofs StabilitySpec DissipSpec DissipProofs DissipChain DissipClaims DissipPairs
  LinRunSpec LinRunProofs LinRunClaims NewtonSpec NewtonProofs NewtonRunSpec NewtonRunProofs NewtonRunSteps NewtonRunDissip.
Import ListNotations.
Local Open Scope R_scope.

Lemma newton_n_steps :
  forall (eps : R) (V J H L W U : Type) (no : nlops R V V J H) (ap : J -> V -> V) (apH : H -> V -> V),
  let o := Rops eps in let vo := n_vo no in nl_laws eps no vo ap apH ->
  forall (jo : vops R J) (jid : J), vspace o jo ->
  forall xt : exts V V J H L,
  linear_ok xt (if_solvable (normal_exact apH)) (if_solvable (qr_exact no ap)) (if_solvable (newton_exact ap)) nothing ->
  forall cf, newton_absolute cf ->
  forall (u : isys (S:=R) (V:=V) (J:=J) (W:=W)) (f : V -> R -> V) (Df : V -> R -> J), smooth_user u f Df -> forall name,
  forall (obs : Z -> R -> V -> U -> outcome unit * U) cs cr w0 x0 ws g0,
  root_object o ws -> implicit_create o name cs cr (mk_ppol (-1) w0) x0 ws = Ok g0 ->
  let step := implicit_step o (policy_std o vo jo jid u) (as_solver (root_solve o no xt cf)) name in
  let residual := scheme_residual o vo f name in let jacobian := scheme_jacobian o jo jid Df name in
  forall pol num start y0 w, (Z.of_nat num < int32_max)%Z ->
  (forall k t y u, fst (obs k t y u) = Ok tt) -> (forall k t d u, exists dt, fst (pol k t d u) = Ok dt) ->
  exists y' g' w' tr l,
    advance_n_steps o (mk_user (split_obs obs) (pol3 (split_pol pol)) noop_guess (split_step (implicit_fn step)))
      (Z.of_nat num) start (y0, (g0, w), []) = (Ok tt, (y', (g', w'), tr)) /\
    length l = Datatypes.S num /\ reports tr = numbered l /\ hd y0 (map snd l) = y' /\
    linked_from Rplus (fun past t dt y => forall far,
      starts_well no vo ap cf (residual past t dt) (jacobian past t dt) (hd (vzero vo) past) far ->
      n_rnorm no (residual past t dt y) <= far * f_tol cf) start y0 l.
Proof.
  intros eps V J H L W U no ap apH o vo HL jo jid HJ xt Hlin cf Hcf u f Df HU name obs cs cr w0 x0 ws g0 Hws HE step residual jacobian pol num start y0 w Hn Ho Hp.
  destruct (new_n_steps no ap apH HL xt Hlin cf Hcf jo jid HJ u f Df name HU obs w0 cs cr x0 ws g0 Hws HE pol num start y0 w Hn Ho Hp)
    as (y' & g' & w' & tr & t' & d' & l & E & El & HK & HR).
  exists y', g', w', tr, ((t', d', y') :: l). split; [exact E|]. split; [cbn [length]; rewrite El; reflexivity|]. split; [exact HR|]. split; [reflexivity|exact HK].
Qed.
Lemma newton_to_target :
  forall (eps : R) (V J H L W U : Type) (no : nlops R V V J H) (ap : J -> V -> V) (apH : H -> V -> V),
  let o := Rops eps in let vo := n_vo no in nl_laws eps no vo ap apH ->
  forall (jo : vops R J) (jid : J), vspace o jo ->
  forall xt : exts V V J H L,
  linear_ok xt (if_solvable (normal_exact apH)) (if_solvable (qr_exact no ap)) (if_solvable (newton_exact ap)) nothing ->
  forall cf, newton_absolute cf ->
  forall (u : isys (S:=R) (V:=V) (J:=J) (W:=W)) (f : V -> R -> V) (Df : V -> R -> J), smooth_user u f Df -> forall name,
  forall (obs : Z -> R -> V -> U -> outcome unit * U) cs cr w0 x0 ws g0,
  root_object o ws -> implicit_create o name cs cr (mk_ppol (-1) w0) x0 ws = Ok g0 ->
  let step := implicit_step o (policy_std o vo jo jid u) (as_solver (root_solve o no xt cf)) name in
  let residual := scheme_residual o vo f name in let jacobian := scheme_jacobian o jo jid Df name in
  forall pol recovery h n fuel start final y0 w,
  0 <= eps -> (forall k t y u, fst (obs k t y u) = Ok tt) ->
  (forall k t x u, exists dt m c, fst (pol k t x u) = Ok (dt, m, c) /\ h <= dt /\ m <= dt /\ (recovery = true -> 1 < c)) ->
  start < final -> final - start <= INR n * h -> (n < fuel)%nat -> (Z.of_nat n < int32_max)%Z ->
  exists y' g' w' tr l,
    to_target o (mk_user (split_obs obs) (split_pol pol) noop_guess (split_step (implicit_fn step))) recovery fuel
      start final (y0, (g0, w), []) = (Ok tt, (y', (g', w'), tr)) /\
    reports tr = numbered l /\ hd y0 (map snd l) = y' /\
    linked_from Rplus (fun past t dt y => forall far,
      starts_well no vo ap cf (residual past t dt) (jacobian past t dt) (hd (vzero vo) past) far ->
      n_rnorm no (residual past t dt y) <= far * f_tol cf) start y0 l.
Proof.
  intros eps V J H L W U no ap apH o vo HL jo jid HJ xt Hlin cf Hcf u f Df HU name obs cs cr w0 x0 ws g0 Hws HE step residual jacobian
    pol recovery h n fuel start final y0 w He Ho Hp H1 H2 H3 H4.
  destruct (new_target_ends no ap apH HL xt Hlin cf Hcf jo jid HJ u f Df name HU obs w0 cs cr x0 ws g0 Hws HE pol recovery h n fuel start final y0 w He Ho Hp H1 H2 H3 H4)
    as (y' & g' & w' & tr & t' & d' & l & E & HK & HR).
  exists y', g', w', tr, ((t', d', y') :: l). split; [exact E|]. split; [exact HR|]. split; [reflexivity|exact HK].
Qed.

(** ** Errors *)
Section Errors.
  Context {eps : R} {V J H L W U : Type}.
  Notation o := (Rops eps).
  Variable no : nlops R V V J H.
  Variable ap : J -> V -> V.
  Variable apH : H -> V -> V.
  Notation vo := (n_vo no).
  Notation dot := (n_dot no).
  Hypothesis HL : nl_laws eps no vo ap apH.
  Hypothesis Hsame : forall x y, n_rdot no x y = dot x y.
  Variables (jo : vops R J) (jid : J).
  Hypotheses (HJ : vspace o jo) (HM : matrices vo jo jid ap).
  Variable xt : exts V V J H L.
  Hypothesis Hlin : linear_ok xt (if_solvable (normal_exact apH)) (if_solvable (qr_exact no ap)) (if_solvable (newton_exact ap)) nothing.
  Variable cf : config R.
  Hypothesis Hcf : newton_absolute cf.
  Hypothesis Hst : f_stop cf = WhenAbsResidual.
  Variables (u : isys (S:=R) (V:=V) (J:=J) (W:=W)) (f : V -> R -> V) (Df : V -> R -> J).
  Hypothesis HU : smooth_user u f Df.
  Variable lip : R.
  Hypotheses (Hder : derivative_of vo ap dot f Df) (Hneg : dissipative_derivative ap dot Df)
    (Hlip0 : 0 <= lip) (Hlip : lipschitz_derivative vo ap dot Df lip) (Hsq : square vo ap).
  Let HI := nl_v _ _ _ _ _ HL.
  Let HD : dissipative eps vo dot f := derivative_dissipative vo ap dot HI f Df Hder Hneg.
  Variables (start : R) (y0 : V) (tr : list (call R V)) (ts err : nat -> R) (n : nat) (z : nat -> V).
  Notation len x := (length_of dot x).
  Notation "x -- y" := (vminus (Rops eps) vo x y) (at level 50, left associativity).
  Hypotheses (Hts : times_are tr ts) (Hm : forall k, (k < n)%nat -> ts k <= ts (Datatypes.S k)).
  Notation runs name := (newton_run_of no ap apH HL Hsame jo jid HJ HM f Df lip Hder Hneg Hlip Hlip0 Hsq xt Hlin cf Hcf Hst u HU U name start y0 tr).
  Lemma newton_dissipative name : integrated_std U eps no xt cf jo jid u name start y0 tr ->
    exists l, reports tr = numbered l /\ linked_from Rplus (fun past t dt y => forall y_n hist, past = y_n :: hist ->
      begun cf (weight_of o name past) lip dt (len (scheme_residual o vo f name past t dt y_n)) ->
      len (scheme_residual o vo f name past t dt y) <= f_tol cf) start y0 l.
  Proof.
    intros HT. destruct (newton_chain no ap apH HL jo jid HJ f Df xt Hlin cf Hcf u HU U name start y0 tr HT) as (_ & l & HR & HK).
    exists l. split; [exact HR|]. eapply linked_weaken; [|exact HK]. intros past t dt y Hw y_n hist -> Hb.
    rewrite <- (rnorm_len no ap apH HL Hsame), <- (Rmult_1_l (f_tol cf)). apply Hw. cbn [hd].
    exact (begun_step no ap apH HL Hsame jo jid HM f Df lip Hder Hneg Hlip Hlip0 Hsq cf Hst name y_n hist t dt Hb).
  Qed.
  Lemma newton_error_bdf1 : integrated_std U eps no xt cf jo jid u BDF1 start y0 tr -> well_begun eps vo dot f cf lip BDF1 tr ->
    near_bdf1 eps vo dot f ts err n z -> forall k t y, (k <= n)%nat -> In (Z.of_nat k, t, y) (reports tr) ->
    len (y -- z k) <= len (y0 -- z 0%nat) + (INR k * f_tol cf + elapsed err k).
  Proof.
    intros HT Hw Hz. exact (against_bdf1 eps vo dot f (in_space _ _ HI) (ip_of vo dot HI) HD (f_tol cf) start y0 tr ts err n z Hm Hts (runs BDF1 HT Hw) Hz).
  Qed.
  Lemma newton_error_bdf2 : integrated_std U eps no xt cf jo jid u BDF2 start y0 tr -> well_begun eps vo dot f cf lip BDF2 tr ->
    near_bdf2 eps vo dot f ts err n z -> forall k t y, (k <= n)%nat -> In (Z.of_nat k, t, y) (reports tr) ->
    len (y -- z k) <= sqrt 2 * len (y0 -- z 0%nat) + 6 * (INR k * f_tol cf + elapsed err k).
  Proof.
    intros HT Hw Hz. exact (against_bdf2 eps vo dot f (in_space _ _ HI) (ip_of vo dot HI) HD (f_tol cf) start y0 tr ts err n z Hm Hts (runs BDF2 HT Hw) Hz).
  Qed.
  Lemma newton_error_cn : integrated_std U eps no xt cf jo jid u CrankNicolson start y0 tr -> well_begun eps vo dot f cf lip CrankNicolson tr ->
    near_cn eps vo dot f ts err n z ->
    (forall k, (Datatypes.S k < n)%nat -> ts (Datatypes.S (Datatypes.S k)) - ts (Datatypes.S k) <= ts (Datatypes.S k) - ts k) ->
    forall k t y, (k <= n)%nat -> (0 < k)%nat -> In (Z.of_nat k, t, y) (reports tr) ->
    len (y -- z k) <= len (y0 -- z 0%nat -- vscale vo (1 / 2 * (ts 1%nat - ts 0%nat)) (f y0 (ts 0%nat) -- f (z 0%nat) (ts 0%nat)))
      + (INR k * f_tol cf + elapsed err k).
  Proof.
    intros HT Hw Hz. exact (against_cn eps vo dot f (in_space _ _ HI) (ip_of vo dot HI) HD (f_tol cf) start y0 tr ts err n z Hm Hts (runs CrankNicolson HT Hw) Hz).
  Qed.
End Errors.

(** ** Bounded right hand sides *)
Lemma quadratic_mono : forall k k' a b n, 0 <= k <= k' -> 0 <= a <= b -> quadratic k a n <= quadratic k' b n.
Proof.
  intros k k' a b n [Hk Hk'] [Ha Hb]. unfold quadratic.
  assert (0 <= k * a <= k' * b) by (split; [apply Rmult_le_pos; lra|apply Rmult_le_compat; lra]).
  apply Rmult_le_compat; [lra|apply pow_le; lra|lra|apply pow_incr; lra].
Qed.
Lemma begun_mono : forall cf c lip dt h e e', 0 <= c -> 0 <= lip -> 0 <= dt <= h -> 0 <= e <= e' -> begun cf c lip h e' -> begun cf c lip dt e.
Proof.
  intros cf c lip dt h e e' Hc Hl Hd He [_ [H2 (n & H3 & H4)]].
  assert (0 <= c * dt) by (apply Rmult_le_pos; lra).
  assert (c * dt <= c * h) by (apply Rmult_le_compat_l; lra).
  assert (K : 0 <= c * dt * lip / 2 <= c * h * lip / 2).
  { assert (0 <= c * dt * lip) by (apply Rmult_le_pos; lra). assert (c * dt * lip <= c * h * lip) by (apply Rmult_le_compat_r; lra). lra. }
  split; [lra|]. split.
  - eapply Rle_lt_trans; [|exact H2]. apply Rmult_le_compat; lra.
  - exists n. split; [|exact H4]. eapply Rle_lt_trans; [|exact H3]. rewrite !Rmult_1_l. apply quadratic_mono; assumption.
Qed.
Section Bounded.
  Context {eps : R} {V : Type} (vo : vops R V) (dot : V -> V -> R).
  Notation o := (Rops eps).
  Hypothesis HI : NonlinLaws.inner eps vo dot.
  Variables (f : V -> R -> V) (B : R).
  Hypothesis HB : forall y t, length_of dot (f y t) <= B.
  Let HF := R_field eps.
  Let HV : vspace o vo := in_space _ _ HI.
  Lemma start_bdf1 y t dt h hist : 0 <= dt <= h -> length_of dot (scheme_residual o vo f BDF1 (y :: hist) t dt y) <= h * B.
  Proof.
    intros Hd. cbn [scheme_residual].
    assert (E : bdf1_R o vo y dt (f y (sadd o t dt)) y = vscale vo (- (1)) (vscale vo dt (f y (sadd o t dt)))).
    { unfold bdf1_R, vminus, neg1. cbn [sopp s1 Rops]. apply (dot_ext vo dot HI). intros v. rewrite ?(in_add _ _ HI), ?(in_scale _ _ HI), ?(in_add _ _ HI), ?(in_scale _ _ HI). ring. }
    rewrite E. unfold length_of. rewrite (len_opp vo dot HI), (len_scaled vo dot HI) by lra.
    pose proof (HB y (sadd o t dt)) as K. unfold length_of in K. pose proof (R_sqrt.sqrt_pos (dot (f y (sadd o t dt)) (f y (sadd o t dt)))).
    apply Rmult_le_compat; lra.
  Qed.
  Lemma start_cn y t dt h hist : 0 <= dt <= h -> length_of dot (scheme_residual o vo f CrankNicolson (y :: hist) t dt y) <= h * B.
  Proof.
    intros Hd. cbn [scheme_residual]. set (a := f y t). set (b := f y (sadd o t dt)).
    assert (E : cn_R o vo y a dt b y = vscale vo (- (1)) (vscale vo (1 / 2 * dt) (vadd vo a b))).
    { unfold cn_R, vminus, neg1, frac. cbn [sopp s1 Rops s_of_pos sadd sdiv smul]. apply (dot_ext vo dot HI). intros v.
      rewrite ?(in_add _ _ HI), ?(in_scale _ _ HI), ?(in_add _ _ HI), ?(in_scale _ _ HI), ?(in_add _ _ HI), ?(in_scale _ _ HI). field. }
    rewrite E. unfold length_of. rewrite (len_opp vo dot HI), (len_scaled vo dot HI) by lra.
    pose proof (HB y t) as K1. pose proof (HB y (sadd o t dt)) as K2. unfold length_of in K1, K2. fold a in K1. fold b in K2.
    pose proof (triangle vo dot HI a b) as T. pose proof (R_sqrt.sqrt_pos (dot (vadd vo a b) (vadd vo a b))).
    replace (h * B) with (1 / 2 * h * (2 * B)) by field. apply Rmult_le_compat; lra.
  Qed.
  Lemma bounded_begun cf lip name h tr : name = BDF1 \/ name = CrankNicolson -> 0 <= lip ->
    (forall k t y t' y', In (k, t, y) (reports tr) -> In ((k + 1)%Z, t', y') (reports tr) -> 0 <= t' - t <= h) ->
    begun cf (weight_of o name ([] : list V)) lip h (h * B) -> well_begun eps vo dot f cf lip name tr.
  Proof.
    intros Hn Hl Hh Hb k t y t' y' Ha Hb' past Hp. pose proof (Hh _ _ _ _ _ Ha Hb') as Hd.
    assert (Ep : exists hist, past = y :: hist) by (destruct Hp as [[_ ->]|(tp & yp & -> & _)]; eexists; reflexivity).
    destruct Ep as [hist ->]. assert (Ew : weight_of o name (y :: hist) = weight_of o name ([] : list V)) by (destruct Hn as [-> | ->]; reflexivity).
    rewrite Ew. eapply begun_mono; [apply weight_pos|exact Hl|exact Hd| |exact Hb].
    split; [apply R_sqrt.sqrt_pos|]. destruct Hn as [-> | ->]; [apply start_bdf1|apply start_cn]; exact Hd.
  Qed.
End Bounded.

(** C82: whole integrations. *)
From Coq Require Import Reals ZArith List Lra Lia.
From Verif Require Import Base RInst Laws LawInst AdvanceModel AdvanceSpec AdvanceProofs TargetProofs Track ExplicitModel ImplicitModel ImplicitSpec ImplicitProofs ImplicitExtra
  NonlinDiag NonlinModel NonlinSpec NonlinLaws NonlinMoreSpec RomLsSpec RomLsProofs StabilitySpec DissipSpec DissipProofs DissipChain DissipClaims DissipPairs LinRunSpec LinRunProofs.
Import ListNotations.
Local Open Scope R_scope.

Section Algebra.
  Context {S V J : Type} (o : sops S) (vo : vops S V) (jo : vops S J) (jid : J) (ap : J -> V -> V).
  Hypotheses (HF : sfield o) (HV : vspace o vo) (HM : matrices vo jo jid ap).
  Add Field SFla : (sfield_th o HF).
  Lemma matrix_apply c h a x : ap (scheme_J o jo jid c h a) x = vadd vo x (vscale vo (sopp o (smul o c h)) (ap a x)).
  Proof.
    cbv [scheme_J jminus neg1]. rewrite (m_add _ _ _ _ HM), !(m_scale _ _ _ _ HM), (m_id _ _ _ _ HM). vreduce o vo HF HV; ring.
  Qed.
  Lemma rhs_difference A b x t : vminus o vo (linear_rhs vo ap A b x t) (linear_rhs vo ap A b (vzero vo) t) = ap (A t) x.
  Proof.
    cbv [linear_rhs vminus]. rewrite (NonlinStep.ap_zero o vo jo jid ap HF HV HM). cbv [neg1]. vreduce o vo HF HV; ring.
  Qed.
  Lemma scale_none x : vscale vo (s0 o) x = vzero vo.
  Proof. vreduce o vo HF HV; ring. Qed.
  Lemma minus_zero x : vminus o vo x (vzero vo) = x.
  Proof. cbv [vminus neg1]. vreduce o vo HF HV; ring. Qed.
End Algebra.

Section Stable.
  Context {eps : R} {V J H L W : Type}.
  Notation o := (Rops eps).
  Variable no : nlops R V V J H.
  Variable ap : J -> V -> V.
  Variable apH : H -> V -> V.
  Notation vo := (n_vo no).
  Hypothesis HL : nl_laws eps no vo ap apH.
  Variable xt : exts V V J H L.
  Hypothesis Hlin : linear_ok xt (if_solvable (normal_exact apH)) (if_solvable (qr_exact no ap)) (if_solvable (newton_exact ap)) nothing.
  Variable cf : config R.
  Hypothesis Hcf : newton_settings cf.
  Variables (jo : vops R J) (jid : J).
  Hypotheses (HJ : vspace o jo) (HM : matrices vo jo jid ap).
  Variable u : isys (S:=R) (V:=V) (J:=J) (W:=W).
  Variables (A : R -> J) (b : R -> V).
  Notation f := (linear_rhs vo ap A b).
  Let HF := R_field eps.
  Let HC := R_char0 eps.
  Let HV : vspace o vo := in_space _ _ (nl_v _ _ _ _ _ HL).
  Variable ip : V -> V -> R.
  Hypotheses (HI : DissipSpec.inner vo ip) (Hdef : definite vo ip) (HD : dissipative eps vo ip f) (Hsq : square vo ap).

  Lemma dissip_invertible c h t : 0 <= c -> 0 <= h -> invertible vo ap (scheme_J o jo jid c h (A t)).
  Proof.
    intros Hc Hh. assert (Hk : forall v, ap (scheme_J o jo jid c h (A t)) v = vzero vo -> v = vzero vo).
    { intros v Hv. rewrite (matrix_apply o vo jo jid ap HF HV HM) in Hv. apply Hdef.
      assert (H1 : ip v v + - (c * h) * ip (ap (A t) v) v = 0).
      { rewrite <- (ip_scale _ _ HI), <- (ip_add _ _ HI). change (- (c * h)) with (sopp o (smul o c h)). rewrite Hv.
        replace (vzero vo) with (vscale vo 0 v); [rewrite (ip_scale _ _ HI); ring|].
        exact (scale_none o vo HF HV v). }
      pose proof (HD v (vzero vo) t) as H2. rewrite (rhs_difference o vo jo jid ap HF HV HM), (minus_zero o vo HF HV) in H2.
      pose proof (ip_pos _ _ HI v) as H3. assert (0 <= c * h) by (apply Rmult_le_pos; assumption). nra. }
    split; [exact Hk|exact (Hsq _ Hk)].
  Qed.
  Lemma frac_pos p q : 0 <= frac o p q.
  Proof.
    unfold frac. change (s_of_pos o) with (s_of_pos (Rops eps)). 
    assert (E : forall n, 0 < s_of_pos (Rops eps) n).
    { induction n as [n IH|n IH|]; cbn in *; lra. }
    cbn [sdiv Rops]. apply Rmult_le_pos; [apply Rlt_le, E|apply Rlt_le, Rinv_0_lt_compat, E].
  Qed.
  Lemma weight_pos name (pst : list V) : 0 <= weight_of o name pst.
  Proof. unfold weight_of. destruct name; try exact Rle_0_1; try apply frac_pos. destruct pst as [|? [|? ?]]; try exact Rle_0_1; apply frac_pos. Qed.
  Notation forward name := (fun past t dt y => 0 <= dt -> scheme_step o vo f name past t dt y).
  Lemma integrated_chain U name start y0 tr : linear_user vo ap u A b -> integrated_std U eps no xt cf jo jid u name start y0 tr ->
    exists l, reports tr = numbered l /\ linked_from Rplus (wanted (eps:=eps) no ap jo jid A b name) start y0 l.
  Proof.
    intros HU HI0. inversion HI0; subst.
    - match goal with h : exists w, p = _ |- _ => destruct h as (w1 & ->) end.
      edestruct (lin_n_steps_ok (U:=U) no ap apH HL xt Hlin cf Hcf jo jid HJ HM u A b name HU) as (t' & d' & l & HK & HR); [eassumption..|].
      eexists. split; [exact HR|exact HK].
    - match goal with h : exists w, p = _ |- _ => destruct h as (w1 & ->) end.
      edestruct (lin_target (U:=U) no ap apH HL xt Hlin cf Hcf jo jid HJ HM u A b name HU) as (t' & d' & l & HK & HR); [eassumption..|].
      eexists. split; [exact HR|exact HK].
  Qed.
  Lemma linked_weaken {T St} (plus : T -> T -> T) (P Q : list St -> T -> T -> St -> Prop) t0 y0 l :
    (forall past t dt y, P past t dt y -> Q past t dt y) -> linked_from plus P t0 y0 l -> linked_from plus Q t0 y0 l.
  Proof.
    intros HPQ [HL0 HS]. split; [|exact HS]. clear HS. induction l as [|[[t d] y] l IH]; [exact HL0|].
    destruct l as [|[[t1 d1] y1] l]; [exact I|]. destruct HL0 as (E & HP & HL1). split; [exact E|]. split; [apply HPQ; exact HP|exact (IH HL1)].
  Qed.
  Lemma integrated_any_step U name start y0 tr : linear_user vo ap u A b -> integrated_std U eps no xt cf jo jid u name start y0 tr ->
    exists l, reports tr = numbered l /\ linked_from Rplus (forward name) start y0 l.
  Proof.
    intros HU HI0. destruct (integrated_chain U name start y0 tr HU HI0) as (l & HR & HK). exists l. split; [exact HR|].
    eapply linked_weaken; [|exact HK]. intros past t dt y Hw Hd. apply Hw. apply dissip_invertible; [apply weight_pos|exact Hd].
  Qed.
  Lemma len_zero : length_of ip (vzero vo) <= 0.
  Proof.
    unfold length_of. replace (ip (vzero vo) (vzero vo)) with 0; [rewrite sqrt_0; apply Rle_refl|].
    symmetry. rewrite <- (scale_none o vo HF HV (vzero vo)) at 1. change (s0 o) with 0. rewrite (ip_scale _ _ HI). ring.
  Qed.
  Notation near_of name := (match name with BDF1 => near_bdf1 eps vo ip f | BDF2 => near_bdf2 eps vo ip f | _ => near_cn eps vo ip f end).
  Lemma integrated_run U name start y0 tr : linear_user vo ap u A b -> integrated_std U eps no xt cf jo jid u name start y0 tr ->
    forward_in_time tr -> name = BDF1 \/ name = BDF2 \/ name = CrankNicolson -> run_of 0 (near_of name) start y0 tr.
  Proof.
    intros HU HI0 Hfw Hn. destruct (integrated_any_step U name start y0 tr HU HI0) as (l & HR & HK).
    assert (K : run_of (V:=V) 0 (fun ts _ n ys => (forall j, (j < n)%nat -> ts j <= ts (Datatypes.S j)) -> near_of name ts (fun _ => 0) n ys) start y0 tr).
    { eapply (chain_run eps); [exact HK|exact HR|]. intros n ts ys HP Hm.
      assert (HS : forall j, (j < n)%nat -> scheme_step o vo f name (past ys j) (ts j) (ts (Datatypes.S j) - ts j) (ys (Datatypes.S j)))
        by (intros j Hj; apply HP; [exact Hj|specialize (Hm j Hj); lra]). clear HP.
      assert (Ht : forall a c, a + (c - a) = c) by (intros; ring).
      destruct Hn as [->|[->| ->]].
      - intros k Hk. specialize (HS k Hk). assert (E : bdf1_eq vo (fun y => f y (ts (Datatypes.S k))) (ys k) (ts (Datatypes.S k) - ts k) (ys (Datatypes.S k))).
        { destruct k; cbn [past scheme_step fom_step sadd Rops] in HS; rewrite Ht in HS; exact HS. }
        apply (root_bdf1 o vo HF HV) in E. rewrite E. exact len_zero.
      - split.
        + intros Hp. specialize (HS 0%nat Hp). cbn [past scheme_step fom_step sadd Rops] in HS. rewrite Ht in HS.
          apply (root_bdf1 o vo HF HV) in HS. rewrite HS. exact len_zero.
        + intros k Hk. specialize (HS (Datatypes.S k) Hk).
          assert (E : bdf2_eq o vo (fun y => f y (ts (Datatypes.S (Datatypes.S k)))) (ys (Datatypes.S k)) (ys k) (ts (Datatypes.S (Datatypes.S k)) - ts (Datatypes.S k)) (ys (Datatypes.S (Datatypes.S k)))).
          { destruct k; cbn [past scheme_step fom_step sadd Rops] in HS; rewrite Ht in HS; exact HS. }
          apply (root_bdf2 o vo HF HC HV) in E. rewrite E. exact len_zero.
      - intros k Hk. specialize (HS k Hk).
        assert (E : cn_eq o vo (f (ys k) (ts k)) (fun y => f y (ts (Datatypes.S k))) (ys k) (ts (Datatypes.S k) - ts k) (ys (Datatypes.S k))).
        { destruct k; cbn [past scheme_step fom_step sadd Rops] in HS; rewrite Ht in HS; exact HS. }
        apply (root_cn o vo HF HV) in E. rewrite E. exact len_zero. }
    destruct K as (n & ts & ys & E1 & E2 & HB & HN). exists n, ts, ys. split; [exact E1|]. split; [exact E2|]. split; [exact HB|].
    apply HN. intros j Hj. apply (Hfw (Z.of_nat j) _ (ys j) _ (ys (Datatypes.S j))).
    - apply HB. exists j. repeat split. lia.
    - apply HB. exists (Datatypes.S j). repeat split; lia.
  Qed.
End Stable.

(** * The claims *)
Lemma forward_same {V V'} (tr : list (call R V)) (tr' : list (call R V')) : same_times tr tr' -> forward_in_time tr -> forward_in_time tr'.
Proof.
  intros Hs Hf k t s t' s' H1 H2.
  assert (K : forall k t s, In (k, t, s) (reports tr') -> exists s1, In (k, t, s1) (reports tr)).
  { intros k1 t1 s1 Hin. apply (in_map fst) in Hin. unfold same_times in Hs. rewrite <- Hs in Hin. apply in_map_iff in Hin.
    destruct Hin as ([[k2 t2] s2] & E & Hin). cbn in E. injection E as -> ->. eauto. }
  destruct (K _ _ _ H1) as (a & Ha). destruct (K _ _ _ H2) as (a' & Ha'). exact (Hf _ _ _ _ _ Ha Ha').
Qed.
Lemma lin_exact_n_steps :
  forall (eps : R) (V J H L W U : Type) (no : nlops R V V J H) (ap : J -> V -> V) (apH : H -> V -> V),
  let o := Rops eps in let vo := n_vo no in nl_laws eps no vo ap apH ->
  forall (jo : vops R J) (jid : J), vspace o jo -> matrices vo jo jid ap ->
  forall xt : exts V V J H L,
  linear_ok xt (if_solvable (normal_exact apH)) (if_solvable (qr_exact no ap)) (if_solvable (newton_exact ap)) nothing ->
  forall cf, newton_settings cf ->
  forall (u : isys (S:=R) (V:=V) (J:=J) (W:=W)) (A : R -> J) (b : R -> V),
  linear_user vo ap u A b -> forall name,
  forall (obs : Z -> R -> V -> U -> outcome unit * U) cs cr w0 x0 ws g0,
  root_object o ws -> implicit_create o name cs cr (mk_ppol (-1) w0) x0 ws = Ok g0 ->
  let f := linear_rhs vo ap A b in
  let step := implicit_step o (policy_std o vo jo jid u) (as_solver (root_solve o no xt cf)) name in
  let regular := fun past t dt => invertible vo ap (step_matrix o jo (fun _ => jid) A name past t dt) in
  let scheme := scheme_step o vo f name in
  forall pol num start y0 w, (Z.of_nat num < int32_max)%Z ->
  (forall k t y u, fst (obs k t y u) = Ok tt) -> (forall k t d u, exists dt, fst (pol k t d u) = Ok dt) ->
  exists y' g' w' tr l,
    advance_n_steps o (mk_user (split_obs obs) (pol3 (split_pol pol)) noop_guess (split_step (implicit_fn step)))
      (Z.of_nat num) start (y0, (g0, w), []) = (Ok tt, (y', (g', w'), tr)) /\
    length l = Datatypes.S num /\ reports tr = numbered l /\ hd y0 (map snd l) = y' /\
    linked_from Rplus (fun past t dt y => regular past t dt -> scheme past t dt y) start y0 l /\
    (forall m, linked_from Rplus (fun past t dt y => regular past t dt /\ scheme past t dt y) start y0 m ->
       map fst (numbered m) = map fst (reports tr) -> reports tr = numbered m).
Proof.
  intros eps V J H L W U no ap apH o vo HL jo jid HJ HM xt Hlin cf Hcf u A b HU name obs cs cr w0 x0 ws g0 Hws HE f step regular scheme pol num start y0 w Hn Ho Hp.
  destruct (lin_n_steps no ap apH HL xt Hlin cf Hcf jo jid HJ HM u A b name HU obs w0 cs cr x0 ws g0 Hws HE pol num start y0 w Hn Ho Hp)
    as (y' & g' & w' & tr & t' & d' & l & E & El & HK & HR).
  exists y', g', w', tr, ((t', d', y') :: l). split; [exact E|]. split; [cbn [length]; rewrite El; reflexivity|]. split; [exact HR|]. split; [reflexivity|].
  split; [exact HK|]. intros m Hm. rewrite HR. intros Ht. symmetry. revert Ht.
  exact (lin_reproduces no ap apH HL jo jid HM A b name start y0 _ m (lin_name name _ _ _ _ _ _ HE) HK Hm).
Qed.
Lemma lin_exact_target :
  forall (eps : R) (V J H L W U : Type) (no : nlops R V V J H) (ap : J -> V -> V) (apH : H -> V -> V),
  let o := Rops eps in let vo := n_vo no in nl_laws eps no vo ap apH ->
  forall (jo : vops R J) (jid : J), vspace o jo -> matrices vo jo jid ap ->
  forall xt : exts V V J H L,
  linear_ok xt (if_solvable (normal_exact apH)) (if_solvable (qr_exact no ap)) (if_solvable (newton_exact ap)) nothing ->
  forall cf, newton_settings cf ->
  forall (u : isys (S:=R) (V:=V) (J:=J) (W:=W)) (A : R -> J) (b : R -> V),
  linear_user vo ap u A b -> forall name,
  forall (obs : Z -> R -> V -> U -> outcome unit * U) cs cr w0 x0 ws g0,
  root_object o ws -> implicit_create o name cs cr (mk_ppol (-1) w0) x0 ws = Ok g0 ->
  let f := linear_rhs vo ap A b in
  let step := implicit_step o (policy_std o vo jo jid u) (as_solver (root_solve o no xt cf)) name in
  let regular := fun past t dt => invertible vo ap (step_matrix o jo (fun _ => jid) A name past t dt) in
  let scheme := scheme_step o vo f name in
  forall pol recovery h n fuel start final y0 w,
  0 <= eps -> (forall k t y u, fst (obs k t y u) = Ok tt) ->
  (forall k t x u, exists dt m c, fst (pol k t x u) = Ok (dt, m, c) /\ h <= dt /\ m <= dt /\ (recovery = true -> 1 < c)) ->
  start < final -> final - start <= INR n * h -> (n < fuel)%nat -> (Z.of_nat n < int32_max)%Z ->
  exists y' g' w' tr l,
    to_target o (mk_user (split_obs obs) (split_pol pol) noop_guess (split_step (implicit_fn step))) recovery fuel
      start final (y0, (g0, w), []) = (Ok tt, (y', (g', w'), tr)) /\
    reports tr = numbered l /\ hd y0 (map snd l) = y' /\
    linked_from Rplus (fun past t dt y => regular past t dt -> scheme past t dt y) start y0 l /\
    (forall m, linked_from Rplus (fun past t dt y => regular past t dt /\ scheme past t dt y) start y0 m ->
       map fst (numbered m) = map fst (reports tr) -> reports tr = numbered m).
Proof.
  intros eps V J H L W U no ap apH o vo HL jo jid HJ HM xt Hlin cf Hcf u A b HU name obs cs cr w0 x0 ws g0 Hws HE f step regular scheme pol recovery h n fuel start final y0 w He Ho Hp Hlt Hn Hf Hm.
  destruct (lin_target_ends no ap apH HL xt Hlin cf Hcf jo jid HJ HM u A b name HU obs w0 cs cr x0 ws g0 Hws HE pol recovery h n fuel start final y0 w He Ho Hp Hlt Hn Hf Hm)
    as (y' & g' & w' & tr & t' & d' & l & E & HK & HR).
  exists y', g', w', tr, ((t', d', y') :: l). split; [exact E|]. split; [exact HR|]. split; [reflexivity|].
  split; [exact HK|]. intros m Hm'. rewrite HR. intros Ht. symmetry. revert Ht.
  exact (lin_reproduces no ap apH HL jo jid HM A b name start y0 _ m (lin_name name _ _ _ _ _ _ HE) HK Hm').
Qed.
Lemma lin_exact_n_steps_mm :
  forall (eps : R) (V J H L W U : Type) (no : nlops R V V J H) (ap : J -> V -> V) (apH : H -> V -> V),
  let o := Rops eps in let vo := n_vo no in nl_laws eps no vo ap apH ->
  forall (jo : vops R J) (jid : J), vspace o jo -> matrices vo jo jid ap ->
  forall xt : exts V V J H L,
  linear_ok xt (if_solvable (normal_exact apH)) (if_solvable (qr_exact no ap)) (if_solvable (newton_exact ap)) nothing ->
  forall cf, newton_settings cf ->
  forall (u : isys (S:=R) (V:=V) (J:=J) (W:=W)) (A : R -> J) (b : R -> V),
  forall M : R -> J, linear_ode_mm vo ap u M A b ->
  forall name, name = BDF1 \/ name = BDF2 ->
  forall (obs : Z -> R -> V -> U -> outcome unit * U) cs cr p0 x0 ws g0,
  root_object o ws -> implicit_create o name cs cr p0 x0 ws = Ok g0 ->
  let f := linear_rhs vo ap A b in
  let step := implicit_step o (policy_mm o vo jo ap u) (as_solver (root_solve o no xt cf)) name in
  let regular := fun past t dt => invertible vo ap (step_matrix o jo M A name past t dt) in
  let scheme := scheme_step_mm o vo ap M f name in
  forall pol num start y0 w, (Z.of_nat num < int32_max)%Z ->
  (forall k t y u, fst (obs k t y u) = Ok tt) -> (forall k t d u, exists dt, fst (pol k t d u) = Ok dt) ->
  exists y' g' w' tr l,
    advance_n_steps o (mk_user (split_obs obs) (pol3 (split_pol pol)) noop_guess (split_step (implicit_fn step)))
      (Z.of_nat num) start (y0, (g0, w), []) = (Ok tt, (y', (g', w'), tr)) /\
    length l = Datatypes.S num /\ reports tr = numbered l /\ hd y0 (map snd l) = y' /\
    linked_from Rplus (fun past t dt y => regular past t dt -> scheme past t dt y) start y0 l /\
    (forall m, linked_from Rplus (fun past t dt y => regular past t dt /\ scheme past t dt y) start y0 m ->
       map fst (numbered m) = map fst (reports tr) -> reports tr = numbered m).
Proof.
  intros eps V J H L W U no ap apH o vo HL jo jid HJ HM xt Hlin cf Hcf u A b M HU name Hnm obs cs cr p0 x0 ws g0 Hws HE f step regular scheme pol num start y0 w Hn Ho Hp.
  destruct (mm_n_steps no ap apH HL xt Hlin cf Hcf jo jid HJ HM u A b M HU name Hnm obs p0 cs cr x0 ws g0 Hws HE pol num start y0 w Hn Ho Hp)
    as (y' & g' & w' & tr & t' & d' & l & E & El & HK & HR).
  exists y', g', w', tr, ((t', d', y') :: l). split; [exact E|]. split; [cbn [length]; rewrite El; reflexivity|]. split; [exact HR|]. split; [reflexivity|].
  split; [exact HK|]. intros m Hm. rewrite HR. intros Ht. symmetry. revert Ht.
  exact (mm_reproduces no ap apH HL jo jid HM u A b M HU name Hnm start y0 _ m HK Hm).
Qed.
Lemma lin_exact_target_mm :
  forall (eps : R) (V J H L W U : Type) (no : nlops R V V J H) (ap : J -> V -> V) (apH : H -> V -> V),
  let o := Rops eps in let vo := n_vo no in nl_laws eps no vo ap apH ->
  forall (jo : vops R J) (jid : J), vspace o jo -> matrices vo jo jid ap ->
  forall xt : exts V V J H L,
  linear_ok xt (if_solvable (normal_exact apH)) (if_solvable (qr_exact no ap)) (if_solvable (newton_exact ap)) nothing ->
  forall cf, newton_settings cf ->
  forall (u : isys (S:=R) (V:=V) (J:=J) (W:=W)) (A : R -> J) (b : R -> V),
  forall M : R -> J, linear_ode_mm vo ap u M A b ->
  forall name, name = BDF1 \/ name = BDF2 ->
  forall (obs : Z -> R -> V -> U -> outcome unit * U) cs cr p0 x0 ws g0,
  root_object o ws -> implicit_create o name cs cr p0 x0 ws = Ok g0 ->
  let f := linear_rhs vo ap A b in
  let step := implicit_step o (policy_mm o vo jo ap u) (as_solver (root_solve o no xt cf)) name in
  let regular := fun past t dt => invertible vo ap (step_matrix o jo M A name past t dt) in
  let scheme := scheme_step_mm o vo ap M f name in
  forall pol recovery h n fuel start final y0 w,
  0 <= eps -> (forall k t y u, fst (obs k t y u) = Ok tt) ->
  (forall k t x u, exists dt m c, fst (pol k t x u) = Ok (dt, m, c) /\ h <= dt /\ m <= dt /\ (recovery = true -> 1 < c)) ->
  start < final -> final - start <= INR n * h -> (n < fuel)%nat -> (Z.of_nat n < int32_max)%Z ->
  exists y' g' w' tr l,
    to_target o (mk_user (split_obs obs) (split_pol pol) noop_guess (split_step (implicit_fn step))) recovery fuel
      start final (y0, (g0, w), []) = (Ok tt, (y', (g', w'), tr)) /\
    reports tr = numbered l /\ hd y0 (map snd l) = y' /\
    linked_from Rplus (fun past t dt y => regular past t dt -> scheme past t dt y) start y0 l /\
    (forall m, linked_from Rplus (fun past t dt y => regular past t dt /\ scheme past t dt y) start y0 m ->
       map fst (numbered m) = map fst (reports tr) -> reports tr = numbered m).
Proof.
  intros eps V J H L W U no ap apH o vo HL jo jid HJ HM xt Hlin cf Hcf u A b M HU name Hnm obs cs cr p0 x0 ws g0 Hws HE f step regular scheme pol recovery h n fuel start final y0 w He Ho Hp Hlt Hn Hf Hm.
  destruct (mm_target_ends no ap apH HL xt Hlin cf Hcf jo jid HJ HM u A b M HU name Hnm obs p0 cs cr x0 ws g0 Hws HE pol recovery h n fuel start final y0 w He Ho Hp Hlt Hn Hf Hm)
    as (y' & g' & w' & tr & t' & d' & l & E & HK & HR).
  exists y', g', w', tr, ((t', d', y') :: l). split; [exact E|]. split; [exact HR|]. split; [reflexivity|].
  split; [exact HK|]. intros m Hm'. rewrite HR. intros Ht. symmetry. revert Ht.
  exact (mm_reproduces no ap apH HL jo jid HM u A b M HU name Hnm start y0 _ m HK Hm').
Qed.
Lemma lin_any_step :
  forall (eps : R) (V J H L W U : Type) (no : nlops R V V J H) (ap : J -> V -> V) (apH : H -> V -> V),
  let o := Rops eps in let vo := n_vo no in nl_laws eps no vo ap apH ->
  forall (jo : vops R J) (jid : J), vspace o jo -> matrices vo jo jid ap ->
  forall xt : exts V V J H L,
  linear_ok xt (if_solvable (normal_exact apH)) (if_solvable (qr_exact no ap)) (if_solvable (newton_exact ap)) nothing ->
  forall cf, newton_settings cf ->
  forall (u : isys (S:=R) (V:=V) (J:=J) (W:=W)) (A : R -> J) (b : R -> V),
  forall ip, DissipSpec.inner vo ip -> definite vo ip -> square vo ap ->
  let f := linear_rhs vo ap A b in dissipative eps vo ip f ->
  linear_user vo ap u A b -> forall name,
  forall start y0 tr, integrated_std U eps no xt cf jo jid u name start y0 tr ->
  exists l, reports tr = numbered l /\ linked_from Rplus (fun past t dt y => 0 <= dt -> scheme_step o vo f name past t dt y) start y0 l.
Proof.
  intros eps V J H L W U no ap apH o vo HL jo jid HJ HM xt Hlin cf Hcf u A b ip HI Hdef Hsq f HD HU name start y0 tr HT.
  exact (integrated_any_step no ap apH HL xt Hlin cf Hcf jo jid HJ HM u A b ip HI Hdef HD Hsq U name start y0 tr HU HT).
Qed.
Lemma lin_pair_bdf1 :
  forall (eps : R) (V J H L W U L' W' U' : Type) (no : nlops R V V J H) (ap : J -> V -> V) (apH : H -> V -> V),
  let o := Rops eps in let vo := n_vo no in nl_laws eps no vo ap apH ->
  forall (jo : vops R J) (jid : J), vspace o jo -> matrices vo jo jid ap ->
  forall (xt : exts V V J H L) (xt' : exts V V J H L'),
  linear_ok xt (if_solvable (normal_exact apH)) (if_solvable (qr_exact no ap)) (if_solvable (newton_exact ap)) nothing ->
  linear_ok xt' (if_solvable (normal_exact apH)) (if_solvable (qr_exact no ap)) (if_solvable (newton_exact ap)) nothing ->
  forall cf cf', newton_settings cf -> newton_settings cf' ->
  forall (u : isys (S:=R) (V:=V) (J:=J) (W:=W)) (u' : isys (S:=R) (V:=V) (J:=J) (W:=W')) (A : R -> J) (b : R -> V),
  forall ip, DissipSpec.inner vo ip -> definite vo ip -> square vo ap ->
  let f := linear_rhs vo ap A b in dissipative eps vo ip f ->
  linear_user vo ap u A b -> linear_user vo ap u' A b ->
  forall start start' y0 y0' tr tr',
  integrated_std U eps no xt cf jo jid u BDF1 start y0 tr -> integrated_std U' eps no xt' cf' jo jid u' BDF1 start' y0' tr' ->
  same_times tr tr' -> forward_in_time tr ->
  apart eps vo ip (fun k => length_of ip (vminus o vo y0 y0')) tr tr'.
Proof.
  intros eps V J H L W U L' W' U' no ap apH o vo HL jo jid HJ HM xt xt' Hlin Hlin' cf cf' Hcf Hcf' u u' A b ip HI Hdef Hsq f HD HU HU' start start' y0 y0' tr tr' HT HT' Hs Hf.
  assert (Hf' : forward_in_time tr') by (eapply forward_same; eassumption).
  assert (R1 : run_of 0 (near_bdf1 eps vo ip f) start y0 tr)
    by exact (integrated_run no ap apH HL xt Hlin cf Hcf jo jid HJ HM u A b ip HI Hdef HD Hsq U BDF1 start y0 tr HU HT Hf ltac:(left; reflexivity)).
  assert (R2 : run_of 0 (near_bdf1 eps vo ip f) start' y0' tr')
    by exact (integrated_run no ap apH HL xt' Hlin' cf' Hcf' jo jid HJ HM u' A b ip HI Hdef HD Hsq U' BDF1 start' y0' tr' HU' HT' Hf' ltac:(left; reflexivity)).
  pose proof (pair_bdf1 eps vo ip f (in_space _ _ (nl_v _ _ _ _ _ HL)) HI HD 0 0 start start' y0 y0' tr tr' Hs Hf R1 R2) as K.
  intros k t y t' y' K1 K2. specialize (K k t y t' y' K1 K2). cbv beta in K |- *. subst o vo f. lra.
Qed.
Lemma lin_pair_bdf2 :
  forall (eps : R) (V J H L W U L' W' U' : Type) (no : nlops R V V J H) (ap : J -> V -> V) (apH : H -> V -> V),
  let o := Rops eps in let vo := n_vo no in nl_laws eps no vo ap apH ->
  forall (jo : vops R J) (jid : J), vspace o jo -> matrices vo jo jid ap ->
  forall (xt : exts V V J H L) (xt' : exts V V J H L'),
  linear_ok xt (if_solvable (normal_exact apH)) (if_solvable (qr_exact no ap)) (if_solvable (newton_exact ap)) nothing ->
  linear_ok xt' (if_solvable (normal_exact apH)) (if_solvable (qr_exact no ap)) (if_solvable (newton_exact ap)) nothing ->
  forall cf cf', newton_settings cf -> newton_settings cf' ->
  forall (u : isys (S:=R) (V:=V) (J:=J) (W:=W)) (u' : isys (S:=R) (V:=V) (J:=J) (W:=W')) (A : R -> J) (b : R -> V),
  forall ip, DissipSpec.inner vo ip -> definite vo ip -> square vo ap ->
  let f := linear_rhs vo ap A b in dissipative eps vo ip f ->
  linear_user vo ap u A b -> linear_user vo ap u' A b ->
  forall start start' y0 y0' tr tr',
  integrated_std U eps no xt cf jo jid u BDF2 start y0 tr -> integrated_std U' eps no xt' cf' jo jid u' BDF2 start' y0' tr' ->
  same_times tr tr' -> forward_in_time tr ->
  apart eps vo ip (fun k => sqrt 2 * length_of ip (vminus o vo y0 y0')) tr tr'.
Proof.
  intros eps V J H L W U L' W' U' no ap apH o vo HL jo jid HJ HM xt xt' Hlin Hlin' cf cf' Hcf Hcf' u u' A b ip HI Hdef Hsq f HD HU HU' start start' y0 y0' tr tr' HT HT' Hs Hf.
  assert (Hf' : forward_in_time tr') by (eapply forward_same; eassumption).
  assert (R1 : run_of 0 (near_bdf2 eps vo ip f) start y0 tr)
    by exact (integrated_run no ap apH HL xt Hlin cf Hcf jo jid HJ HM u A b ip HI Hdef HD Hsq U BDF2 start y0 tr HU HT Hf ltac:(right; left; reflexivity)).
  assert (R2 : run_of 0 (near_bdf2 eps vo ip f) start' y0' tr')
    by exact (integrated_run no ap apH HL xt' Hlin' cf' Hcf' jo jid HJ HM u' A b ip HI Hdef HD Hsq U' BDF2 start' y0' tr' HU' HT' Hf' ltac:(right; left; reflexivity)).
  pose proof (pair_bdf2 eps vo ip f (in_space _ _ (nl_v _ _ _ _ _ HL)) HI HD 0 0 start start' y0 y0' tr tr' Hs Hf R1 R2) as K.
  intros k t y t' y' K1 K2. specialize (K k t y t' y' K1 K2). cbv beta in K |- *. subst o vo f. lra.
Qed.
Lemma lin_pair_cn :
  forall (eps : R) (V J H L W U L' W' U' : Type) (no : nlops R V V J H) (ap : J -> V -> V) (apH : H -> V -> V),
  let o := Rops eps in let vo := n_vo no in nl_laws eps no vo ap apH ->
  forall (jo : vops R J) (jid : J), vspace o jo -> matrices vo jo jid ap ->
  forall (xt : exts V V J H L) (xt' : exts V V J H L'),
  linear_ok xt (if_solvable (normal_exact apH)) (if_solvable (qr_exact no ap)) (if_solvable (newton_exact ap)) nothing ->
  linear_ok xt' (if_solvable (normal_exact apH)) (if_solvable (qr_exact no ap)) (if_solvable (newton_exact ap)) nothing ->
  forall cf cf', newton_settings cf -> newton_settings cf' ->
  forall (u : isys (S:=R) (V:=V) (J:=J) (W:=W)) (u' : isys (S:=R) (V:=V) (J:=J) (W:=W')) (A : R -> J) (b : R -> V),
  forall ip, DissipSpec.inner vo ip -> definite vo ip -> square vo ap ->
  let f := linear_rhs vo ap A b in dissipative eps vo ip f ->
  linear_user vo ap u A b -> linear_user vo ap u' A b ->
  forall start start' y0 y0' tr tr',
  integrated_std U eps no xt cf jo jid u CrankNicolson start y0 tr -> integrated_std U' eps no xt' cf' jo jid u' CrankNicolson start' y0' tr' ->
  same_times tr tr' -> forward_in_time tr -> steps_not_growing tr ->
  forall t1 s1, In (1%Z, t1, s1) (reports tr) ->
  apart eps vo ip (fun k => length_of ip (vminus o vo (vminus o vo y0 y0') (vscale vo (1 / 2 * (t1 - start)) (vminus o vo (f y0 start) (f y0' start))))) tr tr'.
Proof.
  intros eps V J H L W U L' W' U' no ap apH o vo HL jo jid HJ HM xt xt' Hlin Hlin' cf cf' Hcf Hcf' u u' A b ip HI Hdef Hsq f HD HU HU' start start' y0 y0' tr tr' HT HT' Hs Hf Hg t1 s1 H1.
  assert (Hf' : forward_in_time tr') by (eapply forward_same; eassumption).
  assert (R1 : run_of 0 (near_cn eps vo ip f) start y0 tr)
    by exact (integrated_run no ap apH HL xt Hlin cf Hcf jo jid HJ HM u A b ip HI Hdef HD Hsq U CrankNicolson start y0 tr HU HT Hf ltac:(right; right; reflexivity)).
  assert (R2 : run_of 0 (near_cn eps vo ip f) start' y0' tr')
    by exact (integrated_run no ap apH HL xt' Hlin' cf' Hcf' jo jid HJ HM u' A b ip HI Hdef HD Hsq U' CrankNicolson start' y0' tr' HU' HT' Hf' ltac:(right; right; reflexivity)).
  pose proof (pair_cn eps vo ip f (in_space _ _ (nl_v _ _ _ _ _ HL)) HI HD 0 0 start start' y0 y0' tr tr' Hs Hf R1 R2 Hg t1 s1 H1) as K.
  intros k t y t' y' K1 K2. specialize (K k t y t' y' K1 K2). cbv beta in K |- *. subst o vo f. lra.
Qed.
Lemma lin_error_bdf1 :
  forall (eps : R) (V J H L W U : Type) (no : nlops R V V J H) (ap : J -> V -> V) (apH : H -> V -> V),
  let o := Rops eps in let vo := n_vo no in nl_laws eps no vo ap apH ->
  forall (jo : vops R J) (jid : J), vspace o jo -> matrices vo jo jid ap ->
  forall xt : exts V V J H L,
  linear_ok xt (if_solvable (normal_exact apH)) (if_solvable (qr_exact no ap)) (if_solvable (newton_exact ap)) nothing ->
  forall cf, newton_settings cf ->
  forall (u : isys (S:=R) (V:=V) (J:=J) (W:=W)) (A : R -> J) (b : R -> V),
  forall ip, DissipSpec.inner vo ip -> definite vo ip -> square vo ap ->
  let f := linear_rhs vo ap A b in dissipative eps vo ip f ->
  linear_user vo ap u A b ->
  forall start y0 tr, integrated_std U eps no xt cf jo jid u BDF1 start y0 tr -> forward_in_time tr ->
  forall ts err n z, times_are tr ts -> (forall k, (k < n)%nat -> ts k <= ts (Datatypes.S k)) ->
  near_bdf1 eps vo ip f ts err n z ->
  forall k t y, (k <= n)%nat -> In (Z.of_nat k, t, y) (reports tr) ->
  length_of ip (vminus o vo y (z k)) <= length_of ip (vminus o vo y0 (z 0%nat)) + elapsed err k.
Proof.
  intros eps V J H L W U no ap apH o vo HL jo jid HJ HM xt Hlin cf Hcf u A b ip HI Hdef Hsq f HD HU start y0 tr HT Hf ts err n z Hts Hm Hz k t y Hk Hin.
  assert (R1 : run_of 0 (near_bdf1 eps vo ip f) start y0 tr)
    by exact (integrated_run no ap apH HL xt Hlin cf Hcf jo jid HJ HM u A b ip HI Hdef HD Hsq U BDF1 start y0 tr HU HT Hf ltac:(left; reflexivity)).
  pose proof (against_bdf1 eps vo ip f (in_space _ _ (nl_v _ _ _ _ _ HL)) HI HD 0 start y0 tr ts err n z Hm Hts R1 Hz k t y Hk Hin) as K.
  subst o vo f. lra.
Qed.
Lemma lin_error_bdf2 :
  forall (eps : R) (V J H L W U : Type) (no : nlops R V V J H) (ap : J -> V -> V) (apH : H -> V -> V),
  let o := Rops eps in let vo := n_vo no in nl_laws eps no vo ap apH ->
  forall (jo : vops R J) (jid : J), vspace o jo -> matrices vo jo jid ap ->
  forall xt : exts V V J H L,
  linear_ok xt (if_solvable (normal_exact apH)) (if_solvable (qr_exact no ap)) (if_solvable (newton_exact ap)) nothing ->
  forall cf, newton_settings cf ->
  forall (u : isys (S:=R) (V:=V) (J:=J) (W:=W)) (A : R -> J) (b : R -> V),
  forall ip, DissipSpec.inner vo ip -> definite vo ip -> square vo ap ->
  let f := linear_rhs vo ap A b in dissipative eps vo ip f ->
  linear_user vo ap u A b ->
  forall start y0 tr, integrated_std U eps no xt cf jo jid u BDF2 start y0 tr -> forward_in_time tr ->
  forall ts err n z, times_are tr ts -> (forall k, (k < n)%nat -> ts k <= ts (Datatypes.S k)) ->
  near_bdf2 eps vo ip f ts err n z ->
  forall k t y, (k <= n)%nat -> In (Z.of_nat k, t, y) (reports tr) ->
  length_of ip (vminus o vo y (z k)) <= sqrt 2 * length_of ip (vminus o vo y0 (z 0%nat)) + 6 * elapsed err k.
Proof.
  intros eps V J H L W U no ap apH o vo HL jo jid HJ HM xt Hlin cf Hcf u A b ip HI Hdef Hsq f HD HU start y0 tr HT Hf ts err n z Hts Hm Hz k t y Hk Hin.
  assert (R1 : run_of 0 (near_bdf2 eps vo ip f) start y0 tr)
    by exact (integrated_run no ap apH HL xt Hlin cf Hcf jo jid HJ HM u A b ip HI Hdef HD Hsq U BDF2 start y0 tr HU HT Hf ltac:(right; left; reflexivity)).
  pose proof (against_bdf2 eps vo ip f (in_space _ _ (nl_v _ _ _ _ _ HL)) HI HD 0 start y0 tr ts err n z Hm Hts R1 Hz k t y Hk Hin) as K.
  subst o vo f. lra.
Qed.
Lemma lin_error_cn :
  forall (eps : R) (V J H L W U : Type) (no : nlops R V V J H) (ap : J -> V -> V) (apH : H -> V -> V),
  let o := Rops eps in let vo := n_vo no in nl_laws eps no vo ap apH ->
  forall (jo : vops R J) (jid : J), vspace o jo -> matrices vo jo jid ap ->
  forall xt : exts V V J H L,
  linear_ok xt (if_solvable (normal_exact apH)) (if_solvable (qr_exact no ap)) (if_solvable (newton_exact ap)) nothing ->
  forall cf, newton_settings cf ->
  forall (u : isys (S:=R) (V:=V) (J:=J) (W:=W)) (A : R -> J) (b : R -> V),
  forall ip, DissipSpec.inner vo ip -> definite vo ip -> square vo ap ->
  let f := linear_rhs vo ap A b in dissipative eps vo ip f ->
  linear_user vo ap u A b ->
  forall start y0 tr, integrated_std U eps no xt cf jo jid u CrankNicolson start y0 tr -> forward_in_time tr ->
  forall ts err n z, times_are tr ts -> (forall k, (k < n)%nat -> ts k <= ts (Datatypes.S k)) ->
  (forall k, (Datatypes.S k < n)%nat -> ts (Datatypes.S (Datatypes.S k)) - ts (Datatypes.S k) <= ts (Datatypes.S k) - ts k) ->
  near_cn eps vo ip f ts err n z ->
  forall k t y, (k <= n)%nat -> (0 < k)%nat -> In (Z.of_nat k, t, y) (reports tr) ->
  length_of ip (vminus o vo y (z k)) <= length_of ip (vminus o vo (vminus o vo y0 (z 0%nat)) (vscale vo (1 / 2 * (ts 1%nat - ts 0%nat)) (vminus o vo (f y0 (ts 0%nat)) (f (z 0%nat) (ts 0%nat))))) + elapsed err k.
Proof.
  intros eps V J H L W U no ap apH o vo HL jo jid HJ HM xt Hlin cf Hcf u A b ip HI Hdef Hsq f HD HU start y0 tr HT Hf ts err n z Hts Hm Hg Hz k t y Hk Hk0 Hin.
  assert (R1 : run_of 0 (near_cn eps vo ip f) start y0 tr)
    by exact (integrated_run no ap apH HL xt Hlin cf Hcf jo jid HJ HM u A b ip HI Hdef HD Hsq U CrankNicolson start y0 tr HU HT Hf ltac:(right; right; reflexivity)).
  pose proof (against_cn eps vo ip f (in_space _ _ (nl_v _ _ _ _ _ HL)) HI HD 0 start y0 tr ts err n z Hm Hts R1 Hz Hg k t y Hk Hk0 Hin) as K.
  subst o vo f. lra.
Qed.

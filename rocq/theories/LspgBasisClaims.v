(** The statements of C101, from the lemmas of [LspgBasisProofs]. *)
From Coq Require Import Reals ZArith List Lra.
From Verif Require Import Base RInst Laws LawInst AdvanceModel AdvanceSpec AdvanceProofs TargetProofs Track ExplicitModel ImplicitModel ImplicitSpec
  NonlinDiag NonlinModel NonlinSpec NonlinLaws LspgModel LspgSpec RomRunSpec RomLsSpec StabilitySpec DissipSpec SteadyNlSpec LspgErrSpec LspgBasisSpec DissipProofs SteadyNlClaims LspgBasisProofs.
Import ListNotations.
Local Open Scope R_scope.

Lemma lspg_same_trial_space :
  forall (eps : R) (X X' Y J J' H H' : Type) (no : nlops R X Y J H) (no' : nlops R X' Y J' H') (yo : vops R Y) (jo : vops R J) (jo' : vops R J')
    (ap : J -> X -> Y) (ap' : J' -> X' -> Y) (apH : H -> X -> X) (apH' : H' -> X' -> X'),
  nl_laws eps no yo ap apH -> tall (n_vo no) yo jo ap -> vspace (Rops eps) jo ->
  nl_laws eps no' yo ap' apH' -> tall (n_vo no') yo jo' ap' -> vspace (Rops eps) jo' ->
  (forall r, n_rnorm no r = n_rnorm no' r) ->
  forall (ref ref' : Y) (phi : J) (phi' : J') (A : R -> Y -> Y) (b : R -> Y) (name : scheme) (tag tag' : lstag),
  steps_regular eps no yo ap apH phi A tag -> steps_regular eps no' yo ap' apH' phi' A tag' ->
  let recon := trial yo ap ref phi in
  let recon' := trial yo ap' ref' phi' in
  (forall x, exists x', recon' x' = recon x) -> (forall x', exists x, recon x = recon' x') ->
  forall start start' y0 y0' tr tr',
  lspg_run eps no yo jo ap apH ref phi A b name tag start y0 tr ->
  lspg_run eps no' yo jo' ap' apH' ref' phi' A b name tag' start' y0' tr' ->
  recon y0 = recon' y0' -> same_times tr tr' -> forward_in_time tr ->
  full_reports yo ap ref phi tr = full_reports yo ap' ref' phi' tr'.
Proof.
  intros eps X X' Y J J' H H' no no' yo jo jo' ap ap' apH apH' HL HT HJ HL' HT' HJ' Hnorm ref ref' phi phi' A b name tag tag' Hreg Hreg' recon recon' Hsub Hsup
    start start' y0 y0' tr tr' HR HR' Hy Hs Hf.
  exact (same_reports eps no no' yo ap ap' ref ref' phi phi' A b name Hnorm Hsub Hsup start start' y0 y0' tr tr'
    (run_best eps no yo jo ap apH HL HT HJ ref phi A b name tag Hreg start y0 tr HR)
    (run_best eps no' yo jo' ap' apH' HL' HT' HJ' ref' phi' A b name tag' Hreg' start' y0' tr' HR') Hy Hs Hf).
Qed.
Lemma dissipative_regular :
  forall (eps : R) (X Y J H : Type) (no : nlops R X Y J H) (yo : vops R Y) (ap : J -> X -> Y) (apH : H -> X -> X),
  nl_laws eps no yo ap apH ->
  forall (phi : J) (A : R -> Y -> Y) (tag : lstag),
  full_rank no yo ap phi -> (forall t v, n_rdot no (A t v) v <= 0) ->
  (forall j, full_rank no yo ap j -> regular no yo ap apH tag j) ->
  steps_regular eps no yo ap apH phi A tag.
Proof.
  intros eps X Y J H no yo ap apH HL phi A tag Hphi HD Hreg c t dt j Hc Hdt Hj. apply Hreg. intros v E. rewrite Hj in E. apply Hphi.
  pose proof (nl_r _ _ _ _ _ HL) as HR. pose proof (dissip_inner HR) as HI. apply (in_zero _ _ HR).
  set (w := ap phi v) in *. set (h := c * dt) in *. assert (Hh : 0 <= h) by (apply Rmult_le_pos; [destruct Hc; lra|exact Hdt]).
  assert (Z : n_rdot no (vminus (Rops eps) yo w (vscale yo h (A t w))) (vminus (Rops eps) yo w (vscale yo h (A t w))) = 0).
  { rewrite E. rewrite <- (vs_0 _ _ (in_space _ _ HR) (vzero yo)) at 1. rewrite (ip_scale _ _ HI). cbn. ring. }
  rewrite (ip_minus eps yo _ HI), !(ip_minus_r eps yo _ HI), !(ip_scale _ _ HI), !(ip_scale_r yo _ HI), (ip_sym _ _ HI w (A t w)) in Z.
  pose proof (HD t w) as H1. pose proof (ip_pos _ _ HI (A t w)) as H2. pose proof (ip_pos _ _ HI w) as H3.
  assert (0 <= h * - n_rdot no (A t w) w) by (apply Rmult_le_pos; lra).
  assert (0 <= h * (h * n_rdot no (A t w) (A t w))) by (repeat apply Rmult_le_pos; lra). lra.
Qed.

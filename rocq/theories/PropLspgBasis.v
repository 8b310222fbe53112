(** C101: LSPG runs of linear FOMs depend on the trial space only. *)
From Coq Require Import Reals ZArith List.
From Verif Require Import Base RInst Laws LawInst AdvanceModel AdvanceSpec AdvanceProofs TargetProofs Track ExplicitModel ImplicitModel ImplicitSpec
  NonlinDiag NonlinModel NonlinSpec NonlinLaws LspgModel LspgSpec RomRunSpec RomLsSpec StabilitySpec DissipSpec SteadyNlSpec LspgErrSpec LspgBasisSpec LspgBasisClaims.
Import ListNotations.
Local Open Scope R_scope.

(** Two LSPG runs of the same linear FOM, possibly with different bases, reference states, numbers of reduced unknowns, linear solvers
    and Gauss-Newton variants, whose trial spaces are equal as sets: from the same full state and with the same times they report the
    same full states. *)
Theorem C101_same_trial_space :
  forall (eps : R) (X X' Y J J' H H' : Type) (no : nlops R X Y J H) (no' : nlops R X' Y J' H') (yo : vops R Y) (jo : vops R J) (jo' : vops R J')
    (ap : J -> X -> Y) (ap' : J' -> X' -> Y) (apH : H -> X -> X) (apH' : H' -> X' -> X'),
  nl_laws eps no yo ap apH -> tall (n_vo no) yo jo ap -> vspace (Rops eps) jo ->
  nl_laws eps no' yo ap' apH' -> tall (n_vo no') yo jo' ap' -> vspace (Rops eps) jo' ->
  (forall r, n_rnorm no r = n_rnorm no' r) ->
  forall (ref ref' : Y) (phi : J) (phi' : J') (A : R -> Y -> Y) (b : R -> Y) (name : scheme) (tag tag' : lstag),
  steps_regular eps no yo ap apH phi A tag -> steps_regular eps no' yo ap' apH' phi' A tag' ->
  let recon := trial yo ap ref phi in
  let recon' := trial yo ap' ref' phi' in
  (forall x, exists x', recon' x' = recon x) -> (forall x', exists x, recon x = recon' x') ->
  forall start start' y0 y0' tr tr',
  lspg_run eps no yo jo ap apH ref phi A b name tag start y0 tr ->
  lspg_run eps no' yo jo' ap' apH' ref' phi' A b name tag' start' y0' tr' ->
  recon y0 = recon' y0' -> same_times tr tr' -> forward_in_time tr ->
  full_reports yo ap ref phi tr = full_reports yo ap' ref' phi' tr'.
Proof. exact lspg_same_trial_space. Qed.
Print Assumptions C101_same_trial_space.

(** The steps of dissipative FOMs are regular if the columns of the basis are independent. *)
Theorem C101_dissipative :
  forall (eps : R) (X Y J H : Type) (no : nlops R X Y J H) (yo : vops R Y) (ap : J -> X -> Y) (apH : H -> X -> X),
  nl_laws eps no yo ap apH ->
  forall (phi : J) (A : R -> Y -> Y) (tag : lstag),
  full_rank no yo ap phi -> (forall t v, n_rdot no (A t v) v <= 0) ->
  (forall j, full_rank no yo ap j -> regular no yo ap apH tag j) ->
  steps_regular eps no yo ap apH phi A tag.
Proof. exact dissipative_regular. Qed.
Print Assumptions C101_dissipative.

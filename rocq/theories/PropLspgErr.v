(** C100: the errors of LSPG ROMs of dissipative linear FOMs. *)
From Coq Require Import Reals ZArith List.
From Verif Require Import Base RInst Laws AdvanceModel AdvanceSpec AdvanceProofs TargetProofs Track ExplicitModel ImplicitModel ImplicitSpec
  NonlinDiag NonlinModel NonlinSpec NonlinLaws LspgModel LspgSpec RomRunSpec RomLsSpec RomLsClaims
  StabilitySpec DissipSpec SteadyNlSpec LspgErrSpec LspgErrClaims.
Import ListNotations.
Local Open Scope R_scope.

(** The FOM is y' = A(t) y + b(t) with (A(t) v, v) <= 0 and |A(t) v| <= Lc |v|, the trial space ref + range(phi), the columns of phi
    independent. A BDF1 integration of the ROM ends, and the error of its reconstructed states grows by at most the error of the
    approximation in the trial space, times 1 + Lc h, and twice the residual of the FOM's states, per step; against a
    solution of the FOM's equations, by the approximation error per step and a multiple of the step size per unit of time. *)
Theorem C100_n_steps :
  forall (eps : R) (X Y J H L W U : Type) (no : nlops R X Y J H) (yo : vops R Y) (jo : vops R J) (ap : J -> X -> Y) (apH : H -> X -> X),
  nl_laws eps no yo ap apH -> tall (n_vo no) yo jo ap -> vspace (Rops eps) jo ->
  forall (ref : Y) (phi : J) (fom : sfom (S:=R) (Y:=Y) (R:=Y) (J:=J) (B:=J) (W:=W)) (A : R -> Y -> Y) (b : R -> Y) (Aphi : R -> J),
  linear_fom yo ap fom phi A b Aphi ->
  full_rank no yo ap phi ->
  forall Lc, 0 <= Lc -> dissipative_bounded (n_rdot no) Lc A ->
  forall xt : exts X Y J H L,
  linear_ok xt (if_solvable (normal_exact apH)) (if_solvable (qr_exact no ap)) (if_solvable (newton_exact ap)) nothing ->
  forall wr wj, weights_ok xt wr wj nothing ->
  forall tag cf, full_steps tag cf -> (forall j, full_rank no yo ap j -> regular no yo ap apH tag j) ->
  forall (obs : Z -> R -> X -> U -> outcome unit * U) w0 cs cr zero x0 ws g0,
  ls_object (Rops eps) ws -> lspg_create (Rops eps) BDF1 cs cr zero (fresh_policy w0) x0 ws = Ok g0 ->
  let o := Rops eps in
  let recon := fun x => vadd yo ref (ap phi x) in
  let f := fun y t => vadd yo (A t y) (b t) in
  let step := implicit_step o (default_policy o yo jo recon fom phi) (as_solver (ls_solve o no xt tag cf)) BDF1 in
  forall pol num start y0 w, (Z.of_nat num < int32_max)%Z ->
  (forall k t y u, fst (obs k t y u) = Ok tt) -> (forall k t d u, exists dt, fst (pol k t d u) = Ok dt) ->
  exists y' g' w' tr,
    advance_n_steps o (mk_user (split_obs obs) (pol3 (split_pol pol)) noop_guess (split_step (implicit_fn step)))
      (Z.of_nat num) start (y0, (g0, w), []) = (Ok tt, (y', (g', w'), tr)) /\
    length (reports tr) = S num /\ tracks eps yo (n_rdot no) recon f Lc y0 tr /\
    tracks_solution eps yo (n_rdot no) recon f Lc start y0 tr.
Proof. exact @lspg_tracks_n_steps. Qed.
Print Assumptions C100_n_steps.

(** The same of integrations to a target; step sizes of at least h: at most n steps *)
Theorem C100_to_target :
  forall (eps : R) (X Y J H L W U : Type) (no : nlops R X Y J H) (yo : vops R Y) (jo : vops R J) (ap : J -> X -> Y) (apH : H -> X -> X),
  nl_laws eps no yo ap apH -> tall (n_vo no) yo jo ap -> vspace (Rops eps) jo ->
  forall (ref : Y) (phi : J) (fom : sfom (S:=R) (Y:=Y) (R:=Y) (J:=J) (B:=J) (W:=W)) (A : R -> Y -> Y) (b : R -> Y) (Aphi : R -> J),
  linear_fom yo ap fom phi A b Aphi ->
  full_rank no yo ap phi ->
  forall Lc, 0 <= Lc -> dissipative_bounded (n_rdot no) Lc A ->
  forall xt : exts X Y J H L,
  linear_ok xt (if_solvable (normal_exact apH)) (if_solvable (qr_exact no ap)) (if_solvable (newton_exact ap)) nothing ->
  forall wr wj, weights_ok xt wr wj nothing ->
  forall tag cf, full_steps tag cf -> (forall j, full_rank no yo ap j -> regular no yo ap apH tag j) ->
  forall (obs : Z -> R -> X -> U -> outcome unit * U) w0 cs cr zero x0 ws g0,
  ls_object (Rops eps) ws -> lspg_create (Rops eps) BDF1 cs cr zero (fresh_policy w0) x0 ws = Ok g0 ->
  let o := Rops eps in
  let recon := fun x => vadd yo ref (ap phi x) in
  let f := fun y t => vadd yo (A t y) (b t) in
  let step := implicit_step o (default_policy o yo jo recon fom phi) (as_solver (ls_solve o no xt tag cf)) BDF1 in
  forall pol recovery h n fuel start final y0 w,
  0 <= eps -> (forall k t y u, fst (obs k t y u) = Ok tt) ->
  (forall k t x u, exists dt m c, fst (pol k t x u) = Ok (dt, m, c) /\ h <= dt /\ m <= dt /\ (recovery = true -> 1 < c)) ->
  start < final -> final - start <= INR n * h -> (n < fuel)%nat -> (Z.of_nat n < int32_max)%Z ->
  exists y' g' w' tr,
    to_target o (mk_user (split_obs obs) (split_pol pol) noop_guess (split_step (implicit_fn step))) recovery fuel
      start final (y0, (g0, w), []) = (Ok tt, (y', (g', w'), tr)) /\
    (exists t, In (Z.of_nat (length (reports tr) - 1), t, y') (reports tr)) /\ tracks eps yo (n_rdot no) recon f Lc y0 tr /\
    tracks_solution eps yo (n_rdot no) recon f Lc start y0 tr.
Proof. exact @lspg_tracks_target. Qed.
Print Assumptions C100_to_target.

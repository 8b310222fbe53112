(** C81: LSPG of linear FOMs solved by the library's Gauss-Newton. *)
From Coq Require Import Reals ZArith List.
From Verif Require Import Base RInst Laws AdvanceModel AdvanceSpec AdvanceProofs TargetProofs Track ExplicitModel ImplicitModel ImplicitSpec
  NonlinDiag NonlinModel NonlinSpec NonlinLaws LspgModel LspgSpec RomRunSpec RomLsSpec RomLsClaims.
Import ListNotations.
Local Open Scope R_scope.

(** The FOM is y' = A(t) y + b(t), the trial space ref + range(phi). The integration ends, every step whose matrix is regular gives the
    state whose residual is smallest among all states of the trial space, and no other state is as good; so the run is the FOM's own BDF
    trajectory wherever that trajectory stays in the trial space. *)
Theorem C81_n_steps :
  forall (eps : R) (X Y J H L W U : Type) (no : nlops R X Y J H) (yo : vops R Y) (jo : vops R J) (ap : J -> X -> Y) (apH : H -> X -> X),
  nl_laws eps no yo ap apH -> tall (n_vo no) yo jo ap -> vspace (Rops eps) jo ->
  forall (ref : Y) (phi : J) (fom : sfom (S:=R) (Y:=Y) (R:=Y) (J:=J) (B:=J) (W:=W)) (A : R -> Y -> Y) (b : R -> Y) (Aphi : R -> J),
  linear_fom yo ap fom phi A b Aphi ->
  forall xt : exts X Y J H L,
  linear_ok xt (if_solvable (normal_exact apH)) (if_solvable (qr_exact no ap)) (if_solvable (newton_exact ap)) nothing ->
  forall wr wj, weights_ok xt wr wj nothing ->
  forall tag cf, full_steps tag cf ->
  forall (obs : Z -> R -> X -> U -> outcome unit * U) w0 name cs cr zero x0 ws g0,
  ls_object (Rops eps) ws -> lspg_create (Rops eps) name cs cr zero (fresh_policy w0) x0 ws = Ok g0 ->
  let o := Rops eps in
  let recon := fun x => vadd yo ref (ap phi x) in
  let f := fun y t => vadd yo (A t y) (b t) in
  let step := implicit_step o (default_policy o yo jo recon fom phi) (as_solver (ls_solve o no xt tag cf)) name in
  let matrix := fun t dt past => lspg_jacobian o jo recon (fun _ _ => Aphi) phi name past t dt (vzero (n_vo no)) in
  let solvable := regular no yo ap apH tag in
  let best := minimising (n_rnorm no) solvable matrix (lspg_res o yo recon f name) in
  let exact := fun past t dt x => solvable (matrix t dt past) /\ fom_step o yo f name (map recon past) t dt (recon x) in
  forall pol num start y0 w, (Z.of_nat num < int32_max)%Z ->
  (forall k t y u, fst (obs k t y u) = Ok tt) -> (forall k t d u, exists dt, fst (pol k t d u) = Ok dt) ->
  exists y' g' w' tr l,
    advance_n_steps o (mk_user (split_obs obs) (pol3 (split_pol pol)) noop_guess (split_step (implicit_fn step)))
      (Z.of_nat num) start (y0, (g0, w), []) = (Ok tt, (y', (g', w'), tr)) /\
    length l = S num /\ reports tr = numbered l /\ linked_from Rplus best start y0 l /\
    (forall m, linked_from Rplus exact start y0 m -> map fst (numbered m) = map fst (reports tr) -> reports tr = numbered m).
Proof. exact @lspg_exact_n_steps. Qed.
Print Assumptions C81_n_steps.

(** The same of integrations to a target; step sizes of at least h: at most n steps *)
Theorem C81_to_target :
  forall (eps : R) (X Y J H L W U : Type) (no : nlops R X Y J H) (yo : vops R Y) (jo : vops R J) (ap : J -> X -> Y) (apH : H -> X -> X),
  nl_laws eps no yo ap apH -> tall (n_vo no) yo jo ap -> vspace (Rops eps) jo ->
  forall (ref : Y) (phi : J) (fom : sfom (S:=R) (Y:=Y) (R:=Y) (J:=J) (B:=J) (W:=W)) (A : R -> Y -> Y) (b : R -> Y) (Aphi : R -> J),
  linear_fom yo ap fom phi A b Aphi ->
  forall xt : exts X Y J H L,
  linear_ok xt (if_solvable (normal_exact apH)) (if_solvable (qr_exact no ap)) (if_solvable (newton_exact ap)) nothing ->
  forall wr wj, weights_ok xt wr wj nothing ->
  forall tag cf, full_steps tag cf ->
  forall (obs : Z -> R -> X -> U -> outcome unit * U) w0 name cs cr zero x0 ws g0,
  ls_object (Rops eps) ws -> lspg_create (Rops eps) name cs cr zero (fresh_policy w0) x0 ws = Ok g0 ->
  let o := Rops eps in
  let recon := fun x => vadd yo ref (ap phi x) in
  let f := fun y t => vadd yo (A t y) (b t) in
  let step := implicit_step o (default_policy o yo jo recon fom phi) (as_solver (ls_solve o no xt tag cf)) name in
  let matrix := fun t dt past => lspg_jacobian o jo recon (fun _ _ => Aphi) phi name past t dt (vzero (n_vo no)) in
  let solvable := regular no yo ap apH tag in
  let best := minimising (n_rnorm no) solvable matrix (lspg_res o yo recon f name) in
  let exact := fun past t dt x => solvable (matrix t dt past) /\ fom_step o yo f name (map recon past) t dt (recon x) in
  forall pol recovery h n fuel start final y0 w,
  0 <= eps -> (forall k t y u, fst (obs k t y u) = Ok tt) ->
  (forall k t x u, exists dt m c, fst (pol k t x u) = Ok (dt, m, c) /\ h <= dt /\ m <= dt /\ (recovery = true -> 1 < c)) ->
  start < final -> final - start <= INR n * h -> (n < fuel)%nat -> (Z.of_nat n < int32_max)%Z ->
  exists y' g' w' tr l,
    to_target o (mk_user (split_obs obs) (split_pol pol) noop_guess (split_step (implicit_fn step))) recovery fuel
      start final (y0, (g0, w), []) = (Ok tt, (y', (g', w'), tr)) /\
    reports tr = numbered l /\ hd y0 (map snd l) = y' /\ linked_from Rplus best start y0 l /\
    (forall m, linked_from Rplus exact start y0 m -> map fst (numbered m) = map fst (reports tr) -> reports tr = numbered m).
Proof. exact @lspg_exact_target. Qed.
Print Assumptions C81_to_target.

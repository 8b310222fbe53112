(** C81. *)
From Coq Require Import Reals ZArith List.
From Verif Require Import Base RInst Laws AdvanceModel AdvanceSpec AdvanceProofs TargetProofs Track ExplicitModel ImplicitModel ImplicitSpec
  NonlinDiag NonlinModel NonlinSpec NonlinLaws LspgModel LspgSpec RomRunSpec RomLsSpec RomLsProofs.
Import ListNotations.
Local Open Scope R_scope.

Lemma lspg_exact_n_steps :
  forall (eps : R) (X Y J H L W U : Type) (no : nlops R X Y J H) (yo : vops R Y) (jo : vops R J) (ap : J -> X -> Y) (apH : H -> X -> X),
  nl_laws eps no yo ap apH -> tall (n_vo no) yo jo ap -> vspace (Rops eps) jo ->
  forall (ref : Y) (phi : J) (fom : sfom (S:=R) (Y:=Y) (R:=Y) (J:=J) (B:=J) (W:=W)) (A : R -> Y -> Y) (b : R -> Y) (Aphi : R -> J),
  linear_fom yo ap fom phi A b Aphi ->
  forall xt : exts X Y J H L,
  linear_ok xt (if_solvable (normal_exact apH)) (if_solvable (qr_exact no ap)) (if_solvable (newton_exact ap)) nothing ->
  forall wr wj, weights_ok xt wr wj nothing ->
  forall tag cf, full_steps tag cf ->
  forall (obs : Z -> R -> X -> U -> outcome unit * U) w0 name cs cr zero x0 ws g0,
  ls_object (Rops eps) ws -> lspg_create (Rops eps) name cs cr zero (fresh_policy w0) x0 ws = Ok g0 ->
  let o := Rops eps in
  let recon := fun x => vadd yo ref (ap phi x) in
  let f := fun y t => vadd yo (A t y) (b t) in
  let step := implicit_step o (default_policy o yo jo recon fom phi) (as_solver (ls_solve o no xt tag cf)) name in
  let matrix := fun t dt past => lspg_jacobian o jo recon (fun _ _ => Aphi) phi name past t dt (vzero (n_vo no)) in
  let solvable := regular no yo ap apH tag in
  let best := minimising (n_rnorm no) solvable matrix (lspg_res o yo recon f name) in
  let exact := fun past t dt x => solvable (matrix t dt past) /\ fom_step o yo f name (map recon past) t dt (recon x) in
  forall pol num start y0 w, (Z.of_nat num < int32_max)%Z ->
  (forall k t y u, fst (obs k t y u) = Ok tt) -> (forall k t d u, exists dt, fst (pol k t d u) = Ok dt) ->
  exists y' g' w' tr l,
    advance_n_steps o (mk_user (split_obs obs) (pol3 (split_pol pol)) noop_guess (split_step (implicit_fn step)))
      (Z.of_nat num) start (y0, (g0, w), []) = (Ok tt, (y', (g', w'), tr)) /\
    length l = S num /\ reports tr = numbered l /\ linked_from Rplus best start y0 l /\
    (forall m, linked_from Rplus exact start y0 m -> map fst (numbered m) = map fst (reports tr) -> reports tr = numbered m).
Proof.
  intros eps X Y J H L W U no yo jo ap apH HL HT HJ ref phi fom A b Aphi Hfom xt Hlin wr wj Hw tag cf (H1 & H2 & H3 & H4 & H5)
    obs w0 name cs cr zero x0 ws g0 Hws HE o recon f step matrix solvable best exact pol num start y0 w Hn Ho Hp.
  destruct (lspg_min_n_steps no yo jo ap apH HL HT HJ ref phi fom A b Aphi Hfom xt Hlin wr wj Hw tag cf H1 H2 H3 H4 H5 obs w0 name
              cs cr zero x0 ws g0 Hws HE pol num start y0 w Hn Ho Hp) as (y' & g' & w' & tr & t' & d' & l & E & El & HK & HR).
  exists y', g', w', tr, ((t', d', y') :: l). split; [exact E|]. split; [cbn [length]; rewrite El; reflexivity|]. split; [exact HR|].
  split; [exact HK|]. intros m Hm. rewrite HR. intros Ht. symmetry. revert Ht.
  exact (lspg_reproduces no yo jo ap apH HL ref phi A b Aphi tag w0 name cs cr zero x0 ws g0 HE start y0 _ m HK Hm).
Qed.
Lemma lspg_exact_target :
  forall (eps : R) (X Y J H L W U : Type) (no : nlops R X Y J H) (yo : vops R Y) (jo : vops R J) (ap : J -> X -> Y) (apH : H -> X -> X),
  nl_laws eps no yo ap apH -> tall (n_vo no) yo jo ap -> vspace (Rops eps) jo ->
  forall (ref : Y) (phi : J) (fom : sfom (S:=R) (Y:=Y) (R:=Y) (J:=J) (B:=J) (W:=W)) (A : R -> Y -> Y) (b : R -> Y) (Aphi : R -> J),
  linear_fom yo ap fom phi A b Aphi ->
  forall xt : exts X Y J H L,
  linear_ok xt (if_solvable (normal_exact apH)) (if_solvable (qr_exact no ap)) (if_solvable (newton_exact ap)) nothing ->
  forall wr wj, weights_ok xt wr wj nothing ->
  forall tag cf, full_steps tag cf ->
  forall (obs : Z -> R -> X -> U -> outcome unit * U) w0 name cs cr zero x0 ws g0,
  ls_object (Rops eps) ws -> lspg_create (Rops eps) name cs cr zero (fresh_policy w0) x0 ws = Ok g0 ->
  let o := Rops eps in
  let recon := fun x => vadd yo ref (ap phi x) in
  let f := fun y t => vadd yo (A t y) (b t) in
  let step := implicit_step o (default_policy o yo jo recon fom phi) (as_solver (ls_solve o no xt tag cf)) name in
  let matrix := fun t dt past => lspg_jacobian o jo recon (fun _ _ => Aphi) phi name past t dt (vzero (n_vo no)) in
  let solvable := regular no yo ap apH tag in
  let best := minimising (n_rnorm no) solvable matrix (lspg_res o yo recon f name) in
  let exact := fun past t dt x => solvable (matrix t dt past) /\ fom_step o yo f name (map recon past) t dt (recon x) in
  forall pol recovery h n fuel start final y0 w,
  0 <= eps -> (forall k t y u, fst (obs k t y u) = Ok tt) ->
  (forall k t x u, exists dt m c, fst (pol k t x u) = Ok (dt, m, c) /\ h <= dt /\ m <= dt /\ (recovery = true -> 1 < c)) ->
  start < final -> final - start <= INR n * h -> (n < fuel)%nat -> (Z.of_nat n < int32_max)%Z ->
  exists y' g' w' tr l,
    to_target o (mk_user (split_obs obs) (split_pol pol) noop_guess (split_step (implicit_fn step))) recovery fuel
      start final (y0, (g0, w), []) = (Ok tt, (y', (g', w'), tr)) /\
    reports tr = numbered l /\ hd y0 (map snd l) = y' /\ linked_from Rplus best start y0 l /\
    (forall m, linked_from Rplus exact start y0 m -> map fst (numbered m) = map fst (reports tr) -> reports tr = numbered m).
Proof.
  intros eps X Y J H L W U no yo jo ap apH HL HT HJ ref phi fom A b Aphi Hfom xt Hlin wr wj Hw tag cf (H1 & H2 & H3 & H4 & H5)
    obs w0 name cs cr zero x0 ws g0 Hws HE o recon f step matrix solvable best exact pol recovery h n fuel start final y0 w He Ho Hp Hlt Hn Hf Hm.
  destruct (lspg_min_target_ends no yo jo ap apH HL HT HJ ref phi fom A b Aphi Hfom xt Hlin wr wj Hw tag cf H1 H2 H3 H4 H5 obs w0 name
              cs cr zero x0 ws g0 Hws HE pol recovery h n fuel start final y0 w He Ho Hp Hlt Hn Hf Hm) as (y' & g' & w' & tr & t' & d' & l & E & HK & HR).
  exists y', g', w', tr. exists ((t', d', y') :: l). split; [exact E|]. split; [exact HR|]. split; [reflexivity|]. split; [exact HK|]. intros m Hm1. rewrite HR. intros Ht. symmetry. revert Ht.
  exact (lspg_reproduces no yo jo ap apH HL ref phi A b Aphi tag w0 name cs cr zero x0 ws g0 HE start y0 _ m HK Hm1).
Qed.

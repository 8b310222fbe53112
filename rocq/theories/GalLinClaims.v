(** C83. *)
From Coq Require Import Reals ZArith List Lra Lia FunctionalExtensionality.
From Verif Require Import Base RInst Laws LawInst AdvanceModel AdvanceSpec AdvanceProofs TargetProofs Track ExplicitModel ImplicitModel ImplicitSpec
  ImplicitSim LspgModel RomSpec GalerkinModel GalerkinSpec GalerkinProofs GalerkinClaims NonlinDiag NonlinModel NonlinSpec NonlinLaws NonlinMoreSpec RomLsSpec
  StabilitySpec StabilityOrder DissipSpec DissipProofs DissipChain DissipClaims RomErrorClaims RomErrorRuns LinRunSpec LinRunProofs LinRunClaims GalLinSpec GalLinProofs.
Import ListNotations.
Local Open Scope R_scope.

Lemma gal_n_steps :
  forall (eps : R) (X Y Rf Jf Mf Rm Jm J B H L W U : Type) (no : nlops R X X J H) (ap : J -> X -> X) (apH : H -> X -> X),
  let o := Rops eps in let xo := n_vo no in nl_laws eps no xo ap apH ->
  forall (jo : vops R J) (jid : J), vspace o jo -> matrices xo jo jid ap ->
  forall xt : exts X X J H L,
  linear_ok xt (if_solvable (normal_exact apH)) (if_solvable (qr_exact no ap)) (if_solvable (newton_exact ap)) nothing ->
  forall cf, newton_settings cf ->
  forall (yo : vops R Y) (ro : vops R Rf) (fapp : Jf -> X -> Rf) (recon bapp : X -> Y) (off : Y) (phi : B)
    (fom : sfom (S:=R) (Y:=Y) (R:=Rf) (J:=Jf) (B:=B) (W:=W)) f D AB P PJ
    (c : X -> R -> gcmd (Mf:=Mf) (Rm:=Rm) (Jm:=Jm) (M:=unit)), linear_rom eps xo yo ro jo ap fapp recon bapp off phi fom f D AB P PJ c ->
  forall name (obs : Z -> R -> X -> U -> outcome unit * U) cs cr w0 xc ws g0,
  root_object o ws -> implicit_create o name cs cr (mk_ppol (-1) w0) xc ws = Ok g0 ->
  let step := implicit_step o (policy_std o xo jo jid (rhs_jac_system c)) (as_solver (root_solve o no xt cf)) name in
  let regular := fun past t dt => invertible xo ap (step_matrix o jo (fun _ => jid) (fun t => PJ t (AB t)) name past t dt) in
  let scheme := scheme_step o xo (reduced recon f P) name in
  forall pol num start x0 w, (Z.of_nat num < int32_max)%Z ->
  (forall k t x u, fst (obs k t x u) = Ok tt) -> (forall k t d u, exists dt, fst (pol k t d u) = Ok dt) ->
  exists x' g' w' tr l,
    advance_n_steps o (mk_user (split_obs obs) (pol3 (split_pol pol)) noop_guess (split_step (implicit_fn step)))
      (Z.of_nat num) start (x0, (g0, w), []) = (Ok tt, (x', (g', w'), tr)) /\
    length l = Datatypes.S num /\ reports tr = numbered l /\ hd x0 (map snd l) = x' /\
    linked_from Rplus (fun past t dt x => regular past t dt -> scheme past t dt x) start x0 l /\
    (forall m, linked_from Rplus (fun past t dt x => regular past t dt /\ scheme past t dt x) start x0 m ->
       map fst (numbered m) = map fst (reports tr) -> reports tr = numbered m).
Proof.
  intros eps X Y Rf Jf Mf Rm Jm J B H L W U no ap apH o xo HL jo jid HJ HM xt Hlin cf Hcf yo ro fapp recon bapp off phi fom f D AB P PJ c HR.
  pose proof (rom_linear_user eps xo yo ro jo ap fapp recon bapp off phi fom f D AB P PJ c HR (in_space _ _ (nl_v _ _ _ _ _ HL)) HJ) as HU.
  pose proof (reduced_linear eps xo yo ro jo ap fapp recon bapp off phi fom f D AB P PJ c HR (in_space _ _ (nl_v _ _ _ _ _ HL))) as HE.
  intros name obs cs cr w0 xc ws g0 Hws Hg step regular scheme. subst scheme. rewrite <- HE.
  exact (lin_exact_n_steps eps X J H L _ U no ap apH HL jo jid HJ HM xt Hlin cf Hcf (rhs_jac_system c) _ _ HU name obs cs cr w0 xc ws g0 Hws Hg).
Qed.
Lemma gal_to_target :
  forall (eps : R) (X Y Rf Jf Mf Rm Jm J B H L W U : Type) (no : nlops R X X J H) (ap : J -> X -> X) (apH : H -> X -> X),
  let o := Rops eps in let xo := n_vo no in nl_laws eps no xo ap apH ->
  forall (jo : vops R J) (jid : J), vspace o jo -> matrices xo jo jid ap ->
  forall xt : exts X X J H L,
  linear_ok xt (if_solvable (normal_exact apH)) (if_solvable (qr_exact no ap)) (if_solvable (newton_exact ap)) nothing ->
  forall cf, newton_settings cf ->
  forall (yo : vops R Y) (ro : vops R Rf) (fapp : Jf -> X -> Rf) (recon bapp : X -> Y) (off : Y) (phi : B)
    (fom : sfom (S:=R) (Y:=Y) (R:=Rf) (J:=Jf) (B:=B) (W:=W)) f D AB P PJ
    (c : X -> R -> gcmd (Mf:=Mf) (Rm:=Rm) (Jm:=Jm) (M:=unit)), linear_rom eps xo yo ro jo ap fapp recon bapp off phi fom f D AB P PJ c ->
  forall name (obs : Z -> R -> X -> U -> outcome unit * U) cs cr w0 xc ws g0,
  root_object o ws -> implicit_create o name cs cr (mk_ppol (-1) w0) xc ws = Ok g0 ->
  let step := implicit_step o (policy_std o xo jo jid (rhs_jac_system c)) (as_solver (root_solve o no xt cf)) name in
  let regular := fun past t dt => invertible xo ap (step_matrix o jo (fun _ => jid) (fun t => PJ t (AB t)) name past t dt) in
  let scheme := scheme_step o xo (reduced recon f P) name in
  forall pol recovery h n fuel start final x0 w,
  0 <= eps -> (forall k t x u, fst (obs k t x u) = Ok tt) ->
  (forall k t x u, exists dt m c, fst (pol k t x u) = Ok (dt, m, c) /\ h <= dt /\ m <= dt /\ (recovery = true -> 1 < c)) ->
  start < final -> final - start <= INR n * h -> (n < fuel)%nat -> (Z.of_nat n < int32_max)%Z ->
  exists x' g' w' tr l,
    to_target o (mk_user (split_obs obs) (split_pol pol) noop_guess (split_step (implicit_fn step))) recovery fuel
      start final (x0, (g0, w), []) = (Ok tt, (x', (g', w'), tr)) /\
    reports tr = numbered l /\ hd x0 (map snd l) = x' /\
    linked_from Rplus (fun past t dt x => regular past t dt -> scheme past t dt x) start x0 l /\
    (forall m, linked_from Rplus (fun past t dt x => regular past t dt /\ scheme past t dt x) start x0 m ->
       map fst (numbered m) = map fst (reports tr) -> reports tr = numbered m).
Proof.
  intros eps X Y Rf Jf Mf Rm Jm J B H L W U no ap apH o xo HL jo jid HJ HM xt Hlin cf Hcf yo ro fapp recon bapp off phi fom f D AB P PJ c HR.
  pose proof (rom_linear_user eps xo yo ro jo ap fapp recon bapp off phi fom f D AB P PJ c HR (in_space _ _ (nl_v _ _ _ _ _ HL)) HJ) as HU.
  pose proof (reduced_linear eps xo yo ro jo ap fapp recon bapp off phi fom f D AB P PJ c HR (in_space _ _ (nl_v _ _ _ _ _ HL))) as HE.
  intros name obs cs cr w0 xc ws g0 Hws Hg step regular scheme. subst scheme. rewrite <- HE.
  exact (lin_exact_target eps X J H L _ U no ap apH HL jo jid HJ HM xt Hlin cf Hcf (rhs_jac_system c) _ _ HU name obs cs cr w0 xc ws g0 Hws Hg).
Qed.
Lemma gal_exact :
  forall (eps : R) (X Y Jf Mf Rm Jm J B H L W U : Type) (no : nlops R X X J H) (ap : J -> X -> X) (apH : H -> X -> X),
  let o := Rops eps in let xo := n_vo no in nl_laws eps no xo ap apH ->
  forall (jo : vops R J) (jid : J), vspace o jo -> matrices xo jo jid ap ->
  forall xt : exts X X J H L,
  linear_ok xt (if_solvable (normal_exact apH)) (if_solvable (qr_exact no ap)) (if_solvable (newton_exact ap)) nothing ->
  forall cf, newton_settings cf ->
  forall (yo : vops R Y) (fapp : Jf -> X -> Y) (recon bapp : X -> Y) (off : Y) (phi : B)
    (fom : sfom (S:=R) (Y:=Y) (R:=Y) (J:=Jf) (B:=B) (W:=W)) f D AB P PJ
    (c : X -> R -> gcmd (Mf:=Mf) (Rm:=Rm) (Jm:=Jm) (M:=unit)), linear_rom eps xo yo yo jo ap fapp recon bapp off phi fom f D AB P PJ c ->
  (forall t x, P t (bapp x) = x) ->
  forall name start x0 tr, name = BDF1 \/ name = BDF2 \/ name = CrankNicolson /\ (forall t t' y, P t y = P t' y) ->
  integrated_std U eps no xt cf jo jid (rhs_jac_system c) name start x0 tr ->
  let regular := fun past t dt => invertible xo ap (step_matrix o jo (fun _ => jid) (fun t => PJ t (AB t)) name past t dt) in
  forall m, linked_from Rplus (fun past t dt x => regular past t dt /\ scheme_step o yo f name (map recon past) t dt (recon x)) start x0 m ->
  map fst (numbered m) = map fst (reports tr) -> reports tr = numbered m.
Proof.
  intros eps X Y Jf Mf Rm Jm J B H L W U no ap apH o xo HL jo jid HJ HM xt Hlin cf Hcf yo fapp recon bapp off phi fom f D AB P PJ c HR Hpb name start x0 tr Hn HI regular m Hm.
  assert (Hn' : name = BDF1 \/ name = BDF2 \/ name = CrankNicolson) by tauto.
  assert (Hcn : name = CrankNicolson -> forall t t' y, P t y = P t' y) by (intros ->; destruct Hn as [E|[E|[_ E]]]; [discriminate E|discriminate E|exact E]).
  pose proof (rom_linear_user eps xo yo yo jo ap fapp recon bapp off phi fom f D AB P PJ c HR (in_space _ _ (nl_v _ _ _ _ _ HL)) HJ) as HU.
  pose proof (reduced_linear eps xo yo yo jo ap fapp recon bapp off phi fom f D AB P PJ c HR (in_space _ _ (nl_v _ _ _ _ _ HL))) as HE.
  destruct (integrated_chain no ap apH HL xt Hlin cf Hcf jo jid HJ HM (rhs_jac_system c) _ _ U name start x0 tr HU HI) as (l & El & HK).
  rewrite El. intros Ht. symmetry. revert Ht.
  apply (lin_reproduces no ap apH HL jo jid HM (fun t => PJ t (AB t)) (fun t => P t (f off t)) name start x0 l m Hn' HK).
  unfold xo in HE. rewrite HE. eapply linked_weaken; [|exact Hm]. intros past t dt x [HA HB]. split; [exact HA|].
  exact (scheme_reduced eps xo yo jo ap fapp recon bapp off phi fom f D AB P PJ c HR (in_space _ _ (nl_v _ _ _ _ _ HL)) Hpb name Hcn past t dt x HB).
Qed.
Lemma gal_dissipative :
  forall (eps : R) (X Y Jf Mf Rm Jm J B H L W U : Type) (no : nlops R X X J H) (ap : J -> X -> X) (apH : H -> X -> X),
  let o := Rops eps in let xo := n_vo no in nl_laws eps no xo ap apH ->
  forall (jo : vops R J) (jid : J), vspace o jo -> matrices xo jo jid ap ->
  forall xt : exts X X J H L,
  linear_ok xt (if_solvable (normal_exact apH)) (if_solvable (qr_exact no ap)) (if_solvable (newton_exact ap)) nothing ->
  forall cf, newton_settings cf ->
  forall (yo : vops R Y) (fapp : Jf -> X -> Y) (recon bapp : X -> Y) (off : Y) (phi : B)
    (fom : sfom (S:=R) (Y:=Y) (R:=Y) (J:=Jf) (B:=B) (W:=W)) f D AB P PJ
    (c : X -> R -> gcmd (Mf:=Mf) (Rm:=Rm) (Jm:=Jm) (M:=unit)), linear_rom eps xo yo yo jo ap fapp recon bapp off phi fom f D AB P PJ c ->
  forall ip xip, DissipSpec.inner yo ip -> DissipSpec.inner xo xip -> definite xo xip -> square xo ap ->
  (forall t y a, ip y (bapp a) = xip (P t y) a) -> dissipative eps yo ip f ->
  forall name start x0 tr, integrated_std U eps no xt cf jo jid (rhs_jac_system c) name start x0 tr ->
  exists l, reports tr = numbered l /\
    linked_from Rplus (fun past t dt x => 0 <= dt -> scheme_step o xo (reduced recon f P) name past t dt x) start x0 l.
Proof.
  intros eps X Y Jf Mf Rm Jm J B H L W U no ap apH o xo HL jo jid HJ HM xt Hlin cf Hcf yo fapp recon bapp off phi fom f D AB P PJ c HR ip xip HI HXI Hdef Hsq Hadj HD name start x0 tr HT.
  pose proof (rom_linear_user eps xo yo yo jo ap fapp recon bapp off phi fom f D AB P PJ c HR (in_space _ _ (nl_v _ _ _ _ _ HL)) HJ) as HU.
  pose proof (reduced_linear eps xo yo yo jo ap fapp recon bapp off phi fom f D AB P PJ c HR (in_space _ _ (nl_v _ _ _ _ _ HL))) as HE.
  pose proof (rom_dissipative eps xo yo jo ap fapp recon bapp off phi fom f D AB P PJ c HR ip xip HI HXI Hadj HD) as HDX. rewrite <- HE in HDX.
  rewrite <- HE.
  exact (lin_any_step eps X J H L _ U no ap apH HL jo jid HJ HM xt Hlin cf Hcf _ _ _ xip HXI Hdef Hsq HDX HU name start x0 tr HT).
Qed.
Lemma gal_stable_bdf1 :
  forall (eps : R) (X Y Jf Mf Rm Jm J B H L W U L' U' : Type) (no : nlops R X X J H) (ap : J -> X -> X) (apH : H -> X -> X),
  let o := Rops eps in let xo := n_vo no in nl_laws eps no xo ap apH ->
  forall (jo : vops R J) (jid : J), vspace o jo -> matrices xo jo jid ap ->
  forall (xt : exts X X J H L) (xt' : exts X X J H L'),
  linear_ok xt (if_solvable (normal_exact apH)) (if_solvable (qr_exact no ap)) (if_solvable (newton_exact ap)) nothing ->
  linear_ok xt' (if_solvable (normal_exact apH)) (if_solvable (qr_exact no ap)) (if_solvable (newton_exact ap)) nothing ->
  forall cf cf', newton_settings cf -> newton_settings cf' ->
  forall (yo : vops R Y) (fapp : Jf -> X -> Y) (recon bapp : X -> Y) (off : Y) (phi : B)
    (fom : sfom (S:=R) (Y:=Y) (R:=Y) (J:=Jf) (B:=B) (W:=W)) f D AB P PJ
    (c : X -> R -> gcmd (Mf:=Mf) (Rm:=Rm) (Jm:=Jm) (M:=unit)), linear_rom eps xo yo yo jo ap fapp recon bapp off phi fom f D AB P PJ c ->
  forall ip xip, DissipSpec.inner yo ip -> DissipSpec.inner xo xip -> definite xo xip -> square xo ap ->
  (forall t y a, ip y (bapp a) = xip (P t y) a) -> dissipative eps yo ip f ->
  forall start start' x0 x0' tr tr',
  integrated_std U eps no xt cf jo jid (rhs_jac_system c) BDF1 start x0 tr -> integrated_std U' eps no xt' cf' jo jid (rhs_jac_system c) BDF1 start' x0' tr' ->
  same_times tr tr' -> forward_in_time tr ->
  apart eps xo xip (fun k => length_of xip (vminus o xo x0 x0')) tr tr'.
Proof.
  intros eps X Y Jf Mf Rm Jm J B H L W U L' U' no ap apH o xo HL jo jid HJ HM xt xt' Hlin Hlin' cf cf' Hcf Hcf' yo fapp recon bapp off phi fom f D AB P PJ c HR ip xip HI HXI Hdef Hsq Hadj HD start start' x0 x0' tr tr' HT HT' Hs Hf.
  pose proof (rom_linear_user eps xo yo yo jo ap fapp recon bapp off phi fom f D AB P PJ c HR (in_space _ _ (nl_v _ _ _ _ _ HL)) HJ) as HU.
  pose proof (reduced_linear eps xo yo yo jo ap fapp recon bapp off phi fom f D AB P PJ c HR (in_space _ _ (nl_v _ _ _ _ _ HL))) as HE.
  pose proof (rom_dissipative eps xo yo jo ap fapp recon bapp off phi fom f D AB P PJ c HR ip xip HI HXI Hadj HD) as HDX. rewrite <- HE in HDX.
  exact (lin_pair_bdf1 eps X J H L _ U L' _ U' no ap apH HL jo jid HJ HM xt xt' Hlin Hlin' cf cf' Hcf Hcf' _ _ _ _ xip HXI Hdef Hsq HDX HU HU start start' x0 x0' tr tr' HT HT' Hs Hf).
Qed.
Lemma gal_stable_bdf2 :
  forall (eps : R) (X Y Jf Mf Rm Jm J B H L W U L' U' : Type) (no : nlops R X X J H) (ap : J -> X -> X) (apH : H -> X -> X),
  let o := Rops eps in let xo := n_vo no in nl_laws eps no xo ap apH ->
  forall (jo : vops R J) (jid : J), vspace o jo -> matrices xo jo jid ap ->
  forall (xt : exts X X J H L) (xt' : exts X X J H L'),
  linear_ok xt (if_solvable (normal_exact apH)) (if_solvable (qr_exact no ap)) (if_solvable (newton_exact ap)) nothing ->
  linear_ok xt' (if_solvable (normal_exact apH)) (if_solvable (qr_exact no ap)) (if_solvable (newton_exact ap)) nothing ->
  forall cf cf', newton_settings cf -> newton_settings cf' ->
  forall (yo : vops R Y) (fapp : Jf -> X -> Y) (recon bapp : X -> Y) (off : Y) (phi : B)
    (fom : sfom (S:=R) (Y:=Y) (R:=Y) (J:=Jf) (B:=B) (W:=W)) f D AB P PJ
    (c : X -> R -> gcmd (Mf:=Mf) (Rm:=Rm) (Jm:=Jm) (M:=unit)), linear_rom eps xo yo yo jo ap fapp recon bapp off phi fom f D AB P PJ c ->
  forall ip xip, DissipSpec.inner yo ip -> DissipSpec.inner xo xip -> definite xo xip -> square xo ap ->
  (forall t y a, ip y (bapp a) = xip (P t y) a) -> dissipative eps yo ip f ->
  forall start start' x0 x0' tr tr',
  integrated_std U eps no xt cf jo jid (rhs_jac_system c) BDF2 start x0 tr -> integrated_std U' eps no xt' cf' jo jid (rhs_jac_system c) BDF2 start' x0' tr' ->
  same_times tr tr' -> forward_in_time tr ->
  apart eps xo xip (fun k => sqrt 2 * length_of xip (vminus o xo x0 x0')) tr tr'.
Proof.
  intros eps X Y Jf Mf Rm Jm J B H L W U L' U' no ap apH o xo HL jo jid HJ HM xt xt' Hlin Hlin' cf cf' Hcf Hcf' yo fapp recon bapp off phi fom f D AB P PJ c HR ip xip HI HXI Hdef Hsq Hadj HD start start' x0 x0' tr tr' HT HT' Hs Hf.
  pose proof (rom_linear_user eps xo yo yo jo ap fapp recon bapp off phi fom f D AB P PJ c HR (in_space _ _ (nl_v _ _ _ _ _ HL)) HJ) as HU.
  pose proof (reduced_linear eps xo yo yo jo ap fapp recon bapp off phi fom f D AB P PJ c HR (in_space _ _ (nl_v _ _ _ _ _ HL))) as HE.
  pose proof (rom_dissipative eps xo yo jo ap fapp recon bapp off phi fom f D AB P PJ c HR ip xip HI HXI Hadj HD) as HDX. rewrite <- HE in HDX.
  exact (lin_pair_bdf2 eps X J H L _ U L' _ U' no ap apH HL jo jid HJ HM xt xt' Hlin Hlin' cf cf' Hcf Hcf' _ _ _ _ xip HXI Hdef Hsq HDX HU HU start start' x0 x0' tr tr' HT HT' Hs Hf).
Qed.
Lemma gal_stable_crank_nicolson :
  forall (eps : R) (X Y Jf Mf Rm Jm J B H L W U L' U' : Type) (no : nlops R X X J H) (ap : J -> X -> X) (apH : H -> X -> X),
  let o := Rops eps in let xo := n_vo no in nl_laws eps no xo ap apH ->
  forall (jo : vops R J) (jid : J), vspace o jo -> matrices xo jo jid ap ->
  forall (xt : exts X X J H L) (xt' : exts X X J H L'),
  linear_ok xt (if_solvable (normal_exact apH)) (if_solvable (qr_exact no ap)) (if_solvable (newton_exact ap)) nothing ->
  linear_ok xt' (if_solvable (normal_exact apH)) (if_solvable (qr_exact no ap)) (if_solvable (newton_exact ap)) nothing ->
  forall cf cf', newton_settings cf -> newton_settings cf' ->
  forall (yo : vops R Y) (fapp : Jf -> X -> Y) (recon bapp : X -> Y) (off : Y) (phi : B)
    (fom : sfom (S:=R) (Y:=Y) (R:=Y) (J:=Jf) (B:=B) (W:=W)) f D AB P PJ
    (c : X -> R -> gcmd (Mf:=Mf) (Rm:=Rm) (Jm:=Jm) (M:=unit)), linear_rom eps xo yo yo jo ap fapp recon bapp off phi fom f D AB P PJ c ->
  forall ip xip, DissipSpec.inner yo ip -> DissipSpec.inner xo xip -> definite xo xip -> square xo ap ->
  (forall t y a, ip y (bapp a) = xip (P t y) a) -> dissipative eps yo ip f ->
  forall start start' x0 x0' tr tr',
  integrated_std U eps no xt cf jo jid (rhs_jac_system c) CrankNicolson start x0 tr -> integrated_std U' eps no xt' cf' jo jid (rhs_jac_system c) CrankNicolson start' x0' tr' ->
  same_times tr tr' -> forward_in_time tr -> steps_not_growing tr ->
  let F := reduced recon f P in forall t1 s1, In (1%Z, t1, s1) (reports tr) ->
  apart eps xo xip (fun k => length_of xip (vminus o xo (vminus o xo x0 x0') (vscale xo (1 / 2 * (t1 - start)) (vminus o xo (F x0 start) (F x0' start))))) tr tr'.
Proof.
  intros eps X Y Jf Mf Rm Jm J B H L W U L' U' no ap apH o xo HL jo jid HJ HM xt xt' Hlin Hlin' cf cf' Hcf Hcf' yo fapp recon bapp off phi fom f D AB P PJ c HR ip xip HI HXI Hdef Hsq Hadj HD start start' x0 x0' tr tr' HT HT' Hs Hf Hg F t1 s1 H1.
  pose proof (rom_linear_user eps xo yo yo jo ap fapp recon bapp off phi fom f D AB P PJ c HR (in_space _ _ (nl_v _ _ _ _ _ HL)) HJ) as HU.
  pose proof (reduced_linear eps xo yo yo jo ap fapp recon bapp off phi fom f D AB P PJ c HR (in_space _ _ (nl_v _ _ _ _ _ HL))) as HE.
  pose proof (rom_dissipative eps xo yo jo ap fapp recon bapp off phi fom f D AB P PJ c HR ip xip HI HXI Hadj HD) as HDX. rewrite <- HE in HDX.
  subst F. rewrite <- HE.
  exact (lin_pair_cn eps X J H L _ U L' _ U' no ap apH HL jo jid HJ HM xt xt' Hlin Hlin' cf cf' Hcf Hcf' _ _ _ _ xip HXI Hdef Hsq HDX HU HU start start' x0 x0' tr tr' HT HT' Hs Hf Hg t1 s1 H1).
Qed.
Lemma gal_error_bdf1 :
  forall (eps : R) (X Y Jf Mf Rm Jm J B H L W U J' H' L' W' U' : Type) (no : nlops R X X J H) (ap : J -> X -> X) (apH : H -> X -> X)
    (no' : nlops R Y Y J' H') (ap' : J' -> Y -> Y) (apH' : H' -> Y -> Y),
  let o := Rops eps in let xo := n_vo no in let yo := n_vo no' in nl_laws eps no xo ap apH -> nl_laws eps no' yo ap' apH' ->
  forall (jo : vops R J) (jid : J) (jo' : vops R J') (jid' : J'),
  vspace o jo -> matrices xo jo jid ap -> vspace o jo' -> matrices yo jo' jid' ap' ->
  forall (xt : exts X X J H L) (xt' : exts Y Y J' H' L'),
  linear_ok xt (if_solvable (normal_exact apH)) (if_solvable (qr_exact no ap)) (if_solvable (newton_exact ap)) nothing ->
  linear_ok xt' (if_solvable (normal_exact apH')) (if_solvable (qr_exact no' ap')) (if_solvable (newton_exact ap')) nothing ->
  forall cf cf', newton_settings cf -> newton_settings cf' ->
  forall (fapp : Jf -> X -> Y) (recon bapp : X -> Y) (off : Y) (phi : B)
    (fom : sfom (S:=R) (Y:=Y) (R:=Y) (J:=Jf) (B:=B) (W:=W)) (A' : R -> J') (b' : R -> Y) D AB P PJ
    (c : X -> R -> gcmd (Mf:=Mf) (Rm:=Rm) (Jm:=Jm) (M:=unit)), let f := linear_rhs yo ap' A' b' in
  linear_rom eps xo yo yo jo ap fapp recon bapp off phi fom f D AB P PJ c ->
  forall u : isys (S:=R) (V:=Y) (J:=J') (W:=W'), linear_user yo ap' u A' b' ->
  forall ip xip, DissipSpec.inner yo ip -> DissipSpec.inner xo xip -> definite yo ip -> definite xo xip -> square yo ap' -> square xo ap ->
  (forall t y a, ip y (bapp a) = xip (P t y) a) -> dissipative eps yo ip f ->
  forall start y0 x0 tr tr',
  integrated_std U' eps no' xt' cf' jo' jid' u BDF1 start y0 tr -> integrated_std U eps no xt cf jo jid (rhs_jac_system c) BDF1 start x0 tr' ->
  same_times tr tr' -> forward_in_time tr ->
  forall del, (forall k t x, In (k, t, x) (reports tr') -> length_of ip (vminus o yo (f (recon x) t) (bapp (P t (f (recon x) t)))) <= del) ->
  forall k t y x, In (k, t, y) (reports tr) -> In (k, t, x) (reports tr') ->
  length_of ip (vminus o yo y (recon x)) <= length_of ip (vminus o yo y0 (recon x0)) + (t - start) * del.
Proof.
  intros eps X Y Jf Mf Rm Jm J B H L W U J' H' L' W' U' no ap apH no' ap' apH' o xo yo HL HL' jo jid jo' jid' HJ HM HJ' HM' xt xt' Hlin Hlin' cf cf' Hcf Hcf' fapp recon bapp off phi fom A' b' D AB P PJ c f HR u HUY ip xip HI HXI HdefY Hdef HsqY Hsq Hadj HD start y0 x0 tr tr' HT HT' Hs Hf del Hdel k t y x Hy Hx.
  pose proof (rom_linear_user eps xo yo yo jo ap fapp recon bapp off phi fom f D AB P PJ c HR (in_space _ _ (nl_v _ _ _ _ _ HL)) HJ) as HU.
  pose proof (reduced_linear eps xo yo yo jo ap fapp recon bapp off phi fom f D AB P PJ c HR (in_space _ _ (nl_v _ _ _ _ _ HL))) as HE.
  pose proof (rom_dissipative eps xo yo jo ap fapp recon bapp off phi fom f D AB P PJ c HR ip xip HI HXI Hadj HD) as HDX. rewrite <- HE in HDX.
  pose proof (forward_same _ _ Hs Hf) as Hf'.
  assert (R1 : run_of 0 (near_bdf1 eps yo ip f) start y0 tr)
    by exact (integrated_run no' ap' apH' HL' xt' Hlin' cf' Hcf' jo' jid' HJ' HM' u A' b' ip HI HdefY HD HsqY U' BDF1 start y0 tr HUY HT Hf ltac:(left; reflexivity)).
  assert (R2 : run_of 0 (near_bdf1 eps xo xip (linear_rhs xo ap (fun t => PJ t (AB t)) (fun t => P t (f off t)))) start x0 tr')
    by exact (integrated_run no ap apH HL xt Hlin cf Hcf jo jid HJ HM _ _ _ xip HXI Hdef HDX Hsq U BDF1 start x0 tr' HU HT' Hf' ltac:(left; reflexivity)).
  rewrite HE in R2.
  apply (other_bdf1 eps xo yo xip ip bapp (in_space _ _ (nl_v _ _ _ _ _ HL)) (lr_basis _ _ _ _ _ _ _ _ _ _ _ _ _ _ _ _ _ _ HR) HI HXI Hdef) in R2.
  pose proof (error_bdf1 eps xo yo ip (fun a b => ip (bapp a) (bapp b)) (in_space _ _ (nl_v _ _ _ _ _ HL')) HI recon bapp off (lr_basis _ _ _ _ _ _ _ _ _ _ _ _ _ _ _ _ _ _ HR) (lr_recon _ _ _ _ _ _ _ _ _ _ _ _ _ _ _ _ _ _ HR)
    f (reduced recon f P) 1 del ltac:(intros v; rewrite Rmult_1_l; apply Rle_refl) Rle_0_1 HD 0 0 start y0 x0 tr tr' Hs Hf Hdel R1 R2 k t y x Hy Hx) as G.
  subst o xo yo. lra.
Qed.
Lemma gal_error_bdf2 :
  forall (eps : R) (X Y Jf Mf Rm Jm J B H L W U J' H' L' W' U' : Type) (no : nlops R X X J H) (ap : J -> X -> X) (apH : H -> X -> X)
    (no' : nlops R Y Y J' H') (ap' : J' -> Y -> Y) (apH' : H' -> Y -> Y),
  let o := Rops eps in let xo := n_vo no in let yo := n_vo no' in nl_laws eps no xo ap apH -> nl_laws eps no' yo ap' apH' ->
  forall (jo : vops R J) (jid : J) (jo' : vops R J') (jid' : J'),
  vspace o jo -> matrices xo jo jid ap -> vspace o jo' -> matrices yo jo' jid' ap' ->
  forall (xt : exts X X J H L) (xt' : exts Y Y J' H' L'),
  linear_ok xt (if_solvable (normal_exact apH)) (if_solvable (qr_exact no ap)) (if_solvable (newton_exact ap)) nothing ->
  linear_ok xt' (if_solvable (normal_exact apH')) (if_solvable (qr_exact no' ap')) (if_solvable (newton_exact ap')) nothing ->
  forall cf cf', newton_settings cf -> newton_settings cf' ->
  forall (fapp : Jf -> X -> Y) (recon bapp : X -> Y) (off : Y) (phi : B)
    (fom : sfom (S:=R) (Y:=Y) (R:=Y) (J:=Jf) (B:=B) (W:=W)) (A' : R -> J') (b' : R -> Y) D AB P PJ
    (c : X -> R -> gcmd (Mf:=Mf) (Rm:=Rm) (Jm:=Jm) (M:=unit)), let f := linear_rhs yo ap' A' b' in
  linear_rom eps xo yo yo jo ap fapp recon bapp off phi fom f D AB P PJ c ->
  forall u : isys (S:=R) (V:=Y) (J:=J') (W:=W'), linear_user yo ap' u A' b' ->
  forall ip xip, DissipSpec.inner yo ip -> DissipSpec.inner xo xip -> definite yo ip -> definite xo xip -> square yo ap' -> square xo ap ->
  (forall t y a, ip y (bapp a) = xip (P t y) a) -> dissipative eps yo ip f ->
  forall start y0 x0 tr tr',
  integrated_std U' eps no' xt' cf' jo' jid' u BDF2 start y0 tr -> integrated_std U eps no xt cf jo jid (rhs_jac_system c) BDF2 start x0 tr' ->
  same_times tr tr' -> forward_in_time tr ->
  forall del, (forall k t x, In (k, t, x) (reports tr') -> length_of ip (vminus o yo (f (recon x) t) (bapp (P t (f (recon x) t)))) <= del) ->
  forall k t y x, In (k, t, y) (reports tr) -> In (k, t, x) (reports tr') ->
  length_of ip (vminus o yo y (recon x)) <= sqrt 2 * length_of ip (vminus o yo y0 (recon x0)) + 6 * ((t - start) * del).
Proof.
  intros eps X Y Jf Mf Rm Jm J B H L W U J' H' L' W' U' no ap apH no' ap' apH' o xo yo HL HL' jo jid jo' jid' HJ HM HJ' HM' xt xt' Hlin Hlin' cf cf' Hcf Hcf' fapp recon bapp off phi fom A' b' D AB P PJ c f HR u HUY ip xip HI HXI HdefY Hdef HsqY Hsq Hadj HD start y0 x0 tr tr' HT HT' Hs Hf del Hdel k t y x Hy Hx.
  pose proof (rom_linear_user eps xo yo yo jo ap fapp recon bapp off phi fom f D AB P PJ c HR (in_space _ _ (nl_v _ _ _ _ _ HL)) HJ) as HU.
  pose proof (reduced_linear eps xo yo yo jo ap fapp recon bapp off phi fom f D AB P PJ c HR (in_space _ _ (nl_v _ _ _ _ _ HL))) as HE.
  pose proof (rom_dissipative eps xo yo jo ap fapp recon bapp off phi fom f D AB P PJ c HR ip xip HI HXI Hadj HD) as HDX. rewrite <- HE in HDX.
  pose proof (forward_same _ _ Hs Hf) as Hf'.
  assert (R1 : run_of 0 (near_bdf2 eps yo ip f) start y0 tr)
    by exact (integrated_run no' ap' apH' HL' xt' Hlin' cf' Hcf' jo' jid' HJ' HM' u A' b' ip HI HdefY HD HsqY U' BDF2 start y0 tr HUY HT Hf ltac:(right; left; reflexivity)).
  assert (R2 : run_of 0 (near_bdf2 eps xo xip (linear_rhs xo ap (fun t => PJ t (AB t)) (fun t => P t (f off t)))) start x0 tr')
    by exact (integrated_run no ap apH HL xt Hlin cf Hcf jo jid HJ HM _ _ _ xip HXI Hdef HDX Hsq U BDF2 start x0 tr' HU HT' Hf' ltac:(right; left; reflexivity)).
  rewrite HE in R2.
  apply (other_bdf2 eps xo yo xip ip bapp (in_space _ _ (nl_v _ _ _ _ _ HL)) (lr_basis _ _ _ _ _ _ _ _ _ _ _ _ _ _ _ _ _ _ HR) HI HXI Hdef) in R2.
  pose proof (error_bdf2 eps xo yo ip (fun a b => ip (bapp a) (bapp b)) (in_space _ _ (nl_v _ _ _ _ _ HL')) HI recon bapp off (lr_basis _ _ _ _ _ _ _ _ _ _ _ _ _ _ _ _ _ _ HR) (lr_recon _ _ _ _ _ _ _ _ _ _ _ _ _ _ _ _ _ _ HR)
    f (reduced recon f P) 1 del ltac:(intros v; rewrite Rmult_1_l; apply Rle_refl) Rle_0_1 HD 0 0 start y0 x0 tr tr' Hs Hf Hdel R1 R2 k t y x Hy Hx) as G.
  subst o xo yo. lra.
Qed.
Lemma gal_error_crank_nicolson :
  forall (eps : R) (X Y Jf Mf Rm Jm J B H L W U J' H' L' W' U' : Type) (no : nlops R X X J H) (ap : J -> X -> X) (apH : H -> X -> X)
    (no' : nlops R Y Y J' H') (ap' : J' -> Y -> Y) (apH' : H' -> Y -> Y),
  let o := Rops eps in let xo := n_vo no in let yo := n_vo no' in nl_laws eps no xo ap apH -> nl_laws eps no' yo ap' apH' ->
  forall (jo : vops R J) (jid : J) (jo' : vops R J') (jid' : J'),
  vspace o jo -> matrices xo jo jid ap -> vspace o jo' -> matrices yo jo' jid' ap' ->
  forall (xt : exts X X J H L) (xt' : exts Y Y J' H' L'),
  linear_ok xt (if_solvable (normal_exact apH)) (if_solvable (qr_exact no ap)) (if_solvable (newton_exact ap)) nothing ->
  linear_ok xt' (if_solvable (normal_exact apH')) (if_solvable (qr_exact no' ap')) (if_solvable (newton_exact ap')) nothing ->
  forall cf cf', newton_settings cf -> newton_settings cf' ->
  forall (fapp : Jf -> X -> Y) (recon bapp : X -> Y) (off : Y) (phi : B)
    (fom : sfom (S:=R) (Y:=Y) (R:=Y) (J:=Jf) (B:=B) (W:=W)) (A' : R -> J') (b' : R -> Y) D AB P PJ
    (c : X -> R -> gcmd (Mf:=Mf) (Rm:=Rm) (Jm:=Jm) (M:=unit)), let f := linear_rhs yo ap' A' b' in
  linear_rom eps xo yo yo jo ap fapp recon bapp off phi fom f D AB P PJ c ->
  forall u : isys (S:=R) (V:=Y) (J:=J') (W:=W'), linear_user yo ap' u A' b' ->
  forall ip xip, DissipSpec.inner yo ip -> DissipSpec.inner xo xip -> definite yo ip -> definite xo xip -> square yo ap' -> square xo ap ->
  (forall t y a, ip y (bapp a) = xip (P t y) a) -> dissipative eps yo ip f ->
  forall start y0 x0 tr tr',
  integrated_std U' eps no' xt' cf' jo' jid' u CrankNicolson start y0 tr -> integrated_std U eps no xt cf jo jid (rhs_jac_system c) CrankNicolson start x0 tr' ->
  same_times tr tr' -> forward_in_time tr -> steps_not_growing tr -> forall t1 s1, In (1%Z, t1, s1) (reports tr) ->
  forall del, (forall k t x, In (k, t, x) (reports tr') -> length_of ip (vminus o yo (f (recon x) t) (bapp (P t (f (recon x) t)))) <= del) ->
  forall k t y x, In (k, t, y) (reports tr) -> In (k, t, x) (reports tr') ->
  length_of ip (vminus o yo y (recon x)) <= length_of ip (vminus o yo (vminus o yo y0 (recon x0)) (vscale yo (1 / 2 * (t1 - start)) (vminus o yo (f y0 start) (f (recon x0) start))))
  + (t - start) * del.
Proof.
  intros eps X Y Jf Mf Rm Jm J B H L W U J' H' L' W' U' no ap apH no' ap' apH' o xo yo HL HL' jo jid jo' jid' HJ HM HJ' HM' xt xt' Hlin Hlin' cf cf' Hcf Hcf' fapp recon bapp off phi fom A' b' D AB P PJ c f HR u HUY ip xip HI HXI HdefY Hdef HsqY Hsq Hadj HD start y0 x0 tr tr' HT HT' Hs Hf Hg t1 s1 H1 del Hdel k t y x Hy Hx.
  pose proof (rom_linear_user eps xo yo yo jo ap fapp recon bapp off phi fom f D AB P PJ c HR (in_space _ _ (nl_v _ _ _ _ _ HL)) HJ) as HU.
  pose proof (reduced_linear eps xo yo yo jo ap fapp recon bapp off phi fom f D AB P PJ c HR (in_space _ _ (nl_v _ _ _ _ _ HL))) as HE.
  pose proof (rom_dissipative eps xo yo jo ap fapp recon bapp off phi fom f D AB P PJ c HR ip xip HI HXI Hadj HD) as HDX. rewrite <- HE in HDX.
  pose proof (forward_same _ _ Hs Hf) as Hf'.
  assert (R1 : run_of 0 (near_cn eps yo ip f) start y0 tr)
    by exact (integrated_run no' ap' apH' HL' xt' Hlin' cf' Hcf' jo' jid' HJ' HM' u A' b' ip HI HdefY HD HsqY U' CrankNicolson start y0 tr HUY HT Hf ltac:(right; right; reflexivity)).
  assert (R2 : run_of 0 (near_cn eps xo xip (linear_rhs xo ap (fun t => PJ t (AB t)) (fun t => P t (f off t)))) start x0 tr')
    by exact (integrated_run no ap apH HL xt Hlin cf Hcf jo jid HJ HM _ _ _ xip HXI Hdef HDX Hsq U CrankNicolson start x0 tr' HU HT' Hf' ltac:(right; right; reflexivity)).
  rewrite HE in R2.
  apply (other_cn eps xo yo xip ip bapp (in_space _ _ (nl_v _ _ _ _ _ HL)) (lr_basis _ _ _ _ _ _ _ _ _ _ _ _ _ _ _ _ _ _ HR) HI HXI Hdef) in R2.
  pose proof (error_cn eps xo yo ip (fun a b => ip (bapp a) (bapp b)) (in_space _ _ (nl_v _ _ _ _ _ HL')) HI recon bapp off (lr_basis _ _ _ _ _ _ _ _ _ _ _ _ _ _ _ _ _ _ HR) (lr_recon _ _ _ _ _ _ _ _ _ _ _ _ _ _ _ _ _ _ HR)
    f (reduced recon f P) 1 del ltac:(intros v; rewrite Rmult_1_l; apply Rle_refl) Rle_0_1 HD 0 0 start y0 x0 tr tr' Hs Hf Hdel R1 R2 Hg t1 s1 H1 k t y x Hy Hx) as G.
  subst o xo yo. lra.
Qed.

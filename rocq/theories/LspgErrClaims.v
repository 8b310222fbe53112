(** The statements of C100, from the lemmas of [LspgErrProofs]. *)
From Coq Require Import Reals ZArith List.
From Verif Require Import Base RInst Laws AdvanceModel AdvanceSpec AdvanceProofs TargetProofs Track ExplicitModel ImplicitModel ImplicitSpec
  NonlinDiag NonlinModel NonlinSpec NonlinLaws LspgModel LspgSpec RomRunSpec RomLsSpec RomLsClaims
  StabilitySpec DissipSpec SteadyNlSpec LspgErrSpec LspgErrProofs.
Import ListNotations.
Local Open Scope R_scope.

Lemma numbered_length {T St} (l : accepted T St) : length (numbered l) = length l.
Proof. induction l as [|[[t d] y] l IH]; [reflexivity|]. cbn [numbered]. rewrite app_length, IH. cbn. rewrite Nat.add_comm. reflexivity. Qed.
Lemma newest_reported {St} P (start : R) (y0 y' : St) (tr : list (call R St)) (l : accepted R St) : linked_from Rplus P start y0 l ->
  reports tr = numbered l -> hd y0 (map snd l) = y' -> exists t, In (Z.of_nat (length (reports tr) - 1), t, y') (reports tr).
Proof.
  intros [Hl _] Er Eh. rewrite Er, numbered_length. destruct l as [|[[t d] y] l]; [contradiction|]. cbn in Eh. subst y'. exists t.
  cbn [numbered length]. apply in_or_app. right. left. replace (Datatypes.S (length l) - 1)%nat with (length l); [reflexivity|].
  cbn. rewrite Nat.sub_0_r. reflexivity.
Qed.
Lemma lspg_tracks_n_steps :
  forall (eps : R) (X Y J H L W U : Type) (no : nlops R X Y J H) (yo : vops R Y) (jo : vops R J) (ap : J -> X -> Y) (apH : H -> X -> X),
  nl_laws eps no yo ap apH -> tall (n_vo no) yo jo ap -> vspace (Rops eps) jo ->
  forall (ref : Y) (phi : J) (fom : sfom (S:=R) (Y:=Y) (R:=Y) (J:=J) (B:=J) (W:=W)) (A : R -> Y -> Y) (b : R -> Y) (Aphi : R -> J),
  linear_fom yo ap fom phi A b Aphi ->
  full_rank no yo ap phi ->
  forall Lc, 0 <= Lc -> dissipative_bounded (n_rdot no) Lc A ->
  forall xt : exts X Y J H L,
  linear_ok xt (if_solvable (normal_exact apH)) (if_solvable (qr_exact no ap)) (if_solvable (newton_exact ap)) nothing ->
  forall wr wj, weights_ok xt wr wj nothing ->
  forall tag cf, full_steps tag cf -> (forall j, full_rank no yo ap j -> regular no yo ap apH tag j) ->
  forall (obs : Z -> R -> X -> U -> outcome unit * U) w0 cs cr zero x0 ws g0,
  ls_object (Rops eps) ws -> lspg_create (Rops eps) BDF1 cs cr zero (fresh_policy w0) x0 ws = Ok g0 ->
  let o := Rops eps in
  let recon := fun x => vadd yo ref (ap phi x) in
  let f := fun y t => vadd yo (A t y) (b t) in
  let step := implicit_step o (default_policy o yo jo recon fom phi) (as_solver (ls_solve o no xt tag cf)) BDF1 in
  forall pol num start y0 w, (Z.of_nat num < int32_max)%Z ->
  (forall k t y u, fst (obs k t y u) = Ok tt) -> (forall k t d u, exists dt, fst (pol k t d u) = Ok dt) ->
  exists y' g' w' tr,
    advance_n_steps o (mk_user (split_obs obs) (pol3 (split_pol pol)) noop_guess (split_step (implicit_fn step)))
      (Z.of_nat num) start (y0, (g0, w), []) = (Ok tt, (y', (g', w'), tr)) /\
    length (reports tr) = S num /\ tracks eps yo (n_rdot no) recon f Lc y0 tr /\
    tracks_solution eps yo (n_rdot no) recon f Lc start y0 tr.
Proof.
  intros eps X Y J H L W U no yo jo ap apH HL HT HJ ref phi fom A b Aphi Hfom Hphi Lc HLp HD xt Hlin wr wj Hw tag cf Hfs Hreg obs w0 cs cr zero x0 ws g0
    Hws Hg0 o recon f step pol num start y0 w Hn Ho Hp.
  pose proof Hfom as (HA & HAp & _).
  destruct (lspg_exact_n_steps eps X Y J H L W U no yo jo ap apH HL HT HJ ref phi fom A b Aphi Hfom xt Hlin wr wj Hw tag cf Hfs obs w0 BDF1 cs cr zero x0 ws g0
    Hws Hg0 pol num start y0 w Hn Ho Hp) as (y' & g' & w' & tr & l & E & Hx).
  exists y', g', w', tr. split; [exact E|].
  destruct Hx as (Hlen & Hr & Hl & _).
  split; [rewrite Hr, numbered_length; exact Hlen|].
  assert (K : tracks eps yo (n_rdot no) recon f Lc y0 tr); [|split; [exact K|]].
  2: exact (tracks_to_solution eps yo (n_rdot no) (in_space _ _ (nl_r _ _ _ _ _ HL)) (SteadyNlClaims.dissip_inner (nl_r _ _ _ _ _ HL)) recon f Lc HLp _ start y0 tr l Hl Hr K).
  exact (chain_tracks eps no yo jo ap apH HL HT ref phi A b Aphi Lc HA HAp HLp HD tag Hphi Hreg start y0 tr l Hl Hr).
Qed.
Lemma lspg_tracks_target :
  forall (eps : R) (X Y J H L W U : Type) (no : nlops R X Y J H) (yo : vops R Y) (jo : vops R J) (ap : J -> X -> Y) (apH : H -> X -> X),
  nl_laws eps no yo ap apH -> tall (n_vo no) yo jo ap -> vspace (Rops eps) jo ->
  forall (ref : Y) (phi : J) (fom : sfom (S:=R) (Y:=Y) (R:=Y) (J:=J) (B:=J) (W:=W)) (A : R -> Y -> Y) (b : R -> Y) (Aphi : R -> J),
  linear_fom yo ap fom phi A b Aphi ->
  full_rank no yo ap phi ->
  forall Lc, 0 <= Lc -> dissipative_bounded (n_rdot no) Lc A ->
  forall xt : exts X Y J H L,
  linear_ok xt (if_solvable (normal_exact apH)) (if_solvable (qr_exact no ap)) (if_solvable (newton_exact ap)) nothing ->
  forall wr wj, weights_ok xt wr wj nothing ->
  forall tag cf, full_steps tag cf -> (forall j, full_rank no yo ap j -> regular no yo ap apH tag j) ->
  forall (obs : Z -> R -> X -> U -> outcome unit * U) w0 cs cr zero x0 ws g0,
  ls_object (Rops eps) ws -> lspg_create (Rops eps) BDF1 cs cr zero (fresh_policy w0) x0 ws = Ok g0 ->
  let o := Rops eps in
  let recon := fun x => vadd yo ref (ap phi x) in
  let f := fun y t => vadd yo (A t y) (b t) in
  let step := implicit_step o (default_policy o yo jo recon fom phi) (as_solver (ls_solve o no xt tag cf)) BDF1 in
  forall pol recovery h n fuel start final y0 w,
  0 <= eps -> (forall k t y u, fst (obs k t y u) = Ok tt) ->
  (forall k t x u, exists dt m c, fst (pol k t x u) = Ok (dt, m, c) /\ h <= dt /\ m <= dt /\ (recovery = true -> 1 < c)) ->
  start < final -> final - start <= INR n * h -> (n < fuel)%nat -> (Z.of_nat n < int32_max)%Z ->
  exists y' g' w' tr,
    to_target o (mk_user (split_obs obs) (split_pol pol) noop_guess (split_step (implicit_fn step))) recovery fuel
      start final (y0, (g0, w), []) = (Ok tt, (y', (g', w'), tr)) /\
    (exists t, In (Z.of_nat (length (reports tr) - 1), t, y') (reports tr)) /\ tracks eps yo (n_rdot no) recon f Lc y0 tr /\
    tracks_solution eps yo (n_rdot no) recon f Lc start y0 tr.
Proof.
  intros eps X Y J H L W U no yo jo ap apH HL HT HJ ref phi fom A b Aphi Hfom Hphi Lc HLp HD xt Hlin wr wj Hw tag cf Hfs Hreg obs w0 cs cr zero x0 ws g0
    Hws Hg0 o recon f step pol recovery h n fuel start final y0 w He Ho Hp Hs Hf Hn Hi.
  pose proof Hfom as (HA & HAp & _).
  destruct (lspg_exact_target eps X Y J H L W U no yo jo ap apH HL HT HJ ref phi fom A b Aphi Hfom xt Hlin wr wj Hw tag cf Hfs obs w0 BDF1 cs cr zero x0 ws g0
    Hws Hg0 pol recovery h n fuel start final y0 w He Ho Hp Hs Hf Hn Hi) as (y' & g' & w' & tr & l & E & Hx).
  exists y', g', w', tr. split; [exact E|].
  destruct Hx as (Hr & Hd & Hl & _).
  split; [exact (newest_reported _ _ _ _ _ _ Hl Hr Hd)|].
  assert (K : tracks eps yo (n_rdot no) recon f Lc y0 tr); [|split; [exact K|]].
  2: exact (tracks_to_solution eps yo (n_rdot no) (in_space _ _ (nl_r _ _ _ _ _ HL)) (SteadyNlClaims.dissip_inner (nl_r _ _ _ _ _ HL)) recon f Lc HLp _ start y0 tr l Hl Hr K).
  exact (chain_tracks eps no yo jo ap apH HL HT ref phi A b Aphi Lc HA HAp HLp HD tag Hphi Hreg start y0 tr l Hl Hr).
Qed.

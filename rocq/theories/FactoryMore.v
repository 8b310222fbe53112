(** The steps of created steppers (C41). *)
From Coq Require Import ZArith List Bool.
From Verif Require Import Base Laws ExplicitModel ExplicitSpec ExplicitProofs PropExplicit ImplicitModel LspgModel FactoryModel FactorySpec.
Import ListNotations.

(** ** The steps of what is created *)
From Verif Require Import AdvanceModel AdvanceSpec AdvanceProofs TargetProofs Track ImplicitSpec ImplicitMore LspgSpec RomRunSpec RomRunProofs RomRunClaims.
Local Open Scope Z_scope.
Lemma created_ab2_steps :
  forall (S V M W : Type) (o : sops S) (vo : vops S V) (u : @esys S V M W), sfield o -> schar0 o -> vspace o vo ->
  forall (good : W -> Prop) f, computes u good f ->
  forall k m, k = FExplicit \/ k = FGalerkinExplicit -> make k AdamsBashforth2 = Ok m ->
  forall g, used (md_bufs m) (explicit_step o vo u (md_name m)) g -> good (x_w g) ->
  forall ts hs ys n, ab2_sequence o vo f ts hs ys -> ys 0%nat = x_y g ->
  exists g', drive (explicit_step o vo u (md_name m)) ts hs n g = (Ok tt, g') /\ x_y g' = ys n.
Proof.
  intros S V M W o vo u HF HC HV good f HU k m Hk Hm g HG Hg ts hs ys n HS H0.
  assert (E : m = mk_made AdamsBashforth2 2 0) by (destruct Hk as [->| ->]; cbn in Hm; injection Hm as <-; reflexivity). subst m.
  destruct (C11_ab2_recurrence S V M W o vo u HF HC HV good f HU g HG Hg ts hs ys n HS H0) as (g' & E & Ey & _). exists g'. split; [exact E|exact Ey].
Qed.
Lemma created_mm_steps :
  forall (S V M W : Type) (o : sops S) (vo : vops S V) (u : @esys S V M W), sfield o -> schar0 o -> vspace o vo ->
  forall (good : W -> Prop) (apply : M -> V -> V) (mass : V -> S -> M) (force X : V -> S -> V), computes_mm u good apply mass force ->
  (forall y t, apply (mass y t) (X y t) = force y t) ->
  (forall y t x x', apply (mass y t) x = apply (mass y t) x' -> x = x') ->
  forall k name m, k = FExplicitMM \/ k = FGalerkinExplicitMM -> make k name = Ok m ->
  forall g, used (md_bufs m) (explicit_step_mm o vo u (md_name m)) g -> good (x_w g) ->
  (forall tab, tab_of o name = Some tab -> forall t step h, exists g',
     explicit_step_mm o vo u (md_name m) t step h g = (Ok tt, g') /\ x_y g' = erk_next o vo X tab (x_y g) t h) /\
  (name = AdamsBashforth2 -> forall ts hs ys n, ab2_sequence o vo X ts hs ys -> ys 0%nat = x_y g ->
     exists g', drive (explicit_step_mm o vo u (md_name m)) ts hs n g = (Ok tt, g') /\ x_y g' = ys n).
Proof.
  intros S V M W o vo u HF HC HV good apply mass force X HU HX HI k name m Hk Hm g HG Hg.
  assert (E : explicit_num_bufs_mm name = Ok (md_bufs m) /\ md_name m = name)
    by (destruct Hk as [->| ->]; destruct name; cbn in Hm |- *; try discriminate Hm; injection Hm as <-; split; reflexivity).
  destruct E as [E En]. rewrite En in *. split.
  - intros tab HT t step h.
    destruct (C12_mass_matrix_one_step_schemes S V M W o vo u HF HC HV good apply mass force X HU HX HI name tab (md_bufs m) HT E g HG Hg t step h) as (g' & E1 & E2 & _).
    exists g'. split; [exact E1|exact E2].
  - intros -> ts hs ys n HS H0. injection E as E. rewrite <- E in HG.
    destruct (C12_mass_matrix_ab2 S V M W o vo u HF HC HV good apply mass force X HU HX HI g HG Hg ts hs ys n HS H0) as (g' & E1 & E2 & _).
    exists g'. split; [exact E1|exact E2].
Qed.
Lemma created_implicit_steps :
  forall (S V J W Ws U : Type) (o : sops S) (vo : vops S V) (jo : vops S J) (jid : J)
    (u : isys (S:=S) (V:=V) (J:=J) (W:=W)) (solver : Ws -> V -> sol V V J Ws),
  sfield o -> schar0 o -> vspace o vo -> vspace o jo -> forall Acc : V -> Prop,
  (forall ws y, certified Acc (fun _ => False) (solver ws y)) ->
  forall obs : Z -> S -> V -> U -> outcome unit * U, forall F fj f, repeatable u F fj -> rhs_is u f ->
  forall k name m, k = FImplicit \/ k = FGalerkinImplicit -> make k name = Ok m ->
  forall cs cr w0 yc ws,
  forall pl num start y0 w y' g' w' tr, Z.of_nat num < int32_max ->
  advance_n_steps o (mk_user (split_obs obs) (pol3 (split_pol pl)) noop_guess (split_step (implicit_fn (implicit_step o (policy_std o vo jo jid u) solver (md_name m)))))
    (Z.of_nat num) start (y0, (created o m cs cr (mk_ppol (-1) w0) yc ws, w), []) = (Ok tt, (y', (g', w'), tr)) ->
  exists t' d' l, length l = num /\
    linked_from (sadd o) (accepted_by o vo Acc f name) start y0 ((t', d', y') :: l) /\
    reports tr = numbered ((t', d', y') :: l).
Proof.
  intros S V J W Ws U o vo jo jid u solver HF HC HV HJ Acc HA obs F fj f HP Hf k name m Hk Hm cs cr w0 yc ws pl num start y0 w y' g' w' tr Hn ER.
  destruct name; destruct Hk as [->| ->]; cbn in Hm; try discriminate Hm; injection Hm as <-; cbn [md_name md_bufs md_rhs created repeat] in ER; cbv [accepted_by].
  1,2: exact (bdf1_n_steps o vo jo jid u solver HF HV HJ Acc HA obs f Hf (created o (mk_made BDF1 1 0) cs cr (mk_ppol (-1) w0) yc ws) eq_refl pl num start y0 w y' g' w' tr Hn ER).
  1,2: exact (bdf2_n_steps o vo jo jid u solver HF HC HV HJ Acc HA obs f Hf (created o (mk_made BDF2 2 0) cs cr (mk_ppol (-1) w0) yc ws) eq_refl pl num start y0 w y' g' w' tr Hn ER).
  all: exact (cn_n_steps o vo jo jid u solver HF HC HV HJ Acc HA obs F fj f HP Hf cs cr w0 yc ws (created o (mk_made CrankNicolson 1 2) cs cr (mk_ppol (-1) w0) yc ws) eq_refl pl num start y0 w y' g' w' tr Hn ER).
Qed.
Lemma created_implicit_mm_steps :
  forall (S V J W Ws U : Type) (o : sops S) (vo : vops S V) (jo : vops S J) (japp : J -> V -> V)
    (u : isys (S:=S) (V:=V) (J:=J) (W:=W)) (solver : Ws -> V -> sol V V J Ws),
  sfield o -> schar0 o -> vspace o vo -> vspace o jo -> forall Acc : V -> Prop,
  (forall ws y, certified Acc (fun _ => False) (solver ws y)) ->
  forall obs : Z -> S -> V -> U -> outcome unit * U, forall M f, rhs_mass_is u M f ->
  forall k name m, k = FImplicitMM \/ k = FGalerkinImplicitMM -> name <> CrankNicolson -> make k name = Ok m ->
  forall cs cr (p : @mpol V J W) yc ws,
  forall pl num start y0 w y' g' w' tr, Z.of_nat num < int32_max ->
  advance_n_steps o (mk_user (split_obs obs) (pol3 (split_pol pl)) noop_guess (split_step (implicit_fn (implicit_step o (policy_mm o vo jo japp u) solver (md_name m)))))
    (Z.of_nat num) start (y0, (created o m cs cr p yc ws, w), []) = (Ok tt, (y', (g', w'), tr)) ->
  exists t' d' l, length l = num /\
    linked_from (sadd o) (accepted_by_mm o vo japp Acc M f name) start y0 ((t', d', y') :: l) /\
    reports tr = numbered ((t', d', y') :: l).
Proof.
  intros S V J W Ws U o vo jo japp u solver HF HC HV HJ Acc HA obs M f Hf k name m Hk Hc Hm cs cr p yc ws pl num start y0 w y' g' w' tr Hn ER.
  destruct name; try (exfalso; apply Hc; reflexivity); destruct Hk as [->| ->]; cbn in Hm; try discriminate Hm; injection Hm as <-; cbn [md_name md_bufs md_rhs created repeat] in ER; cbv [accepted_by_mm].
  1,2: exact (bdf1_mm_n_steps o vo jo japp u solver HF HV HJ Acc HA obs M f Hf (created o (mk_made BDF1 1 0) cs cr p yc ws) eq_refl pl num start y0 w y' g' w' tr Hn ER).
  all: exact (bdf2_mm_n_steps o vo jo japp u solver HF HC HV HJ Acc HA obs M f Hf (created o (mk_made BDF2 2 0) cs cr p yc ws) eq_refl pl num start y0 w y' g' w' tr Hn ER).
Qed.
Lemma created_lspg_steps :
  forall (S X Y J W Ws U : Type) (o : sops S) (yo : vops S Y) (jo : vops S J) (recon : X -> Y)
    (fom : sfom) (phi : J) (f : Y -> S -> Y) (df : Y -> J -> S -> J)
    (solver : Ws -> X -> sol X Y J Ws) (Acc : Y -> option J -> Prop) (obs : Z -> S -> X -> U -> outcome unit * U),
  sfield o -> schar0 o -> vspace o yo -> vspace o jo -> fom_is fom f df ->
  asks solver -> (forall ws y, certified_rj Acc (fun _ => False) (solver ws y)) ->
  forall name m, make FLspg name = Ok m ->
  forall cs cr (zero : Y) (w0 : W) x0 ws, exists d, manager_for name zero = Ok d /\
  forall pl num start y0 w y' g' w' tr, Z.of_nat num < int32_max ->
  advance_n_steps o (mk_user (split_obs obs) (pol3 (split_pol pl)) noop_guess (split_step (implicit_fn (implicit_step o (default_policy o yo jo recon fom phi) solver (md_name m)))))
    (Z.of_nat num) start (y0, (created o m cs cr (fresh_policy w0 d) x0 ws, w), []) = (Ok tt, (y', (g', w'), tr)) ->
  exists t' d' l, length l = num /\
    linked_from (sadd o) (accepted_rj Acc (lspg_res o yo recon f name) (lspg_jacobian o jo recon df phi name)) start y0 ((t', d', y') :: l) /\
    reports tr = numbered ((t', d', y') :: l).
Proof.
  intros S X Y J W Ws U o yo jo recon fom phi f df solver Acc obs HF HC HY HJ Hf Hs HA name m Hm cs cr zero w0 x0 ws.
  assert (K : exists d, manager_for name zero = Ok d /\ md_name m = name /\
     lspg_create o name cs cr zero (fresh_policy w0) x0 ws = Ok (created o m cs cr (fresh_policy w0 d) x0 ws))
    by (destruct name; cbn in Hm; try discriminate Hm; injection Hm as <-; (eexists; split; [reflexivity|split; reflexivity])).
  destruct K as (d & Ed & En & Ec). exists d. split; [exact Ed|]. rewrite En.
  eapply n_steps_lspg; eassumption.
Qed.

(** C41: scheme selection. *)
From Coq Require Import ZArith List Bool.
From Verif Require Import Base Laws ExplicitModel ExplicitSpec ExplicitProofs ImplicitModel LspgModel FactoryModel FactorySpec
  FactoryProofs AdvanceModel AdvanceSpec AdvanceProofs TargetProofs Track ImplicitSpec LspgSpec RomRunSpec FactoryMore.
Import ListNotations.

(** C41. A scheme outside the documented set is rejected. Missing: Crank-Nicolson for the implicit steppers
    of the ode component. *)
Theorem C41_outside_throws_partial :
  forall f name, ~ In name (documented f) -> (ode_implicit f = true -> name <> CrankNicolson) ->
  make f name = Throw ERuntime.
Proof. exact outside_throws. Qed.
Print Assumptions C41_outside_throws_partial.

(** Those create a Crank-Nicolson stepper although it is not documented. *)
Theorem C41_crank_nicolson_refuted :
  forall f, ode_implicit f = true ->
  ~ In CrankNicolson (documented f) /\ exists m, make f CrankNicolson = Ok m /\ md_name m = CrankNicolson.
Proof. exact cn_created. Qed.
Print Assumptions C41_crank_nicolson_refuted.

(** For a documented scheme a stepper of that scheme is created. *)
Theorem C41_inside_creates :
  forall f name, In name (documented f) -> exists m, make f name = Ok m /\ md_name m = name.
Proof. exact inside_creates. Qed.
Print Assumptions C41_inside_creates.

(** The one-step explicit steppers that are created perform steps of their scheme. (Galerkin problems: the system
    [u] of C37.) *)
Theorem C41_explicit_steps :
  forall (S V M W : Type) (o : sops S) (vo : vops S V) (u : @esys S V M W), sfield o -> schar0 o -> vspace o vo ->
  forall (good : W -> Prop) f, computes u good f ->
  forall k name tab m, k = FExplicit \/ k = FGalerkinExplicit -> make k name = Ok m -> tab_of o name = Some tab ->
  forall g, length (x_bufs g) = md_bufs m -> good (x_w g) -> forall t step h, exists g',
  explicit_step o vo u (md_name m) t step h g = (Ok tt, g') /\ x_y g' = erk_next o vo f tab (x_y g) t h /\ good (x_w g').
Proof. exact @created_explicit_steps. Qed.
Print Assumptions C41_explicit_steps.

(** False for implicit Galerkin problems with mass matrix: Crank-Nicolson is documented and the problem is created,
    but no step works. The same stepper is created by the ode factory. *)
Theorem C41_mass_matrix_refuted :
  In CrankNicolson (documented FGalerkinImplicitMM) /\
  (exists m, make FGalerkinImplicitMM CrankNicolson = Ok m) /\
  forall (S V J W Ws : Type) (o : sops S) (vo : vops S V) (jo : vops S J) (japp : J -> V -> V)
    (u : @isys S V J W) (solver : Ws -> V -> sol V V J Ws), evaluates_first solver ->
  forall cs cr p y0 ws g, implicit_create o CrankNicolson cs cr p y0 ws = Ok g ->
  forall t step dt, fst (implicit_step o (policy_mm o vo jo japp u) solver CrankNicolson t step dt g) = Throw ERuntime.
Proof. split; [cbn; tauto|]. split; [eexists; reflexivity|]. exact @cn_mass_matrix. Qed.
Print Assumptions C41_mass_matrix_refuted.
Local Open Scope Z_scope.

(** Adams-Bashforth. *)
Theorem C41_adams_bashforth_steps :
  forall (S V M W : Type) (o : sops S) (vo : vops S V) (u : @esys S V M W), sfield o -> schar0 o -> vspace o vo ->
  forall (good : W -> Prop) f, computes u good f ->
  forall k m, k = FExplicit \/ k = FGalerkinExplicit -> make k AdamsBashforth2 = Ok m ->
  forall g, used (md_bufs m) (explicit_step o vo u (md_name m)) g -> good (x_w g) ->
  forall ts hs ys n, ab2_sequence o vo f ts hs ys -> ys 0%nat = x_y g ->
  exists g', drive (explicit_step o vo u (md_name m)) ts hs n g = (Ok tt, g') /\ x_y g' = ys n.
Proof. exact @created_ab2_steps. Qed.
Print Assumptions C41_adams_bashforth_steps.

(** With mass matrix. *)
Theorem C41_mass_matrix_steps :
  forall (S V M W : Type) (o : sops S) (vo : vops S V) (u : @esys S V M W), sfield o -> schar0 o -> vspace o vo ->
  forall (good : W -> Prop) (apply : M -> V -> V) (mass : V -> S -> M) (force X : V -> S -> V), computes_mm u good apply mass force ->
  (forall y t, apply (mass y t) (X y t) = force y t) ->
  (forall y t x x', apply (mass y t) x = apply (mass y t) x' -> x = x') ->
  forall k name m, k = FExplicitMM \/ k = FGalerkinExplicitMM -> make k name = Ok m ->
  forall g, used (md_bufs m) (explicit_step_mm o vo u (md_name m)) g -> good (x_w g) ->
  (forall tab, tab_of o name = Some tab -> forall t step h, exists g',
     explicit_step_mm o vo u (md_name m) t step h g = (Ok tt, g') /\ x_y g' = erk_next o vo X tab (x_y g) t h) /\
  (name = AdamsBashforth2 -> forall ts hs ys n, ab2_sequence o vo X ts hs ys -> ys 0%nat = x_y g ->
     exists g', drive (explicit_step_mm o vo u (md_name m)) ts hs n g = (Ok tt, g') /\ x_y g' = ys n).
Proof. exact @created_mm_steps. Qed.
Print Assumptions C41_mass_matrix_steps.

(** The states reported by a run of a created implicit stepper are steps of its scheme. *)
Theorem C41_implicit_steps :
  forall (S V J W Ws U : Type) (o : sops S) (vo : vops S V) (jo : vops S J) (jid : J)
    (u : isys (S:=S) (V:=V) (J:=J) (W:=W)) (solver : Ws -> V -> sol V V J Ws),
  sfield o -> schar0 o -> vspace o vo -> vspace o jo -> forall Acc : V -> Prop,
  (forall ws y, certified Acc (fun _ => False) (solver ws y)) ->
  forall obs : Z -> S -> V -> U -> outcome unit * U, forall F fj f, repeatable u F fj -> rhs_is u f ->
  forall k name m, k = FImplicit \/ k = FGalerkinImplicit -> make k name = Ok m ->
  forall cs cr w0 yc ws,
  forall pl num start y0 w y' g' w' tr, Z.of_nat num < int32_max ->
  advance_n_steps o (mk_user (split_obs obs) (pol3 (split_pol pl)) noop_guess (split_step (implicit_fn (implicit_step o (policy_std o vo jo jid u) solver (md_name m)))))
    (Z.of_nat num) start (y0, (created o m cs cr (mk_ppol (-1) w0) yc ws, w), []) = (Ok tt, (y', (g', w'), tr)) ->
  exists t' d' l, length l = num /\
    linked_from (sadd o) (accepted_by o vo Acc f name) start y0 ((t', d', y') :: l) /\
    reports tr = numbered ((t', d', y') :: l).
Proof. exact @created_implicit_steps. Qed.
Print Assumptions C41_implicit_steps.

(** With mass matrix. Missing: Crank-Nicolson, see C41_mass_matrix_refuted. *)
Theorem C41_implicit_mass_matrix_steps_partial :
  forall (S V J W Ws U : Type) (o : sops S) (vo : vops S V) (jo : vops S J) (japp : J -> V -> V)
    (u : isys (S:=S) (V:=V) (J:=J) (W:=W)) (solver : Ws -> V -> sol V V J Ws),
  sfield o -> schar0 o -> vspace o vo -> vspace o jo -> forall Acc : V -> Prop,
  (forall ws y, certified Acc (fun _ => False) (solver ws y)) ->
  forall obs : Z -> S -> V -> U -> outcome unit * U, forall M f, rhs_mass_is u M f ->
  forall k name m, k = FImplicitMM \/ k = FGalerkinImplicitMM -> name <> CrankNicolson -> make k name = Ok m ->
  forall cs cr (p : @mpol V J W) yc ws,
  forall pl num start y0 w y' g' w' tr, Z.of_nat num < int32_max ->
  advance_n_steps o (mk_user (split_obs obs) (pol3 (split_pol pl)) noop_guess (split_step (implicit_fn (implicit_step o (policy_mm o vo jo japp u) solver (md_name m)))))
    (Z.of_nat num) start (y0, (created o m cs cr p yc ws, w), []) = (Ok tt, (y', (g', w'), tr)) ->
  exists t' d' l, length l = num /\
    linked_from (sadd o) (accepted_by_mm o vo japp Acc M f name) start y0 ((t', d', y') :: l) /\
    reports tr = numbered ((t', d', y') :: l).
Proof. exact @created_implicit_mm_steps. Qed.
Print Assumptions C41_implicit_mass_matrix_steps_partial.

(** LSPG: the problem created has buffers of the sizes chosen, and its runs solve the LSPG problems of its scheme. *)
Theorem C41_lspg_steps :
  forall (S X Y J W Ws U : Type) (o : sops S) (yo : vops S Y) (jo : vops S J) (recon : X -> Y)
    (fom : sfom) (phi : J) (f : Y -> S -> Y) (df : Y -> J -> S -> J)
    (solver : Ws -> X -> sol X Y J Ws) (Acc : Y -> option J -> Prop) (obs : Z -> S -> X -> U -> outcome unit * U),
  sfield o -> schar0 o -> vspace o yo -> vspace o jo -> fom_is fom f df ->
  asks solver -> (forall ws y, certified_rj Acc (fun _ => False) (solver ws y)) ->
  forall name m, make FLspg name = Ok m ->
  forall cs cr (zero : Y) (w0 : W) x0 ws, exists d, manager_for name zero = Ok d /\
  forall pl num start y0 w y' g' w' tr, Z.of_nat num < int32_max ->
  advance_n_steps o (mk_user (split_obs obs) (pol3 (split_pol pl)) noop_guess (split_step (implicit_fn (implicit_step o (default_policy o yo jo recon fom phi) solver (md_name m)))))
    (Z.of_nat num) start (y0, (created o m cs cr (fresh_policy w0 d) x0 ws, w), []) = (Ok tt, (y', (g', w'), tr)) ->
  exists t' d' l, length l = num /\
    linked_from (sadd o) (accepted_rj Acc (lspg_res o yo recon f name) (lspg_jacobian o jo recon df phi name)) start y0 ((t', d', y') :: l) /\
    reports tr = numbered ((t', d', y') :: l).
Proof. exact @created_lspg_steps. Qed.
Print Assumptions C41_lspg_steps.

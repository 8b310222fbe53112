(** Scheme selection. *)
From Coq Require Import ZArith List Bool.
From Verif Require Import Base Laws ExplicitModel ExplicitSpec ExplicitProofs ImplicitModel LspgModel FactoryModel FactorySpec.
Import ListNotations.

Lemma outside_throws f name : ~ In name (documented f) -> (ode_implicit f = true -> name <> CrankNicolson) ->
  make f name = Throw ERuntime.
Proof.
  intros H HC. destruct f, name; cbn in H |- *; try reflexivity; try (exfalso; apply H; tauto);
  exfalso; apply HC; reflexivity.
Qed.
Lemma inside_creates f name : In name (documented f) -> exists m, make f name = Ok m /\ md_name m = name.
Proof. intros H. destruct f, name; cbn in H |- *; try (exfalso; intuition discriminate); eexists; split; reflexivity. Qed.
Lemma cn_created f : ode_implicit f = true ->
  ~ In CrankNicolson (documented f) /\ exists m, make f CrankNicolson = Ok m /\ md_name m = CrankNicolson.
Proof. intros H. destruct f; try discriminate H; (split; [cbn; intuition discriminate|eexists; split; reflexivity]). Qed.

Section Steps.
  Context {S V M W : Type} (o : sops S) (vo : vops S V) (u : @esys S V M W).
  Lemma created_explicit_steps : sfield o -> schar0 o -> vspace o vo ->
    forall (good : W -> Prop) f, computes u good f ->
    forall k name tab m, k = FExplicit \/ k = FGalerkinExplicit -> make k name = Ok m -> tab_of o name = Some tab ->
    forall g, length (x_bufs g) = md_bufs m -> good (x_w g) -> forall t step h, exists g',
    explicit_step o vo u (md_name m) t step h g = (Ok tt, g') /\ x_y g' = erk_next o vo f tab (x_y g) t h /\ good (x_w g').
  Proof.
    intros HF HC HV good f HU k name tab m Hk Hm HT g HL Hg t step h.
    assert (HN : explicit_num_bufs name = Ok (md_bufs m) /\ md_name m = name).
    { destruct Hk as [->| ->]; destruct name; cbn in Hm |- *; try discriminate Hm; injection Hm as <-; split; reflexivity. }
    destruct HN as [HN ->].
    destruct (erk_step_ok o vo u HF HC HV good f HU name tab _ t step h g HT HN HL Hg) as (g' & E & Hy & _ & Hg').
    exists g'. split; [exact E|split; [exact Hy|apply Hg']].
  Qed.
End Steps.

(** Crank-Nicolson with mass matrix *)
Lemma cn_mass_matrix {S V J W Ws} (o : sops S) (vo : vops S V) (jo : vops S J) (japp : J -> V -> V)
  (u : @isys S V J W) (solver : Ws -> V -> sol V V J Ws) :
  evaluates_first solver ->
  forall cs cr p y0 ws g, implicit_create o CrankNicolson cs cr p y0 ws = Ok g ->
  forall t step dt, fst (implicit_step o (policy_mm o vo jo japp u) solver CrankNicolson t step dt g) = Throw ERuntime.
Proof.
  intros HS cs cr p y0 ws g Hg t step dt. injection Hg as <-.
  cbn. unfold catch, do_solve. cbn [t_y t_st t_fs t_time t_dt t_step t_p t_ws].
  destruct (HS ws y0) as (y' & r & j & k & E & Hk). rewrite E. cbn.
  destruct (Hk r j) as (y'' & ws' & Ek). rewrite Ek. reflexivity.
Qed.

(** Linear systems whose sizes do not fit together, and empty ones. *)
From Coq Require Import ZArith List Bool Arith Lia.
From Verif Require Import Base Laws LinsolveModel LinsolveSpec LinsolveProofs.
Import ListNotations.

(** The matrix is not square, or a vector has another length, or the system is empty. *)
Definition misfit {S} (A : mtx S) (b y : vct S) : Prop :=
  rows A = 0 \/ rows A <> cols A \/ size b <> rows A \/ size y <> rows A.

Section Sizes.
  Context {S : Type} (o : sops S) (lp : lapack S).

  Lemma size_checks_stop : forall A b y, misfit A b y ->
    size_checks true A b y = Stopped \/ (size_checks true A b y = Done tt /\ rows (S:=S) A = 0).
  Proof.
    intros A b y H. unfold size_checks, check.
    destruct (Nat.eqb_spec (rows A) (cols A)) as [E1|E1]; cbn; [|left; reflexivity].
    destruct (Nat.eqb_spec (rows A) (size b)) as [E2|E2]; cbn; [|left; reflexivity].
    destruct (Nat.eqb_spec (cols A) (size y)) as [E3|E3]; cbn; [|left; reflexivity].
    right. split; [reflexivity|]. destruct H as [H|[H|[H|H]]]; [exact H|congruence..].
  Qed.
  Lemma refused_stops : forall A (k : ran A), refused lp true k = Stopped.
  Proof. intros A k. unfold refused. destruct (lp_stops lp); reflexivity. Qed.

  Lemma getrs_misfit : forall aux A b y, misfit A b y -> getrs_solve o lp true aux A b y = Stopped.
  Proof.
    intros aux A b y H. unfold getrs_solve. rewrite to_aux_ok. cbn [andthen]. unfold getrs_overwrite.
    destruct (size_checks_stop (mk_mtx (rows A) (cols A) (ent A)) b y H) as [E|[E1 E2]]; [rewrite E; reflexivity|].
    rewrite E1. cbn [andthen]. rewrite E2. apply refused_stops.
  Qed.
  Lemma potrs_misfit : forall up aux A b y, misfit A b y -> potrs_solve o lp true up aux A b y = Stopped.
  Proof.
    intros up aux A b y H. unfold potrs_solve. rewrite to_aux_ok. cbn [andthen]. unfold potrs_overwrite.
    destruct (size_checks_stop (mk_mtx (rows A) (cols A) (ent A)) b y H) as [E|[E1 E2]]; [rewrite E; reflexivity|].
    rewrite E1. cbn [andthen]. rewrite E2. apply refused_stops.
  Qed.
  Lemma geqrf_misfit : forall s A b y, misfit A b y -> geqrf_solve o lp true s A b y = Stopped.
  Proof.
    intros s A b y H. unfold geqrf_solve. rewrite to_aux_ok. cbn [andthen]. unfold geqrf_overwrite.
    destruct (size_checks_stop (mk_mtx (rows A) (cols A) (ent A)) b y H) as [E|[E1 E2]]; [rewrite E; reflexivity|].
    rewrite E1. cbn [andthen]. rewrite E2. cbn [Nat.eqb]. rewrite refused_stops. reflexivity.
  Qed.

  (** Release builds. *)
  Lemma no_checks : forall A b y, size_checks (S:=S) false A b y = Done tt.
  Proof. intros A b y. unfold size_checks, check. rewrite !andb_false_r. reflexivity. Qed.
  Lemma getrs_differ : forall aux A b y, 0 < rows A -> size b <> size y -> getrs_solve o lp false aux A b y = Threw ERuntime.
  Proof.
    intros aux A b y Hp Hd. unfold getrs_solve. rewrite to_aux_ok. cbn [andthen]. unfold getrs_overwrite. rewrite no_checks.
    cbn [andthen rows cols ent]. rewrite (proj2 (Nat.eqb_neq _ _)) by lia. destruct (lp_getrf lp (rows A) (ent A)) as [[d p] i].
    unfold check, vdeep_copy. rewrite andb_false_r. cbn [andthen]. rewrite (proj2 (Nat.eqb_neq _ _)) by congruence. reflexivity.
  Qed.
  Lemma potrs_differ : forall up aux A b y, 0 < rows A -> size b <> size y -> potrs_solve o lp false up aux A b y = Threw ERuntime.
  Proof.
    intros up aux A b y Hp Hd. unfold potrs_solve. rewrite to_aux_ok. cbn [andthen]. unfold potrs_overwrite. rewrite no_checks.
    cbn [andthen rows cols ent]. rewrite (proj2 (Nat.eqb_neq _ _)) by lia. destruct (lp_potrf lp up (rows A) (ent A)) as [d i].
    unfold check, vdeep_copy. rewrite andb_false_r. cbn [andthen]. rewrite (proj2 (Nat.eqb_neq _ _)) by congruence. reflexivity.
  Qed.
  Lemma geqrf_differ : lapack_ok o lp -> forall A b y, 0 < rows A -> size b <> size y -> geqrf_solve o lp false (gobj_new o) A b y = Threw ERuntime.
  Proof.
    intros HL A b y Hp Hd. unfold geqrf_solve. rewrite to_aux_ok. cbn [andthen]. unfold geqrf_overwrite. rewrite no_checks.
    cbn [andthen rows cols ent]. rewrite (proj2 (Nat.eqb_neq _ _)) by lia.
    cbn [gobj_new go_lwork Z.eqb Pos.eqb]. unfold geqrf_call at 1. cbn [Z.eqb Pos.eqb andthen fst snd].
    rewrite (geqrf_call_ok lp) by apply (lo_optimal _ _ HL). cbn [andthen].
    unfold check, vdeep_copy. rewrite andb_false_r. cbn [andthen]. rewrite (proj2 (Nat.eqb_neq _ _)) by congruence. reflexivity.
  Qed.

  (** b and y have the same length, which is not that of A. *)
  Lemma getrs_short : forall aux A b y, rows A = cols A -> size b = size y -> size b < rows A ->
    (lp_stops lp = true -> getrs_solve o lp false aux A b y = Stopped) /\
    (lp_stops lp = false -> exists x y', getrs_solve o lp false aux A b y = Done (x, y') /\ size y' = size y /\ (forall i, at_ y' i = at_ b i)).
  Proof.
    intros aux A b y Hsq Hv Hlt. unfold getrs_solve. rewrite to_aux_ok. cbn [andthen]. unfold getrs_overwrite. rewrite no_checks.
    cbn [andthen rows cols ent]. rewrite (proj2 (Nat.eqb_neq _ _)) by lia. destruct (lp_getrf lp (rows A) (ent A)) as [[d p] i].
    unfold check, vdeep_copy, refused. rewrite andb_false_r. cbn [andthen]. rewrite Hv, Nat.eqb_refl. cbn [andthen size at_].
    rewrite (proj2 (Nat.ltb_lt _ _)) by lia. split; intros ->; [reflexivity|]. cbn [andthen check negb andb].
    eexists. eexists. split; [reflexivity|]. split; reflexivity.
  Qed.
  Lemma potrs_short : forall up aux A b y, rows A = cols A -> size b = size y -> size b < rows A ->
    (lp_stops lp = true -> potrs_solve o lp false up aux A b y = Stopped) /\
    (lp_stops lp = false -> exists x y', potrs_solve o lp false up aux A b y = Done (x, y') /\ size y' = size y /\ (forall i, at_ y' i = at_ b i)).
  Proof.
    intros up aux A b y Hsq Hv Hlt. unfold potrs_solve. rewrite to_aux_ok. cbn [andthen]. unfold potrs_overwrite. rewrite no_checks.
    cbn [andthen rows cols ent]. rewrite (proj2 (Nat.eqb_neq _ _)) by lia. destruct (lp_potrf lp up (rows A) (ent A)) as [d i].
    unfold check, vdeep_copy, refused. rewrite andb_false_r. cbn [andthen]. rewrite Hv, Nat.eqb_refl. cbn [andthen size at_].
    rewrite (proj2 (Nat.ltb_lt _ _)) by lia. split; intros ->; [reflexivity|]. cbn [andthen check negb andb].
    eexists. eexists. split; [reflexivity|]. split; reflexivity.
  Qed.
  (** longer vectors: the leading entries are the solution, the others are left to LAPACK *)
  Lemma getrs_long : lapack_ok o lp -> forall aux A b y, 0 < rows A -> rows A = cols A -> size b = size y -> rows A < size b ->
    nonsingular o (rows A) (ent A) ->
    exists x y', getrs_solve o lp false aux A b y = Done (x, y') /\ size y' = size y /\ solves o (rows A) (ent A) (at_ y') (at_ b).
  Proof.
    intros HL aux A b y Hp Hsq Hv Hlt HN. unfold getrs_solve. rewrite to_aux_ok. cbn [andthen]. unfold getrs_overwrite. rewrite no_checks.
    cbn [andthen rows cols ent]. rewrite (proj2 (Nat.eqb_neq _ _)) by lia. destruct (lp_getrf lp (rows A) (ent A)) as [[d p] i] eqn:E.
    destruct (lo_getrf _ _ HL _ _ _ _ _ E) as [Hi Hsol].
    unfold check, vdeep_copy. rewrite andb_false_r. cbn [andthen]. rewrite Hv, Nat.eqb_refl. cbn [andthen size at_].
    rewrite (proj2 (Nat.ltb_ge _ _)) by lia. eexists. eexists. split; [reflexivity|]. split; [reflexivity|].
    cbn. apply Hsol. apply Hi. exact HN.
  Qed.
  Lemma silent_misfit : sfield o -> lapack_ok o lp ->
    exists A b y, misfit A b y /\ forall aux, exists x y', getrs_solve o lp false aux A b y = Done (x, y').
  Proof.
    intros HF HL. exists (wA0 o), (wb o 2), (wb o 2). split; [right; right; left; discriminate|]. intros aux.
    destruct (getrs_long HL aux (wA0 o) (wb o 2) (wb o 2)) as (x & y' & E & _); [cbn; lia|reflexivity|reflexivity|cbn; lia|exact (wA0_nonsingular o HF)|].
    exists x, y'. exact E.
  Qed.
End Sizes.

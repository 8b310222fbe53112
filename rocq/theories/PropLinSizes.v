(** C89: linear systems whose sizes do not fit together ([misfit], LinSizes.v). *)
From Coq Require Import ZArith List Bool.
From Verif Require Import Base Laws LinsolveModel LinsolveSpec LinsolveProofs LinSizes.
Import ListNotations.

(** With assertions compiled in no object returns, whatever it was used for before and whatever LAPACK does. *)
Theorem C89_debug_build_partial : forall S (o : sops S) lp A b y, misfit A b y ->
  (forall aux, getrs_solve o lp true aux A b y = Stopped) /\
  (forall up aux, potrs_solve o lp true up aux A b y = Stopped) /\
  (forall s, geqrf_solve o lp true s A b y = Stopped).
Proof.
  intros S o lp A b y H.
  exact (conj (fun aux => getrs_misfit o lp aux A b y H) (conj (fun up aux => potrs_misfit o lp up aux A b y H) (fun s => geqrf_misfit o lp s A b y H))).
Qed.
Print Assumptions C89_debug_build_partial.

(** Without assertions: false with every LAPACK. *)
Theorem C89_release_build_refuted : forall S (o : sops S) lp, sfield o -> lapack_ok o lp ->
  exists A b y, misfit A b y /\ forall aux, exists x y', getrs_solve o lp false aux A b y = Done (x, y').
Proof. exact @silent_misfit. Qed.
Print Assumptions C89_release_build_refuted.

(** What happens there. Vectors of different lengths: std::runtime_error. *)
Theorem C89_different_vectors : forall S (o : sops S) lp A b y, 0 < rows A -> size b <> size y ->
  (forall aux, getrs_solve o lp false aux A b y = Threw ERuntime) /\
  (forall up aux, potrs_solve o lp false up aux A b y = Threw ERuntime) /\
  (lapack_ok o lp -> geqrf_solve o lp false (gobj_new o) A b y = Threw ERuntime).
Proof.
  intros S o lp A b y Hp Hd.
  exact (conj (fun aux => getrs_differ o lp aux A b y Hp Hd) (conj (fun up aux => potrs_differ o lp up aux A b y Hp Hd) (fun HL => geqrf_differ o lp HL A b y Hp Hd))).
Qed.
Print Assumptions C89_different_vectors.

(** Both vectors too short: the program ends or the right hand side is returned as the solution. *)
Theorem C89_short_vectors : forall S (o : sops S) lp aux A b y,
  rows A = cols A -> size b = size y -> size b < rows A ->
  (lp_stops lp = true -> getrs_solve o lp false aux A b y = Stopped /\ forall up, potrs_solve o lp false up aux A b y = Stopped) /\
  (lp_stops lp = false ->
     (exists x y', getrs_solve o lp false aux A b y = Done (x, y') /\ size y' = size y /\ (forall i, at_ y' i = at_ b i)) /\
     (forall up, exists x y', potrs_solve o lp false up aux A b y = Done (x, y') /\ size y' = size y /\ (forall i, at_ y' i = at_ b i))).
Proof.
  intros S o lp aux A b y H1 H2 H3. pose proof (getrs_short o lp aux A b y H1 H2 H3) as K1. pose proof (fun up => potrs_short o lp up aux A b y H1 H2 H3) as K2.
  exact (conj (fun E => conj (proj1 K1 E) (fun up => proj1 (K2 up) E)) (fun E => conj (proj2 K1 E) (fun up => proj2 (K2 up) E))).
Qed.
Print Assumptions C89_short_vectors.

(** Both vectors too long: the leading entries of y solve the system. *)
Theorem C89_long_vectors : forall S (o : sops S) lp, lapack_ok o lp -> forall aux A b y,
  0 < rows A -> rows A = cols A -> size b = size y -> rows A < size b -> nonsingular o (rows A) (ent A) ->
  exists x y', getrs_solve o lp false aux A b y = Done (x, y') /\ size y' = size y /\ solves o (rows A) (ent A) (at_ y') (at_ b).
Proof. exact @getrs_long. Qed.
Print Assumptions C89_long_vectors.

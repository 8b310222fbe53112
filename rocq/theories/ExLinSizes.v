(** Concrete cases meeting the hypotheses of the theorems in [PropLinSizes.v]. *)
From Coq Require Import Reals ZArith List Arith Lia.
From Verif Require Import Base RInst Laws LawInst LinsolveModel LinsolveSpec LinsolveProofs LapackInst ExLinsolve LinSizes PropLinSizes.
Import ListNotations.
Local Open Scope R_scope.

Definition v1 (a : R) : vct R := mk_vct 1 (fun _ => a).
Definition v3 (a b c : R) : vct R := mk_vct 3 (fun i => nth i [a; b; c] 0).
(** a 2 x 2 matrix and vectors with 1 or 3 entries *)
Example ex_misfit_short : misfit (m2 2 1 1 3) (v1 5) (v1 0).
Proof. right. right. left. cbn. lia. Qed.
Example ex_C89_debug : forall s, geqrf_solve (Rops 0) (Rlp 32 false) true s (m2 2 1 1 3) (v1 5) (v1 0) = Stopped.
Proof. exact (proj2 (proj2 (C89_debug_build_partial R (Rops 0) (Rlp 32 false) _ _ _ ex_misfit_short))). Qed.
Example ex_C89_refuted : exists A b y, misfit A b y /\ forall aux, exists x y', getrs_solve (Rops 0) (Rlp 32 true) false aux A b y = Done (x, y').
Proof. exact (C89_release_build_refuted R (Rops 0) (Rlp 32 true) (R_field 0) (Rlp_ok 32 true)). Qed.
Example ex_C89_differ : geqrf_solve (Rops 0) (Rlp 32 false) false (gobj_new (Rops 0)) (m2 2 1 1 3) (v2 5 10) (v3 0 0 0) = Threw ERuntime.
Proof. apply (C89_different_vectors R (Rops 0) (Rlp 32 false)); [cbn; lia|discriminate|apply Rlp_ok]. Qed.
(** the right hand side comes back *)
Example ex_C89_short : exists x y', getrs_solve (Rops 0) (Rlp 32 false) false (mk_mtx 0 0 (fun _ _ => 0)) (m2 2 1 1 3) (v1 5) (v1 0) = Done (x, y') /\
  size y' = 1%nat /\ (forall i, at_ y' i = 5).
Proof. exact (proj1 (proj2 (C89_short_vectors R (Rops 0) (Rlp 32 false) (mk_mtx 0 0 (fun _ _ => 0)) (m2 2 1 1 3) (v1 5) (v1 0) eq_refl eq_refl (le_n 2)) eq_refl)). Qed.
Example ex_C89_long : exists x y', getrs_solve (Rops 0) (Rlp 32 true) false (mk_mtx 0 0 (fun _ _ => 0)) (m2 2 1 1 3) (v3 5 10 7) (v3 0 0 0) = Done (x, y') /\
  size y' = 3%nat /\ solves (Rops 0) 2 (ent (m2 2 1 1 3)) (at_ y') (at_ (v3 5 10 7)).
Proof.
  apply (C89_long_vectors R (Rops 0) (Rlp 32 true) (Rlp_ok 32 true)); [cbn; lia|reflexivity|reflexivity|cbn; lia|exact ex_nonsingular].
Qed.

(** Specification vocabulary for the QR objects for Eigen matrices. *)
From Coq Require Import Reals ZArith List Bool.
From Verif Require Import Base RInst NonlinModel NonlinLaws Tuples QrModel QrSpec QrSolve HouseModel.
Import ListNotations.

(** A usable object: Qmat_ is null or points to a matrix. *)
Definition valid {S} (g : hst (S:=S)) : Prop :=
  match h_Q (snd g) with None => True | Some p => (p < length (fst g))%nat end.

Section Answers.
  Context {S : Type} (o : sops S).
  (** Two objects that cannot be told apart by their answers. *)
  Definition same_answers (g g' : hst (S:=S)) : Prop :=
    fst (q_factor g) = fst (q_factor g') /\
    (forall vin vout, fst (apply_qt_house o vin vout g) = fst (apply_qt_house o vin vout g')) /\
    (forall rhs y, fst (solve_house o rhs y g) = fst (solve_house o rhs y g')) /\
    (forall vin y, fst (apply_rt_house o vin y g) = fst (apply_rt_house o vin y g')).
  (** The Tpetra object and the Eigen object answer alike. *)
  Definition same_answers_t (g : tst (S:=S)) (g' : hst (S:=S)) : Prop :=
    fst (q_factor_t g) = fst (q_factor g') /\
    (forall vin vout, fst (apply_qt_thouse o vin vout g) = fst (apply_qt_house o vin vout g')) /\
    (forall rhs y, fst (solve_thouse o rhs y g) = fst (solve_house o rhs y g')).
End Answers.

(** The Eigen matrix with these columns. *)
Definition dense {m n} (j : mat (S:=R) m n) : dmat R := mk_dmat m (map tlist (tlist j)).
Definition well_shaped {S} (a : dmat S) : Prop := forall c, In c (dm_cols a) -> length c = dm_rows a.

(** What Eigen documents of its QR factorisation: the sizes of the factors, and, for a
    matrix of full rank, A = Q R where R is the upper triangle of matrixQR() and the
    columns of Q are orthonormal. *)
Record householder (eps : R) (hh : dmat R -> dmat R * dmat R) : Prop := {
  hh_shape : forall a, well_shaped a ->
    dm_rows (fst (hh a)) = dm_rows a /\ dm_ncols (fst (hh a)) = dm_rows a /\ well_shaped (fst (hh a)) /\
    dm_rows (snd (hh a)) = dm_rows a /\ dm_ncols (snd (hh a)) = dm_ncols a /\ well_shaped (snd (hh a));
  hh_factors : forall m n (j : mat (S:=R) m n),
    full_rank (tuple_ops (Rops eps) sqrt m n) (tvec (Rops eps) m) (tapply (Rops eps)) j ->
    exists Q : mat (S:=R) m n,
      firstn n (dm_cols (fst (hh (dense j)))) = map tlist (tlist Q) /\
      orthonormal (ddot eps m) (tlist Q) /\
      forall k a c, nth_error (tlist j) k = Some a -> nth_error (dm_cols (snd (hh (dense j)))) k = Some c ->
        a = lincomb (tvec (Rops eps) m) (firstn (Datatypes.S k) c) (tlist Q) }.
Arguments hh_shape {eps hh}. Arguments hh_factors {eps hh}.

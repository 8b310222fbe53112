(** The canonical rationals as a scalar type: exact and computable. *)
From Coq Require Import ZArith QArith Qcanon Qcabs Bool.
From Verif Require Import Base.

Definition Qcltb (x y : Qc) : bool := negb (Qle_bool (this y) (this x)).
Definition Qcleb (x y : Qc) : bool := Qle_bool (this x) (this y).
Definition Qceqb (x y : Qc) : bool := Qeq_bool (this x) (this y).

Definition QcS : sops Qc :=
  mk_sops (Q2Qc 0) (Q2Qc 1) Qcplus Qcminus Qcmult Qcdiv Qcopp Qcabs Qcltb Qcleb Qceqb
          (Q2Qc (1 # 4503599627370496)).

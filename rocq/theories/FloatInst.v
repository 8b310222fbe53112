(** IEEE binary64 as a scalar type, from the standard library's executable
    specification [Coq.Floats.SpecFloat] (no primitive floats, no axioms). *)
From Coq Require Import ZArith Floats.SpecFloat.
From Verif Require Import Base.
Local Open Scope Z_scope.

Definition F64 : sops spec_float :=
  mk_sops (S754_zero false) (S754_finite false 4503599627370496 (-52))
    (SFadd 53 1024) (SFsub 53 1024) (SFmul 53 1024) (SFdiv 53 1024)
    SFopp SFabs SFltb SFleb SFeqb
    (* 2^-52 *) (S754_finite false 4503599627370496 (-104)).

(** Literal 0.1 = 0x1.999999999999ap-4 and 6.4 = 0x1.999999999999ap+2. *)
Definition f64_0p1 : spec_float := S754_finite false 7205759403792794 (-56).
Definition f64_6p4 : spec_float := S754_finite false 7205759403792794 (-50).

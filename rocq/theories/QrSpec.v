(** Specification of a thin QR factorisation of a list of columns. *)
From Coq Require Import Reals ZArith List Bool.
From Verif Require Import Base RInst Laws NonlinLaws.
Import ListNotations.
Local Open Scope R_scope.

Section Qr.
  Context {V : Type}.
  Variable vo : vops R V.
  Variable dot : V -> V -> R.
  (** c1 a1 + c2 a2 + ... *)
  Fixpoint lincomb (cs : list R) (A : list V) : V :=
    match cs, A with
    | c :: cs', a :: A' => vadd vo (vscale vo c a) (lincomb cs' A')
    | _, _ => vzero vo
    end.
  (** linearly independent columns *)
  Definition independent (A : list V) : Prop :=
    forall cs, length cs = length A -> lincomb cs A = vzero vo -> forall c, In c cs -> c = 0.
  Definition orthonormal (Q : list V) : Prop :=
    forall i j p q, nth_error Q i = Some p -> nth_error Q j = Some q -> dot p q = if Nat.eqb i j then 1 else 0.
  (** entry of a matrix given by rows *)
  Definition entry (M : list (list R)) (i j : nat) : R := nth j (nth i M []) 0.
  Definition column (M : list (list R)) (j : nat) : list R := map (fun row => nth j row 0) M.
  Record is_qr (A Q : list V) (U : list (list R)) : Prop := {
    qr_cols : length Q = length A;
    qr_rows : length U = length A;
    qr_square : forall row, In row U -> length row = length A;
    qr_orthonormal : orthonormal Q;
    qr_upper : forall i j, (j < i)%nat -> entry U i j = 0;
    qr_diagonal : forall i, (i < length A)%nat -> 0 < entry U i i;
    qr_product : forall j a, nth_error A j = Some a -> a = lincomb (column U j) Q }.
End Qr.
Arguments lincomb {V}. Arguments independent {V}. Arguments orthonormal {V}. Arguments is_qr {V}.

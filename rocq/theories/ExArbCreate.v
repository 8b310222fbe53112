(** A concrete case for C44_arbitrary_from_temporary_partial: a system of three equations, and a move that keeps their number but takes the
    coefficients away. *)
From Coq Require Import ZArith List.
From Verif Require Import Base ImplicitModel ArbCreate PropArbCreate.
Import ListNotations.
Local Open Scope Z_scope.

Example ex_arb_create :
  arb_create (fun s : nat * list Z => repeat 0 (fst s)) (fun s => (fst s, [])) 2 true (3%nat, [7; 8])
  = ((3%nat, [7; 8]), [[0; 0; 0]; [0; 0; 0]], [0; 0; 0]).
Proof. apply (C44_arbitrary_from_temporary_partial (nat * list Z) (list Z) (fun s => repeat 0 (fst s)) (fun s => (fst s, []))). reflexivity. Qed.

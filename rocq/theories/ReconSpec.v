(** Specification of the LSPG reconstructor (C42) and of the ascii export (C65). *)
From Coq Require Import ZArith List Bool.
From Verif Require Import Base ReconModel.
Import ListNotations.

(** The file with one line "time x_1 ... x_n" per row *)
Definition file_of {S} (rows : list (S * list S)) : option (list (fline S)) :=
  Some (map (fun r => Numbers (fst r :: snd r)) rows).

Section Spec.
  Context {S Y R J W : Type} (o : sops S).
  (** What the writer received so far: step number, residual, Jacobian action *)
  Variable log : W -> list (nat * R * J).
  (** A user call that keeps [good] and does not write; if it returns then with [v];
      with [must] it returns. *)
  Definition computes {A} (must : bool) (good : W -> Prop) (w : W) (r : outcome unit * (A * W)) (v : A) : Prop :=
    good (snd (snd r)) /\ log (snd (snd r)) = log w /\
    (fst r = Ok tt -> fst (snd r) = v) /\ (must = true -> fst r = Ok tt).
  (** The writer adds its arguments to what was written, or fails and adds nothing. *)
  Definition writes (must : bool) (good : W -> Prop) (writer : nat -> R -> J -> W -> outcome unit * W) : Prop :=
    forall i r j w, good w -> good (snd (writer i r j w)) /\
      log (snd (writer i r j w)) = log w ++ (match fst (writer i r j w) with Ok _ => [(i, r, j)] | _ => [] end) /\
      (must = true -> fst (writer i r j w) = Ok tt).
  (** The pairs for rows 0 .. m-1: number i is that of step i, from row i-1 to row i. [value] gets
      i, t_i, t_i - t_i-1 and the reconstructed states of rows i and i-1. *)
  Variable recon : list S -> Y.
  Variable value : nat -> S -> S -> Y -> Y -> R * J.
  Definition pair_of (rows : list (S * list S)) (i : nat) : nat * R * J :=
    let row k := nth k rows (s0 o, []) in
    let dt := ssub o (fst (row i)) (fst (row (i - 1))) in
    let v := value i (fst (row i)) dt (recon (snd (row i))) (recon (snd (row (i - 1)))) in
    (i, fst v, snd v).
  Definition all_pairs (rows : list (S * list S)) : list (nat * R * J) := map (pair_of rows) (seq 1 (length rows - 1)).
  (** All pairs in order, or those before a failure of the FOM or of the writer *)
  Definition reconstructs (must : bool) (rows : list (S * list S)) (w : W) (res : outcome unit * W) : Prop :=
    exists k, log (snd res) = log w ++ firstn k (all_pairs rows) /\
      (fst res = Ok tt -> log (snd res) = log w ++ all_pairs rows) /\ (must = true -> fst res = Ok tt).
End Spec.

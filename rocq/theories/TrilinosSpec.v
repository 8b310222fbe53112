(** Specification of the Trilinos updater for hyper-reduced LSPG (C69). *)
From Coq Require Import ZArith List Bool.
From Verif Require Import Base Laws LspgModel Tuples TrilinosModel.
Import ListNotations.

Section Values.
  Context {S : Type}.
  (** Each row has one global index and each column one entry per row. *)
  Definition well_formed (v : tmv S) : Prop :=
    NoDup (t_ids v) /\ Forall (fun c => length c = length (t_ids v)) (t_cols v).
  (** The entry of column [j] at the global index [g] is [a]. *)
  Definition value (v : tmv S) (g : Z) (j : nat) (a : S) : Prop :=
    exists i c, nth_error (t_ids v) i = Some g /\ nth_error (t_cols v) j = Some c /\ nth_error c i = Some a.
End Values.

(** Vectors of [N] entries on a full mesh, indices 0 .. N-1, and their restriction to some of the
    indices. *)
Section Mesh.
  Context {S : Type} (o : sops S).
  Fixpoint at_index {N} : tup S N -> nat -> S :=
    match N with
    | O => fun _ _ => s0 o
    | Datatypes.S n => fun v k => match k with O => fst v | Datatypes.S k' => at_index (snd v) k' end
    end.
  Fixpoint restricted {N} (ids : list Z) (y : tup S N) : tup S (length ids) :=
    match ids with
    | [] => tt
    | g :: t => (at_index y (Z.to_nat g), restricted t y)
    end.
  (** Columns one by one *)
  Definition restricted_cols {N k} (ids : list Z) (m : tup (tup S N) k) : tup (tup S (length ids)) k :=
    tmap (restricted ids) m.
  (** Matrices, by columns *)
  Definition colvec N k : vops S (tup (tup S N) k) :=
    mk_vops (tconst (vzero (tvec o N)) k) (tmap2 (vadd (tvec o N))) (fun a => tmap (vscale (tvec o N) a)).
End Mesh.

(** The updater as the LSPG problem calls it: vectors with the row map [sample] or [stencil]. *)
Section Updater.
  Context {S W : Type} (o : sops S).
  Fixpoint to_list {A n} : tup A n -> list A :=
    match n with O => fun _ => [] | Datatypes.S m => fun v => fst v :: to_list (snd v) end.
  Fixpoint of_list {A} (d : A) (n : nat) (l : list A) : tup A n :=
    match n with
    | O => tt
    | Datatypes.S m => match l with [] => (d, of_list d m []) | a :: t => (a, of_list d m t) end
    end.
  Definition vector_of {n} (ids : list Z) (v : tup S n) : tmv S := mk_tmv ids [to_list v].
  Definition multivector_of {n k} (ids : list Z) (m : tup (tup S n) k) : tmv S := mk_tmv ids (map to_list (to_list m)).
  Definition outcome_of {A B} (r : outcome A) : outcome B :=
    match r with Ok _ => NoFuel | Throw x => Throw x | Undef u => Undef u | NoFuel => NoFuel end.
  Definition tpetra_updater (sample stencil : list Z) (k : nat)
    : updater (S:=S) (Y:=tup S (length stencil)) (R:=tup S (length sample))
              (J:=tup (tup S (length sample)) k) (B:=tup (tup S (length stencil)) k) (W:=W) :=
    mk_updater
      (fun r a y b w =>
         match update_sample o (vector_of sample r) a (vector_of stencil y) b with
         | Ok v => (Ok tt, (of_list (s0 o) _ (nth 0 (t_cols v) []), w))
         | e => (outcome_of e, (r, w))
         end)
      (fun j a p b w =>
         match update_sample o (multivector_of sample j) a (multivector_of stencil p) b with
         | Ok v => (Ok tt, (of_list (tconst (s0 o) _) k (map (of_list (s0 o) _) (t_cols v)), w))
         | e => (outcome_of e, (j, w))
         end).
End Updater.

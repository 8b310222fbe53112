(** Model of HypRedUpdaterTrilinos, rom/rom_lspg_unsteady_hypred_updater_trilinos.hpp 56-158. No proofs
    in this file.

    A Tpetra vector or multivector is what one process owns of it: the global indices of its rows
    (getMyGlobalIndices) and its columns. The block types are first viewed as plain ones (133-156), for
    which the rows are those of the point map. Assertions (82, 116) are compiled out. *)
From Coq Require Import ZArith List Bool.
From Verif Require Import Base LspgModel.
Import ListNotations.

Section Update.
  Context {S : Type} (o : sops S).
  (* what 69-76 and 103-110 take from a Tpetra object (external) *)
  Record tmv := mk_tmv { t_ids : list Z; t_cols : list (list S) }.
  (** stencil_map->getLocalElement(g): the local index, or an invalid one if the process does not
      own g *)
  (* 88, 122 (external) *)
  Fixpoint local_element (ids : list Z) (g : Z) : option nat :=
    match ids with
    | [] => None
    | h :: t => if Z.eqb h g then Some O else option_map Datatypes.S (local_element t g)
    end.
  (** stencil_op_data(lid, j) *)
  (* 91, 125 *)
  Definition entry (v : tmv) (lid : option nat) (j : nat) : outcome S :=
    match lid with
    | None => Undef UOutOfBounds
    | Some i =>
        match nth_error (t_cols v) j with
        | None => Undef UOutOfBounds
        | Some c => match nth_error c i with Some a => Ok a | None => Undef UOutOfBounds end
        end
    end.
  (** The loop over the rows, 77-92 and 113-126. [ids] and [col]: what is left of the sample rows *)
  Fixpoint update_col (alpha : S) (stencil : tmv) (beta : S) (j : nat) (ids : list Z) (col : list S) : outcome (list S) :=
    match ids, col with
    | g :: ids', a :: col' =>
        match entry stencil (local_element (t_ids stencil) g) j with
        | Ok b =>
            match update_col alpha stencil beta j ids' col' with
            | Ok l => Ok (sadd o (smul o alpha a) (smul o beta b) :: l)
            | e => e
            end
        | Throw x => Throw x
        | Undef u => Undef u
        | NoFuel => NoFuel
        end
    | _, _ => Ok []
    end.
  (** The loop over the columns, 112 *)
  Fixpoint update_cols (alpha : S) (stencil : tmv) (beta : S) (j : nat) (ids : list Z) (cols : list (list S))
    : outcome (list (list S)) :=
    match cols with
    | [] => Ok []
    | c :: cols' =>
        match update_col alpha stencil beta j ids c with
        | Ok c' =>
            match update_cols alpha stencil beta (Datatypes.S j) ids cols' with
            | Ok l => Ok (c' :: l)
            | e => e
            end
        | Throw x => Throw x
        | Undef u => Undef u
        | NoFuel => NoFuel
        end
    end.
  (** updateSampleMeshOperandWithStencilMeshOne(sample, alpha, stencil, beta), 61-128; a vector has
      one column *)
  Definition update_sample (sample : tmv) (alpha : S) (stencil : tmv) (beta : S) : outcome tmv :=
    match update_cols alpha stencil beta 0 (t_ids sample) (t_cols sample) with
    | Ok l => Ok (mk_tmv (t_ids sample) l)
    | Throw x => Throw x
    | Undef u => Undef u
    | NoFuel => NoFuel
    end.
End Update.
Arguments mk_tmv {S}. Arguments t_ids {S}. Arguments t_cols {S}. Arguments tmv : clear implicits.

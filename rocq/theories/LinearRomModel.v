(** Model of rom/linear_rom.hpp: create_reduced_matrix_operator,
    create_reduced_linear_operator, create_reduced_vector_operator, operator() and
    export_ascii. No proofs in this file.

    [V]: FOM vectors; a basis is the list of its columns; [dot]: ops::dot. Reduced
    vectors are lists of scalars, reduced matrices lists of rows. Eigen objects that
    were never written are [None]: createMatrix, createVector and the constructors
    with a size (17-23, 134-135) do not initialise. ops::product with beta = 0 is taken
    not to read its result argument. *)
From Coq Require Import ZArith List Bool.
From Verif Require Import Base.
Import ListNotations.
Local Open Scope cmd_scope.

Section Linear.
  Context {S V W : Type} (o : sops S) (vo : vops S V).
  Variable dot : V -> V -> S.
  (** fop_->apply(operand, result) *)
  Variable apply : V -> V -> W -> outcome unit * (V * W).

  (** The members that are written (112-121), and the user's world. *)
  Record lmem := mk_lmem {
    m_AR : list V;              (* fomATimesRightBasis_, by columns *)
    m_As : V;                   (* fomATimeShift_ *)
    m_b : V;                    (* fomHiddenForcing_ *)
    m_mat : option (list (list S)); m_shift : option (list S); m_forcing : option (list S);
    m_w : W
  }.
  (* model only: a statement of compute() or compute2() *)
  Definition lcmd := cmd lmem unit.

  (** ops::product(pT, 1., lb, v, 0., out) *)
  (* 167, 183, 200, 242 *)
  Definition reduce (lb : list V) (v : V) : list S := map (fun l => dot l v) lb.
  (** ops::product(pT, pNT, 1., lb, cols, 0., out): entry i, j is lb_i . cols_j *)
  (* 178, 197 *)
  Definition reduce_cols (lb cols : list V) : list (list S) := map (fun l => map (dot l) cols) lb.

  (** apply(rightBasisCol_j, currCol); and with [forcing], ops::update(currCol, 1.,
      fomHiddenForcing_, -1.). 171-177, 189-193. The columns of rb and of
      fomATimesRightBasis_ are visited together. *)
  (* the last argument of 176, 182 *)
  Definition negone : S := sopp o (s1 o).
  Fixpoint do_columns (forcing : bool) (b : V) (rb cols : list V) (w : W) : outcome unit * (list V * W) :=
    match rb, cols with
    | r :: rb', c :: cols' =>
        let '(e, (c1, w1)) := apply r c w in
        match e with
        | Ok _ =>
            let c2 := if forcing then vadd vo (vscale vo (s1 o) c1) (vscale vo negone b) else c1 in
            let '(e', (l, w')) := do_columns forcing b rb' cols' w1 in (e', (c2 :: l, w'))
        | _ => (e, (c1 :: cols', w1))
        end
    | [], _ => (Ok tt, (cols, w))
    | _, [] => (Undef UOutOfBounds, ([], w))
    end.
  (* 170-177, 188-193 *)
  Definition columns_step (forcing : bool) (rb : list V) : lcmd := fun m =>
    let '(e, (l, w)) := do_columns forcing (m_b m) rb (m_AR m) (m_w m) in
    (e, mk_lmem l (m_As m) (m_b m) (m_mat m) (m_shift m) (m_forcing m) w).
  (* 178, 197 *)
  Definition project_mat (lb : list V) : lcmd := fun m =>
    (Ok tt, mk_lmem (m_AR m) (m_As m) (m_b m) (Some (reduce_cols lb (m_AR m))) (m_shift m) (m_forcing m) (m_w m)).
  (** apply(shift, fomATimeShift_), and the forcing removed *)
  (* 181-182, 199 *)
  Definition shift_step (forcing : bool) (shift : V) : lcmd := fun m =>
    let '(e, (v, w)) := apply shift (m_As m) (m_w m) in
    match e with
    | Ok _ => let v2 := if forcing then vadd vo (vscale vo (s1 o) v) (vscale vo negone (m_b m)) else v in
              (Ok tt, mk_lmem (m_AR m) v2 (m_b m) (m_mat m) (m_shift m) (m_forcing m) w)
    | _ => (e, mk_lmem (m_AR m) v (m_b m) (m_mat m) (m_shift m) (m_forcing m) w)
    end.
  (* 183, 200 *)
  Definition project_shift (lb : list V) : lcmd := fun m =>
    (Ok tt, mk_lmem (m_AR m) (m_As m) (m_b m) (m_mat m) (Some (reduce lb (m_As m))) (m_forcing m) (m_w m)).
  (** apply(zerovec, fomHiddenForcing_) *)
  (* 164-166 *)
  Definition forcing_step : lcmd := fun m =>
    let '(e, (v, w)) := apply (vzero vo) (m_b m) (m_w m) in
    (e, mk_lmem (m_AR m) (m_As m) v (m_mat m) (m_shift m) (m_forcing m) w).
  (* 167 *)
  Definition project_forcing (lb : list V) : lcmd := fun m =>
    (Ok tt, mk_lmem (m_AR m) (m_As m) (m_b m) (m_mat m) (m_shift m) (Some (reduce lb (m_b m))) (m_w m)).

  (** compute2(), 154-184 *)
  Definition compute2 (lb rb : list V) (shift : V) : lcmd :=
    forcing_step;;; project_forcing lb;;;
    columns_step true rb;;; project_mat lb;;;
    shift_step true shift;;; project_shift lb.
  (** compute(), 186-201 *)
  Definition compute (lb rb : list V) (shift : V) : lcmd :=
    columns_step false rb;;; project_mat lb;;; shift_step false shift;;; project_shift lb.

  (** The constructor, 125-144; [AR0], [As0]: what the FOM's createResultOfActionOn
      returned; fomHiddenForcing_ is a clone of the shift. *)
  Definition create_linear (solve : bool) (lb rb : list V) (shift : V) (AR0 : list V) (As0 : V) (w : W)
    : outcome unit * lmem :=
    (if solve then compute2 lb rb shift else compute lb rb shift)
      (mk_lmem AR0 As0 shift None None None w).
  (** create_reduced_linear_operator, 273-287, and create_reduced_matrix_operator, 248-262 *)
  Definition create_reduced_linear_operator := create_linear true.
  (* 248-262 *)
  Definition create_reduced_matrix_operator := create_linear false.

  (** operator(), 146-151: the matrix, the shift and the forcing *)
  Definition operators (m : lmem) : option (list (list S)) * option (list S) * option (list S) :=
    (m_mat m, m_shift m, m_forcing m).

  (** create_reduced_vector_operator, 223-243, 264-271: L^T evaluate() *)
  Variable evaluate : W -> outcome V * W.
  Definition create_reduced_vector_operator (lb : list V) (w : W) : outcome (list S) * W :=
    let '(e, w') := evaluate w in
    (match e with Ok v => Ok (reduce lb v) | Throw x => Throw x | Undef u => Undef u | NoFuel => NoFuel end, w').
End Linear.
Arguments mk_lmem {S V W}.

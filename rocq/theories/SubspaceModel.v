(** Model of rom/linear_subspace.hpp, rom/impl/linear_trial_column_subspace.hpp and
    rom/create_subspace.hpp. No proofs in this file.

    Matrices and vectors live in memory cells, because what matters here is who
    shares a cell with whom. A variable of a container type is the address of a
    cell. [mview], [vview] say whether the matrix and the full-state type are
    handles (Kokkos views, Tpetra vectors: copying one shares the cell) or values
    (Eigen: copying one makes a new cell). Simplifications: all vectors of a type
    have the same size, so that ops::fill(v, 0) gives [vzero]; allocation does not
    fail. *)
From Coq Require Import ZArith List Bool.
From Verif Require Import Base ExplicitModel.
Import ListNotations.
Local Open Scope cmd_scope.

Section Subspace.
  (** matrices, full states, reduced states *)
  Context {S M V X : Type} (o : sops S) (vo : vops S V).
  Variable mprod : M -> X -> V.      (* ops::product(nontranspose, 1, m, x, 0, y) *)
  Variables mrows mcols : M -> nat.  (* ops::extent(m, 0), ops::extent(m, 1) *)
  Variable xzeros : nat -> X.        (* ReducedStateType(n) filled with 0 *)
  Variables mview vview : bool.
  (** what std::move leaves behind in a value of that type *)
  Variables (mgone : M) (vgone : V).

  (* model only: the cells behind the variables *)
  Record mem := mk_mem { hm : list M; hv : list V }.
  (* model only: computations over the cells *)
  Definition mcmd := cmd mem.

  (* model only: the cells, read *)
  Definition load_m (a : nat) : mcmd M :=
    fun h => match nth_error (hm h) a with Some m => (Ok m, h) | None => (Undef UDangling, h) end.
  (* model only: the cells, read *)
  Definition load_v (a : nat) : mcmd V :=
    fun h => match nth_error (hv h) a with Some v => (Ok v, h) | None => (Undef UDangling, h) end.
  (* model only: the cells, written *)
  Definition store_m (a : nat) (m : M) : mcmd unit :=
    fun h => match list_set (hm h) a m with
             | Some l => (Ok tt, mk_mem l (hv h))
             | None => (Undef UDangling, h)
             end.
  (* model only: the cells, written *)
  Definition store_v (a : nat) (v : V) : mcmd unit :=
    fun h => match list_set (hv h) a v with
             | Some l => (Ok tt, mk_mem (hm h) l)
             | None => (Undef UDangling, h)
             end.
  (* model only: the cells, allocated *)
  Definition new_m (m : M) : mcmd nat :=
    fun h => (Ok (length (hm h)), mk_mem (hm h ++ [m]) (hv h)).
  (* model only: the cells, allocated *)
  Definition new_v (v : V) : mcmd nat :=
    fun h => (Ok (length (hv h)), mk_mem (hm h) (hv h ++ [v])).

  (** ops::clone: always a new cell. *)
  (* linear_subspace.hpp 34, 43 *)
  Definition clone_m (a : nat) : mcmd nat := m <- load_m a;; new_m m.
  (* linear_trial_column_subspace.hpp 101, 132 *)
  Definition clone_v (a : nat) : mcmd nat := v <- load_v a;; new_v v.
  (** Copy construction; move construction. *)
  (* linear_trial_column_subspace.hpp 60, 93 *)
  Definition copy_v (a : nat) : mcmd nat := if vview then load_v a;;; ret a else clone_v a.
  (* linear_subspace.hpp 39 *)
  Definition move_m (a : nat) : mcmd nat :=
    if mview then load_m a;;; ret a else b <- clone_m a;; store_m a mgone;;; ret b.
  (* linear_trial_column_subspace.hpp 71, 82 *)
  Definition move_v (a : nat) : mcmd nat :=
    if vview then load_v a;;; ret a else b <- clone_v a;; store_v a vgone;;; ret b.

  (* const & and && parameters: linear_subspace.hpp 32, 37; linear_trial_column_subspace.hpp 55-56, 66-67, 77-78, 88-89 *)
  Inductive arg := LValue (a : nat) | RValue (a : nat).
  (* model only: the variable passed *)
  Definition arg_of (x : arg) : nat := match x with LValue a | RValue a => a end.

  (** *** LinearSubspace, linear_subspace.hpp *)
  (* linear_subspace.hpp 61-63, 71, 75 *)
  Inductive spanning := Columns | Rows.
  (* linear_subspace.hpp 28-29 *)
  Record linsub := mk_linsub { ls_basis : nat; ls_span : spanning }.
  (** linear_subspace.hpp 32-35, 37-40 *)
  Definition linsub_create (x : arg) (s : spanning) : mcmd linsub :=
    a <- match x with LValue a => clone_m a | RValue a => move_m a end;; ret (mk_linsub a s).
  (** linear_subspace.hpp 42-44 *)
  Definition linsub_copy (l : linsub) : mcmd linsub :=
    a <- clone_m (ls_basis l);; ret (mk_linsub a (ls_span l)).
  (** linear_subspace.hpp 59-68; the default branch is unreachable *)
  Definition linsub_dimension (l : linsub) : mcmd nat :=
    m <- load_m (ls_basis l);;
    ret (match ls_span l with Columns => mcols m | Rows => mrows m end).
  (** linear_subspace.hpp 70-72, 74-76 *)
  Definition linsub_is_column (l : linsub) : bool :=
    match ls_span l with Columns => true | Rows => false end.
  (* linear_subspace.hpp 74-76 *)
  Definition linsub_is_row (l : linsub) : bool :=
    match ls_span l with Columns => false | Rows => true end.

  (** *** TrialColumnSubspace, linear_trial_column_subspace.hpp *)
  (** linear_trial_column_subspace.hpp 48-52; dummy_ is always null *)
  Record sub := mk_sub { sb_lin : linsub; sb_tr : nat; sb_affine : bool }.

  (** linear_trial_column_subspace.hpp 190-194 *)
  Definition zero_if_not_affine (a : nat) (affine : bool) : mcmd unit :=
    if affine then ret tt else (load_v a;;; store_v a (vzero vo)).

  (** translation_(translation) and translation_(std::move(translation)), linear_trial_column_subspace.hpp 60, 71, 82, 93 *)
  Definition take_v (t : arg) : mcmd nat :=
    match t with LValue a => copy_v a | RValue a => move_v a end.

  (** The four constructors linear_trial_column_subspace.hpp 55-97; members are initialised in the order of
      declaration, basis first. create_trial_column_subspace (create_subspace.hpp
      14-40) forwards its arguments to them. *)
  Definition sub_create (b t : arg) (affine : bool) : mcmd sub :=
    l <- linsub_create b Columns;;
    a <- take_v t;;
    zero_if_not_affine a affine;;;
    ret (mk_sub l a affine).
  (** linear_trial_column_subspace.hpp 99-105 *)
  Definition sub_copy (s : sub) : mcmd sub :=
    l <- linsub_copy (sb_lin s);;
    a <- clone_v (sb_tr s);;
    zero_if_not_affine a (sb_affine s);;;
    ret (mk_sub l a (sb_affine s)).

  (** linear_trial_column_subspace.hpp 119-125 *)
  Definition sub_create_reduced (s : sub) : mcmd X :=
    m <- load_m (ls_basis (sb_lin s));; ret (xzeros (mcols m)).
  (** linear_trial_column_subspace.hpp 127-136: clone of the translation, filled with 0 *)
  Definition sub_create_full (s : sub) : mcmd nat :=
    a <- clone_v (sb_tr s);; store_v a (vzero vo);;; ret a.
  (** linear_trial_column_subspace.hpp 138-149 *)
  Definition sub_map_linear (s : sub) (x : X) (y : nat) : mcmd unit :=
    m <- load_m (ls_basis (sb_lin s));; load_v y;;; store_v y (mprod m x).
  (** linear_trial_column_subspace.hpp 151-163 *)
  Definition sub_map (s : sub) (x : X) (y : nat) : mcmd unit :=
    sub_map_linear s x y;;;
    (if sb_affine s then
       (f <- load_v y;; t <- load_v (sb_tr s);; store_v y (upd1 vo f (s1 o) t (s1 o)))
     else ret tt).
  (** linear_trial_column_subspace.hpp 165-170 *)
  Definition sub_create_from (s : sub) (x : X) : mcmd nat :=
    a <- sub_create_full s;; sub_map s x a;;; ret a.
  (** linear_trial_column_subspace.hpp 172-173 *)
  Definition sub_is_column (s : sub) : bool := true.
  (* linear_trial_column_subspace.hpp 173 *)
  Definition sub_is_row (s : sub) : bool := false.
  (** translationVector(), dimension(), basisOfTranslatedSpace(): linear_trial_column_subspace.hpp 174-179; the
      references they return are modelled by what they refer to *)
  Definition sub_translation (s : sub) : mcmd V := load_v (sb_tr s).
  (* linear_trial_column_subspace.hpp 175 *)
  Definition sub_dimension (s : sub) : mcmd nat := linsub_dimension (sb_lin s).
  (* linear_trial_column_subspace.hpp 177-179 *)
  Definition sub_basis_translated (s : sub) : mcmd M := load_m (ls_basis (sb_lin s)).
  (** basis(), linear_trial_column_subspace.hpp 181-187: returns *dummy_ of a subspace that is not affine *)
  Definition sub_basis (s : sub) : mcmd M :=
    if sb_affine s then load_m (ls_basis (sb_lin s)) else undef UNullDeref.
End Subspace.
Arguments mk_mem {M V}. Arguments hm {M V}. Arguments hv {M V}.

(** Model of the QR objects for Eigen matrices:
    solvers_nonlinear/impl/qr/qr_eigen_impl.hpp (QRHouseholderDenseEigenMatrix, which
    serves every Eigen matrix whatever the algorithm tag, qr_traits.hpp 70-94), reached
    through QRSolver (qr_concrete_classes.hpp 99-147, qr_base_classes.hpp 109-134,
    175-181: every call is passed on unchanged), and of
    qr_tpetra_impl.hpp 252-344 (TpetraMVHouseholderUsingEigen), which keeps such an
    object. Eigen's factorisation itself is an oracle. *)
From Coq Require Import ZArith List Bool.
From Verif Require Import Base QrModel.
Import ListNotations.
Local Open Scope nat_scope.

(** A dense matrix: number of rows and list of columns. *)
(* qr_eigen_impl.hpp 66: Eigen::Matrix<sc_t, Dynamic, Dynamic> *)
Record dmat (S : Type) := mk_dmat { dm_rows : nat; dm_cols : list (list S) }.
Arguments mk_dmat {S}. Arguments dm_rows {S}. Arguments dm_cols {S}.
(* Eigen's cols() (external) *)
Definition dm_ncols {S} (a : dmat S) : nat := length (dm_cols a).

(** The members Qmat_ and fct_ (69-71). Both are shared pointers, null at first. A copy
    of the object (its copy constructor is the default one, 73-75 declare no other)
    points to the same matrix Qmat_, whose contents later calls change, so these
    matrices are kept in a store and [h_Q] is an index into it. The factoriser that fct_ points to is never
    changed after line 81 made it, so whether it is shared cannot be observed and it is
    kept by value: householderQ() and matrixQR(). *)
Record house (S : Type) := mk_house { h_Q : option nat; h_fct : option (dmat S * dmat S) }.
Arguments mk_house {S}. Arguments h_Q {S}. Arguments h_fct {S}.
(* 70-71, 74 *)
Definition new_house {S} : house S := mk_house None None.

Section House.
  Context {S : Type} (o : sops S).
  (** Eigen::HouseholderQR (67): the full orthogonal factor householderQ() and the
      packed matrixQR(), whose upper triangle is R. *)
  Variable hh : dmat S -> dmat S * dmat S.
  (* model only: the store of matrices, and the object *)
  Definition hst : Type := (list (dmat S) * house S)%type.

  (** 88: householderQ() * Identity(rows, cols): the first cols columns, and columns of
      zeros for a matrix with fewer rows than columns. *)
  Definition thin_part (rows cols : nat) (q : dmat S) : dmat S :=
    mk_dmat rows (firstn cols (dm_cols q ++ repeat (repeat (s0 o) rows) (cols - length (dm_cols q)))).
  (** 83: is the matrix kept in Qmat_ replaced by a new one? *)
  Definition needs_new (rows cols : nat) (q : dmat S) : bool :=
    negb (dm_rows q =? rows) && negb (dm_ncols q =? cols).
  (** 77-89. The assignment of line 88 gives the matrix the new size, so that what it
      held (zeros, 85) does not matter. *)
  Definition compute_house (a : dmat S) : cmd hst unit := fun '(st, h) =>
    let rows := dm_rows a in
    let cols := dm_ncols a in
    let fq := hh a in
    let q := thin_part rows cols (fst fq) in
    match h_Q h with
    | None => (Ok tt, (st ++ [q], mk_house (Some (length st)) (Some fq)))
    | Some p =>
        match nth_error st p with
        | None => (Undef UDangling, (st, h))
        | Some old =>
            if needs_new rows cols old
            then (Ok tt, (st ++ [q], mk_house (Some (length st)) (Some fq)))
            else match lset p q st with
                 | Some st' => (Ok tt, (st', mk_house (Some p) (Some fq)))
                 | None => (Undef UDangling, (st, h))
                 end
        end
    end.
  (** 117-119; cRefQFactor *)
  Definition q_factor : cmd hst (dmat S) := fun '(st, h) =>
    match h_Q h with
    | None => (Undef UNullDeref, (st, h))
    | Some p => match nth_error st p with
                | None => (Undef UDangling, (st, h))
                | Some q => (Ok q, (st, h))
                end
    end.
  (** 91-97: vecOut = Q^T vecIn. Vectors of other sizes than those of Q are outside the
      preconditions of ops::product (asserted there). *)
  Definition apply_qt_house (vin vout : list S) : cmd hst (list S) := fun g =>
    match q_factor g with
    | (Ok q, g') =>
        if (length vin =? dm_rows q) && (length vout =? dm_ncols q)
        then (Ok (map (fun c => sum_products o c vin) (dm_cols q)), g')
        else (Undef UOutOfBounds, g')
    | (Throw e, g') => (Throw e, g')
    | (Undef u, g') => (Undef u, g')
    | (NoFuel, g') => (NoFuel, g')
    end.
  (** matrixQR().block(0,0,k,k), as a list of rows; asserted to lie within the matrix.
      Only the upper triangle is read below (triangularView<Upper>). *)
  (* 104, 112 *)
  Definition block (k : nat) (m : dmat S) : option (list (list S)) :=
    if (k <=? dm_rows m) && (k <=? dm_ncols m)
    then Some (map (fun i => map (fun c => nth i c (s0 o)) (firstn k (dm_cols m))) (seq 0 k))
    else None.
  (** 108-115: y has the size of the block; the triangular solve is back substitution. *)
  Definition solve_house (rhs y : list S) : cmd hst (list S) := fun '(st, h) =>
    match h_fct h with
    | None => (Undef UNullDeref, (st, h))
    | Some (_, m) =>
        match block (length y) m with
        | None => (Undef UOutOfBounds, (st, h))
        | Some r => if length rhs =? length y then (Ok (back_subst o 0 r rhs), (st, h))
                    else (Undef UOutOfBounds, (st, h))
        end
    end.
  (** Entry j of R^T v: the sum over i <= j of r(i,j) v(i). *)
  (* 105 *)
  Definition rt_entry (r : list (list S)) (v : list S) (j : nat) : S :=
    sum_products o (map (fun row => nth j row (s0 o)) (firstn (Datatypes.S j) r)) v.
  (** 99-106 *)
  Definition apply_rt_house (vin y : list S) : cmd hst (list S) := fun '(st, h) =>
    match h_fct h with
    | None => (Undef UNullDeref, (st, h))
    | Some (_, m) =>
        match block (length y) m with
        | None => (Undef UOutOfBounds, (st, h))
        | Some r => if length vin =? length y
                    then (Ok (map (rt_entry r vin) (seq 0 (length y))), (st, h))
                    else (Undef UOutOfBounds, (st, h))
        end
    end.

  (** ** qr_tpetra_impl.hpp 252-344, on one process (the imports between the distributed
      and the replicated map are then copies) *)
  (** Members myImpl_ (265) and Qmat_ (342). Qmat_ is made anew by every factorisation
      (335) and never changed afterwards, so it is kept by value. *)
  Record thouse := mk_thouse { t_impl : house S; t_Q : option (dmat S) }.
  (** the matrices the caller holds and the object: what the functions of 252-344 read and write *)
  Definition tst : Type := (list (dmat S) * thouse)%type.
  (* 265, 268, 342 *)
  Definition new_thouse : thouse := mk_thouse new_house None.
  (** 288-338: the matrix is copied into an Eigen matrix (305-316), factorised (318), Q is
      copied back (321-337). The const_cast of line 290 is not used to write. *)
  Definition compute_thouse (a : dmat S) : cmd tst unit := fun '(st, t) =>
    match compute_house a (st, t_impl t) with
    | (Ok _, (st', h')) =>
        match q_factor (st', h') with
        | (Ok q, _) => (Ok tt, (st', mk_thouse h' (Some q)))
        | (Throw e, _) => (Throw e, (st', mk_thouse h' (t_Q t)))
        | (Undef u, _) => (Undef u, (st', mk_thouse h' (t_Q t)))
        | (NoFuel, _) => (NoFuel, (st', mk_thouse h' (t_Q t)))
        end
    | (Throw e, (st', h')) => (Throw e, (st', mk_thouse h' (t_Q t)))
    | (Undef u, (st', h')) => (Undef u, (st', mk_thouse h' (t_Q t)))
    | (NoFuel, (st', h')) => (NoFuel, (st', mk_thouse h' (t_Q t)))
    end.
  (* 284-286 *)
  Definition q_factor_t : cmd tst (dmat S) := fun '(st, t) =>
    match t_Q t with Some q => (Ok q, (st, t)) | None => (Undef UNullDeref, (st, t)) end.
  (* 271-277 *)
  Definition apply_qt_thouse (vin vout : list S) : cmd tst (list S) := fun '(st, t) =>
    match t_Q t with
    | None => (Undef UNullDeref, (st, t))
    | Some q => if (length vin =? dm_rows q) && (length vout =? dm_ncols q)
                then (Ok (map (fun c => sum_products o c vin) (dm_cols q)), (st, t))
                else (Undef UOutOfBounds, (st, t))
    end.
  (* 279-282 *)
  Definition solve_thouse (rhs y : list S) : cmd tst (list S) := fun '(st, t) =>
    let '(r, (st', h')) := solve_house rhs y (st, t_impl t) in (r, (st', mk_thouse h' (t_Q t))).
End House.

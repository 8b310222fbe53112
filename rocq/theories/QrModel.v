(** Model of the modified Gram-Schmidt QR factorisation:
    include/pressio/solvers_nonlinear/impl/qr/qr_tpetra_impl.hpp 453-537
    (ModGramSchmidtMVTpetra). *)
From Coq Require Import ZArith List Bool.
From Verif Require Import Base.
Import ListNotations.

(** Element access by index; [None]: out of bounds. *)
(* model only *)
Fixpoint lset {A} (k : nat) (x : A) (l : list A) : option (list A) :=
  match k, l with
  | _, [] => None
  | O, _ :: t => Some (x :: t)
  | Datatypes.S k', a :: t => match lset k' x t with Some t' => Some (a :: t') | None => None end
  end.
(* model only *)
Definition bounded {G A} (x : option A) : cmd G A := match x with Some a => ret a | None => undef UOutOfBounds end.

(** 533-535: the data members Qmat_ (null before the first factorisation) and localR_ (a
    list of rows); [mg_A] is the caller's matrix, which line 472 makes writable. Matrices
    A and Q are lists of columns. The row map of A is the type [V], so every matrix
    handed to one object has the same map; Tpetra's checks of the column index are not
    modelled: access out of bounds is undefined. *)
Record mgs (S V : Type) := mk_mgs { mg_A : list V; mg_Q : option (list V); mg_R : list (list S) }.
Arguments mk_mgs {S V}. Arguments mg_A {S V}. Arguments mg_Q {S V}. Arguments mg_R {S V}.
(** 467: an object as constructed, about to factorise A *)
Definition new_mgs {S V} (A : list V) : mgs S V := mk_mgs A None [].

Section Mgs.
  Context {S V : Type}.
  Variable o : sops S.
  Variable vo : vops S V.
  Variable dot : V -> V -> S.      (* Tpetra::Vector::dot *)
  Variable norm : V -> S.          (* Tpetra::Vector::norm2 *)
  Notation st := (mgs S V).
  Notation "x <- c ;; k" := (bind c (fun x => k)) (at level 61, c at next level, right associativity).
  Notation "c ;;; k" := (bind c (fun _ => k)) (at level 61, right associativity).

  (* 482, 490 *)
  Definition get_col (k : nat) : cmd st V := fun s => bounded (nth_error (mg_A s) k) s.
  (* 492 *)
  Definition set_col (k : nat) (v : V) : cmd st unit := fun s =>
    match lset k v (mg_A s) with Some a => (Ok tt, mk_mgs a (mg_Q s) (mg_R s)) | None => (Undef UOutOfBounds, s) end.
  (** 486-487: Qmat_->getVectorNonConst(k), written through *)
  Definition set_q (k : nat) (v : V) : cmd st unit := fun s =>
    match mg_Q s with
    | None => (Undef UNullDeref, s)
    | Some q => match lset k v q with
                | Some q' => (Ok tt, mk_mgs (mg_A s) (Some q') (mg_R s))
                | None => (Undef UOutOfBounds, s)
                end
    end.
  (** 483, 491: localR_(k,j) = x *)
  Definition set_r (k j : nat) (x : S) : cmd st unit := fun s =>
    match nth_error (mg_R s) k with
    | None => (Undef UOutOfBounds, s)
    | Some row => match lset j x row with
                  | None => (Undef UOutOfBounds, s)
                  | Some row' => match lset k row' (mg_R s) with
                                 | Some m => (Ok tt, mk_mgs (mg_A s) (mg_Q s) m)
                                 | None => (Undef UOutOfBounds, s)
                                 end
                  end
    end.
  (** 517-524 *)
  Definition create_r (n : nat) : cmd st unit := fun s =>
    let ext0 := length (mg_R s) in
    let ext1 := match mg_R s with [] => O | row :: _ => length row end in
    if Nat.eqb ext0 n && Nat.eqb ext1 n then (Ok tt, s)
    else (Ok tt, mk_mgs (mg_A s) (mg_Q s) (repeat (repeat (s0 o) n) n)).
  (** 526-530: an existing Q is kept whatever its number of columns *)
  Definition create_q (n : nat) : cmd st unit := fun s =>
    match mg_Q s with
    | None => (Ok tt, mk_mgs (mg_A s) (Some (repeat (vzero vo) n)) (mg_R s))
    | Some _ => (Ok tt, s)
    end.
  (** 489-493, for j, ..., j + m - 1. update with second coefficient 0 or 1: 487, 492 *)
  Fixpoint inner_loop (k : nat) (qk : V) (j m : nat) : cmd st unit :=
    match m with
    | O => ret tt
    | Datatypes.S m' =>
        aj <- get_col j;;
        set_r k j (dot qk aj);;;
        set_col j (vadd vo (vscale vo (sopp o (dot qk aj)) qk) (vscale vo (s1 o) aj));;;
        inner_loop k qk (Datatypes.S j) m'
    end.
  (** 480-494, for k, ..., k + m - 1 *)
  Fixpoint outer_loop (k m : nat) : cmd st unit :=
    match m with
    | O => ret tt
    | Datatypes.S m' =>
        ak <- get_col k;;
        set_r k k (norm ak);;;
        let qk := vscale vo (sdiv o (s1 o) (norm ak)) ak in
        set_q k qk;;;
        inner_loop k qk (Datatypes.S k) m';;;
        outer_loop (Datatypes.S k) m'
    end.
  (** 470-495 *)
  Definition compute_thin : cmd st unit := fun s =>
    let n := length (mg_A s) in
    (create_q n;;; create_r n;;; outer_loop O n) s.
  (** 504-510: vecOut has one entry per column of Q. *)
  Definition apply_qt (Q : list V) (r : V) : list S := map (fun q => dot q r) Q.
  (** 497-502: Eigen's triangularView<Upper>().solve, by back substitution: row [i] of R
      starts with [i] entries that are not read. *)
  Fixpoint sum_products (a b : list S) : S :=
    match a, b with
    | x :: a', y :: b' => sadd o (smul o x y) (sum_products a' b')
    | _, _ => s0 o
    end.
  (* 501 (external) *)
  Fixpoint back_subst (i : nat) (R : list (list S)) (b : list S) : list S :=
    match R, b with
    | row :: R', x :: b' =>
        let y := back_subst (Datatypes.S i) R' b' in
        match skipn i row with
        | d :: rest => sdiv o (ssub o x (sum_products rest y)) d :: y
        | [] => []
        end
    | _, _ => []
    end.
  (* 497-502 *)
  Definition do_lin_solve (R : list (list S)) (b : list S) : list S := back_subst O R b.
End Mgs.

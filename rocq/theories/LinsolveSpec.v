(** Vocabulary for the properties of the linear solver objects. *)
From Coq Require Import ZArith List Bool Arith.
From Verif Require Import Base LinsolveModel.
Import ListNotations.

Section Spec.
  Context {S : Type} (o : sops S).

  (** f k + ... + f (k+m-1) *)
  Fixpoint ssum (m k : nat) (f : nat -> S) : S :=
    match m with
    | 0 => s0 o
    | Datatypes.S m => sadd o (f k) (ssum m (Datatypes.S k) f)
    end.

  (** A y = b, for the leading n x n block *)
  Definition solves (n : nat) (A : nat -> nat -> S) (y b : nat -> S) : Prop :=
    forall i, i < n -> ssum n 0 (fun j => smul o (A i j) (y j)) = b i.
  (** U y = b, where U is the upper triangle of A *)
  Definition upper_solves (n : nat) (A : nat -> nat -> S) (y b : nat -> S) : Prop :=
    forall i, i < n -> ssum (n - i) i (fun j => smul o (A i j) (y j)) = b i.
  (** only the zero vector is mapped to zero *)
  Definition nonsingular (n : nat) (A : nat -> nat -> S) : Prop :=
    forall y, solves n A y (fun _ => s0 o) -> forall i, i < n -> y i = s0 o.
  (** the symmetric matrix that the upper (lower) triangle of A stands for *)
  Definition symm (up : bool) (A : nat -> nat -> S) : nat -> nat -> S :=
    fun i j => if up then A (Nat.min i j) (Nat.max i j) else A (Nat.max i j) (Nat.min i j).
  Definition symmetric (n : nat) (A : nat -> nat -> S) : Prop :=
    forall i j, i < n -> j < n -> A i j = A j i.
  (** y' A y > 0 for every y <> 0 *)
  Definition positive_definite (n : nat) (A : nat -> nat -> S) : Prop :=
    forall y, (exists i, i < n /\ y i <> s0 o) ->
      sltb o (s0 o) (ssum n 0 (fun i => smul o (y i) (ssum n 0 (fun j => smul o (A i j) (y j))))) = true.

  (** What the documentation of LAPACK and BLAS promises, in exact arithmetic. *)
  Record lapack_ok (lp : lapack S) : Prop := {
    (* a query reports a size that is large enough *)
    lo_optimal : forall n, Nat.max 1 n <= lp_optimal lp n;
    (* A = Q R with Q orthogonal: R is left in the upper triangle, ORMQR computes
       Q' b from the reflectors *)
    lo_qr : forall n A d t, lp_geqrf lp n A = (d, t) ->
      length t = n /\
      (forall y b, upper_solves n d y (lp_ormqr lp n d t b) <-> solves n A y b) /\
      (forall i, i < n -> lp_ormqr lp n d t (fun _ => s0 o) i = s0 o);
    (* a reflector with tau = 0 is the identity, and so is the last one *)
    lo_identity : forall n d b i, i < n -> lp_ormqr lp n d (repeat (s0 o) n) b i = b i;
    lo_last : forall A, snd (lp_geqrf lp 1 A) = [s0 o];
    (* TRSM solves non singular triangular systems *)
    lo_trsm : forall n d b,
      (forall y, upper_solves n d y (fun _ => s0 o) -> forall i, i < n -> y i = s0 o) ->
      upper_solves n d (lp_trsm lp n d b) b;
    (* LU: info = 0 exactly for non singular matrices *)
    lo_getrf : forall n A d p info, lp_getrf lp n A = (d, p, info) ->
      (info = 0%Z <-> nonsingular n A) /\
      (info = 0%Z -> forall b, solves n A (lp_getrs lp n d p b) b);
    (* Cholesky: only one triangle is read; info = 0 for positive definite
       matrices, and after info = 0 POTRS solves the system *)
    lo_potrf : forall up n A d info, lp_potrf lp up n A = (d, info) ->
      (positive_definite n (symm up A) -> info = 0%Z) /\
      (info = 0%Z -> forall b, solves n (symm up A) (lp_potrs lp up n d b) b)
  }.

  (** A is n x n and b, y have n entries; not empty. *)
  Definition sized (n : nat) (A : mtx S) (b y : vct S) : Prop :=
    0 < n /\ rows A = n /\ cols A = n /\ size b = n /\ size y = n.

  (** a call of [solve] ends normally and y solves the system *)
  Definition solved {X} (r : ran (X * vct S)) (n : nat) (A : mtx S) (b : vct S) : Prop :=
    exists x y, r = Done (x, y) /\ size y = n /\ solves n (ent A) (at_ y) (at_ b).
End Spec.

(** Scripts for the Eigen based objects: everything that can happen to a solver
    object and to the caller's matrices, which live at addresses. *)
Inductive use (S M : Type) :=
| UReset (a : nat)              (* resetLinearSystem(A), A at address a *)
| USolve (b : vct S)            (* solve(b, y) *)
| UMax (n : nat)                (* setMaxIterations(n) (iterative solvers) *)
| UWrite (a : nat) (A : M)      (* the caller assigns to its matrix *)
| USolve3 (a : nat) (b : vct S). (* solve(A, b, y), A at address a *)
Arguments UReset {S M} a. Arguments USolve {S M} b.
Arguments UMax {S M} n. Arguments UWrite {S M} a A. Arguments USolve3 {S M} a b.

Section Scripts.
  Context {S M F P : Type}.
  Definition memory := nat -> option M.
  Definition write (m : memory) (a : nat) (A : M) : memory :=
    fun x => if x =? a then Some A else m x.

  (** the caller's memory after a script *)
  Fixpoint after (m : memory) (l : list (use S M)) : memory :=
    match l with
    | [] => m
    | UWrite a A :: l => after (write m a A) l
    | _ :: l => after m l
    end.
  (** the address given to the last resetLinearSystem or solve(A, b, y), with the matrix that was
      there at that time *)
  Fixpoint last_reset (m : memory) (l : list (use S M)) (r : option (nat * option M))
    : option (nat * option M) :=
    match l with
    | [] => r
    | UReset a :: l | USolve3 a _ :: l => last_reset m l (Some (a, m a))
    | UWrite a A :: l => last_reset (write m a A) l r
    | _ :: l => last_reset m l r
    end.
  (** the limit last set *)
  Fixpoint limit (l : list (use S M)) (n : nat) : nat :=
    match l with
    | [] => n
    | UMax k :: l => limit l k
    | _ :: l => limit l n
    end.

  Variable d_compute : M -> F.
  Variable d_solve : F -> vct S -> vct S.
  Variable i_prec : M -> P.
  Variable i_solve : nat -> M -> P -> vct S -> vct S * nat * S.

  (** a script executed with a direct solver object *)
  Fixpoint d_run (m : memory) (s : dobj (F:=F)) (l : list (use S M)) : ran (dobj (F:=F)) :=
    match l with
    | [] => Done s
    | UReset a :: l =>
        match m a with None => Undefd UDangling | Some A => d_run m (d_reset d_compute s A) l end
    | USolve b :: l => andthen (d_solve2 d_solve s b b) (fun _ => d_run m s l)
    | UMax _ :: l => d_run m s l
    | UWrite a A :: l => d_run (write m a A) s l
    | USolve3 a b :: l =>
        match m a with
        | None => Undefd UDangling
        | Some A => let '(y, s) := d_solve3 d_compute d_solve s A b b in andthen y (fun _ => d_run m s l)
        end
    end.
  (** ... with an iterative one *)
  Fixpoint i_run (m : memory) (s : iobj S P) (l : list (use S M)) : ran (iobj S P) :=
    match l with
    | [] => Done s
    | UReset a :: l => andthen (i_reset i_prec m s a) (fun s => i_run m s l)
    | USolve b :: l => andthen (i_solve2 i_solve m s b b) (fun r => i_run m (fst r) l)
    | UMax n :: l => i_run m (i_set_max s n) l
    | USolve3 a b :: l => andthen (i_solve3 i_prec i_solve m s a b b) (fun r => i_run m (fst r) l)
    | UWrite a A :: l => i_run (write m a A) s l
    end.
End Scripts.

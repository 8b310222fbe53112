(** Vocabulary for the matrix-free linear solver object: histories of calls and of
    changes of the caller's operators. *)
From Coq Require Import ZArith List Bool Arith.
From Verif Require Import Base LinsolveModel LinsolveMf LinsolveSpec.
Import ListNotations.

Inductive mfuse (S : Type) :=
| FReset (a : nat)                     (* resetLinearSystem(A), A at address a *)
| FSolve (b : vct S)                   (* solve(b, y) *)
| FSolve3 (a : nat) (b : vct S)        (* solve(A, b, y), A at address a *)
| FMax (n : nat)                       (* setMaxIterations(n) *)
| FPut (a : nat) (c : option (lop S)). (* the caller creates, changes or destroys (None) an operator *)
Arguments FReset {S} a. Arguments FSolve {S} b. Arguments FSolve3 {S} a b.
Arguments FMax {S} n. Arguments FPut {S} a c.

Section Scripts.
  Context {S : Type} (o : sops S).
  Variable g_solve : nat -> (vct S -> vct S) -> vct S -> vct S * nat * S.

  Definition lput (m : nat -> option (lop S)) (a : nat) (c : option (lop S)) : nat -> option (lop S) :=
    fun x => if x =? a then c else m x.
  (** the caller's operators after a history *)
  Fixpoint ops_after (m : nat -> option (lop S)) (l : list (mfuse S)) : nat -> option (lop S) :=
    match l with
    | [] => m
    | FPut a c :: l => ops_after (lput m a c) l
    | _ :: l => ops_after m l
    end.
  (** the address last given to resetLinearSystem or solve(A, b, y) *)
  Fixpoint last_given (l : list (mfuse S)) (r : option nat) : option nat :=
    match l with
    | [] => r
    | FReset a :: l | FSolve3 a _ :: l => last_given l (Some a)
    | _ :: l => last_given l r
    end.
  (** the limit last set *)
  Fixpoint last_limit (l : list (mfuse S)) (n : nat) : nat :=
    match l with
    | [] => n
    | FMax k :: l => last_limit l k
    | _ :: l => last_limit l n
    end.
  (** a history executed *)
  Fixpoint mo_run (m : nat -> option (lop S)) (s : mfobj S) (l : list (mfuse S)) : ran (mfobj S) :=
    match l with
    | [] => Done s
    | FReset a :: l => andthen (mo_reset m s a) (fun s => mo_run m s l)
    | FSolve b :: l => andthen (mo_solve2 o g_solve m s b b) (fun r => mo_run m (fst r) l)
    | FSolve3 a b :: l => andthen (mo_solve3 o g_solve m s a b b) (fun r => mo_run m (fst r) l)
    | FMax n :: l => mo_run m (mo_set_max s n) l
    | FPut a c :: l => mo_run (lput m a c) s l
    end.

  (** the call r ended with what the native solver gives for the operator A, the right
      hand side b and at most k iterations *)
  Definition answered (k : nat) (A : lop S) (b : vct S) (r : ran (mfobj S * vct S)) : Prop :=
    exists s2 x n e, r = Done (s2, x) /\ g_solve k (product o A) b = (x, n, e) /\
      mo_limit s2 = k /\ mo_iterations s2 = Done n /\ mo_error s2 = Done e.

  (** the operator stands for the n x n matrix M: applyAndAddTo adds M x *)
  Definition stands_for (A : lop S) (n : nat) (M : nat -> nat -> S) : Prop :=
    lo_rows A = n /\ forall x out i, i < n ->
      at_ (lo_apply A x out) i = sadd o (at_ out i) (ssum o n 0 (fun j => smul o (M i j) (at_ x j))).
  (** the native solver solves nonsingular systems that it knows by products only *)
  Definition exact_krylov : Prop := forall k n M f b,
    (forall x i, i < n -> at_ (f x) i = ssum o n 0 (fun j => smul o (M i j) (at_ x j))) ->
    nonsingular o n M -> size b = n -> n <= k ->
    solves o n M (at_ (fst (fst (g_solve k f b)))) (at_ b).
End Scripts.

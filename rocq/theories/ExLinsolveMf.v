(** The hypotheses of C72 for the matrix-free solver are met by a concrete case: a
    native solver that finds the matrix by products with unit vectors and then
    uses Householder QR, over the reals. *)
From Coq Require Import Reals Lra List Arith Lia Bool ZArith.
From Verif Require Import Base RInst Laws LawInst LinsolveModel LinsolveMf LinsolveSpec LinsolveMfSpec
  LinsolveProofs LapackInst ExLinsolve PropLinsolveMf.
Import ListNotations.
Local Open Scope R_scope.

Definition unit_vector (n j : nat) : vct R := mk_vct n (fun i => if (i =? j)%nat then 1 else 0).
Definition ex_krylov (k : nat) (f : vct R -> vct R) (b : vct R) : vct R * nat * R :=
  let n := size b in
  (mk_vct n (qr_solve n (fun i j => at_ (f (unit_vector n j)) i) (at_ b)), Nat.min k n, 0).

Lemma ssum_ext : forall m k (f g : nat -> R), (forall i, (k <= i < k + m)%nat -> f i = g i) ->
  ssum (Rops 0) m k f = ssum (Rops 0) m k g.
Proof.
  induction m as [|m IH]; intros k f g H; [reflexivity|]. cbn. f_equal; [apply H; lia|].
  apply IH. intros i Hi. apply H. lia.
Qed.
Lemma ssum_unit_0 : forall m k (f : nat -> R) j, (j < k)%nat ->
  ssum (Rops 0) m k (fun i => f i * (if (i =? j)%nat then 1 else 0)) = 0.
Proof.
  induction m as [|m IH]; intros k f j H; [reflexivity|]. cbn.
  replace (k =? j)%nat with false by (symmetry; apply Nat.eqb_neq; lia).
  rewrite IH by lia. lra.
Qed.
Lemma ssum_unit : forall m k (f : nat -> R) j, (k <= j < k + m)%nat ->
  ssum (Rops 0) m k (fun i => f i * (if (i =? j)%nat then 1 else 0)) = f j.
Proof.
  induction m as [|m IH]; intros k f j H; [lia|]. cbn. destruct (k =? j)%nat eqn:E.
  - apply Nat.eqb_eq in E. subst j. rewrite ssum_unit_0 by lia. lra.
  - apply Nat.eqb_neq in E. rewrite IH by lia. lra.
Qed.
Lemma solves_ext : forall n M N y b, (forall i j, (i < n)%nat -> (j < n)%nat -> M i j = N i j) ->
  solves (Rops 0) n M y b -> solves (Rops 0) n N y b.
Proof.
  intros n M N y b H Hs i Hi. rewrite <- (Hs i Hi). apply ssum_ext. intros j Hj.
  rewrite (H i j) by lia. reflexivity.
Qed.

Lemma ex_exact : exact_krylov (Rops 0) ex_krylov.
Proof.
  intros k n M f b Hf HN Hb Hk. cbn. rewrite Hb.
  set (N := fun i j => at_ (f (unit_vector n j)) i).
  assert (forall i j, (i < n)%nat -> (j < n)%nat -> N i j = M i j) as E.
  { intros i j Hi Hj. unfold N. rewrite (Hf _ _ Hi). cbn. apply (ssum_unit n 0 (M i) j). lia. }
  apply (solves_ext n N M); [exact E|]. apply qr_solve_ok.
  intros y Hy. apply HN. exact (solves_ext n N M _ _ E Hy).
Qed.

(** the user's operator for a 2 x 2 matrix *)
Definition op2 (A : mtx R) : lop R :=
  mk_lop 2 (fun x out => mk_vct 2 (fun i => at_ out i + ssum (Rops 0) 2 0 (fun j => ent A i j * at_ x j))).
Lemma op2_stands : forall A, stands_for (Rops 0) (op2 A) 2 (ent A).
Proof. intros A. split; [reflexivity|]. intros x out i Hi. reflexivity. Qed.

Definition ex_ops : nat -> option (lop R) := fun a => if (a =? 0)%nat then Some (op2 (m2 2 1 1 3)) else None.
(** an operator is created, used, changed and destroyed; the limit is lowered *)
Definition ex_history : list (mfuse R) :=
  [FPut 1 (Some (op2 (m2 1 0 0 1))); FReset 1; FSolve (v2 1 2); FPut 1 (Some (op2 (m2 1 1 0 1)));
   FSolve (v2 3 4); FMax 5; FSolve3 0 (v2 1 1); FPut 1 None].

(** the object after the history *)
Definition ex_state : mfobj R := mk_mfobj 5 (Some 0%nat) true (Some 5%nat) (Some (2%nat, 0)).
Lemma ex_ran : mo_run (Rops 0) ex_krylov ex_ops mo_new ex_history = Done ex_state.
Proof. reflexivity. Qed.
Lemma ex_ran_destroyed : mo_run (Rops 0) ex_krylov ex_ops mo_new (ex_history ++ [FPut 0 None]) = Done ex_state.
Proof. reflexivity. Qed.

Example ex_C72_matrix_free :
  answered (Rops 0) ex_krylov 5 (op2 (m2 2 1 1 3)) (v2 5 10)
    (mo_solve2 (Rops 0) ex_krylov (ops_after ex_ops ex_history) ex_state (v2 5 10) (v2 0 0)).
Proof. exact (C72_matrix_free R (Rops 0) ex_krylov ex_history ex_ops ex_state 0%nat (v2 5 10) (v2 0 0) ex_ran eq_refl). Qed.
(** ... and when the last operator has been destroyed *)
Example ex_C72_matrix_free_destroyed :
  mo_solve2 (Rops 0) ex_krylov (ops_after ex_ops (ex_history ++ [FPut 0 None])) ex_state (v2 5 10) (v2 0 0) = Undefd UDangling.
Proof.
  exact (C72_matrix_free R (Rops 0) ex_krylov (ex_history ++ [FPut 0 None]) ex_ops ex_state 0%nat (v2 5 10) (v2 0 0)
           ex_ran_destroyed eq_refl).
Qed.
Example ex_C72_matrix_free_nothing :
  mo_solve2 (Rops 0) ex_krylov ex_ops (mo_set_max mo_new 5) (v2 5 10) (v2 0 0) = Undefd UUninitialized.
Proof. exact (C72_matrix_free_nothing_given R (Rops 0) ex_krylov [FMax 5] ex_ops _ _ _ eq_refl eq_refl). Qed.
Example ex_C72_matrix_free_solves :
  exists s2 x, mo_solve3 (Rops 0) ex_krylov (ops_after ex_ops ex_history) ex_state 0 (v2 5 10) (v2 0 0) = Done (s2, x) /\
    solves (Rops 0) 2 (ent (m2 2 1 1 3)) (at_ x) (at_ (v2 5 10)).
Proof.
  apply (C72_matrix_free_solves R (Rops 0) ex_krylov ex_history ex_ops ex_state 0%nat (op2 (m2 2 1 1 3)));
    [apply R_field|exact ex_exact|apply op2_stands|exact ex_nonsingular|exact ex_ran|reflexivity|reflexivity|].
  change (2 <= 5)%nat. lia.
Qed.
Example ex_C72_matrix_free_with_operator :
  answered (Rops 0) ex_krylov 5 (op2 (m2 2 1 1 3)) (v2 5 10)
    (mo_solve3 (Rops 0) ex_krylov (ops_after ex_ops ex_history) ex_state 0 (v2 5 10) (v2 0 0)).
Proof.
  exact (C72_matrix_free_with_operator R (Rops 0) ex_krylov ex_history ex_ops ex_state 0%nat _ (v2 5 10) (v2 0 0) ex_ran eq_refl).
Qed.

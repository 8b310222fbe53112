(** The hypotheses of C70 - C72 are met by concrete cases: Householder QR over
    the reals stands for LAPACK. *)
From Coq Require Import Reals Lra List Arith Lia Bool ZArith.
From Verif Require Import Base RInst Laws LawInst LinsolveModel LinsolveSpec LinsolveProofs
  LinsolveMore LapackInst PropLinsolve.
Import ListNotations.
Local Open Scope R_scope.

Definition m2 (a b c d : R) : mtx R :=
  mk_mtx 2 2 (fun i j => if (i =? 0)%nat then if (j =? 0)%nat then a else b
                         else if (j =? 0)%nat then c else d).
Definition v2 (a b : R) : vct R := mk_vct 2 (fun i => if (i =? 0)%nat then a else b).

Example ex_lapack : lapack_ok (Rops 0) (Rlp 32 false).
Proof. apply Rlp_ok. Qed.

Lemma ex_nonsingular : nonsingular (Rops 0) 2 (ent (m2 2 1 1 3)).
Proof.
  intros y Hy i Hi. pose proof (Hy 0%nat ltac:(lia)) as H0. pose proof (Hy 1%nat ltac:(lia)) as H1.
  cbn in H0, H1. assert (i = 0 \/ i = 1)%nat as [-> | ->] by lia; cbn; lra.
Qed.
Lemma ex_symmetric : symmetric 2 (ent (m2 2 1 1 3)).
Proof.
  intros i j Hi Hj. assert (i = 0 \/ i = 1)%nat as [-> | ->] by lia;
    assert (j = 0 \/ j = 1)%nat as [-> | ->] by lia; reflexivity.
Qed.
Lemma ex_pd : positive_definite (Rops 0) 2 (ent (m2 2 1 1 3)).
Proof.
  intros y (i & Hi & Hne). cbn. apply Rltb_true.
  assert (y 0%nat <> 0 \/ y 1%nat <> 0) as H.
  { assert (i = 0 \/ i = 1)%nat as [-> | ->] by lia; auto. }
  set (a := y 0%nat) in *. set (b := y 1%nat) in *.
  replace (a * (2 * a + (1 * b + 0)) + (b * (1 * a + (3 * b + 0)) + 0))
    with (a * a + (a + b) * (a + b) + 2 * (b * b)) by ring.
  pose proof (Rle_0_sqr a) as Ha. pose proof (Rle_0_sqr b) as Hb.
  pose proof (Rle_0_sqr (a + b)) as Hab. unfold Rsqr in *.
  destruct H as [H|H]; [assert (0 < a * a) by (apply Rsqr_pos_lt; exact H)
                       |assert (0 < b * b) by (apply Rsqr_pos_lt; exact H)]; lra.
Qed.

(** an object that was used before for a 1 x 1 matrix *)
Example ex_C70_getrs :
  solved (Rops 0) (getrs_solve (Rops 0) (Rlp 32 false) true (mk_mtx 1 1 (fun _ _ => 5))
                     (m2 2 1 1 3) (v2 5 10) (v2 0 0)) 2 (m2 2 1 1 3) (v2 5 10).
Proof. apply C70_getrs; [apply Rlp_ok|repeat split; lia|exact ex_nonsingular]. Qed.
Example ex_C70_potrs : forall up,
  solved (Rops 0) (potrs_solve (Rops 0) (Rlp 32 false) true up (mk_mtx 1 1 (fun _ _ => 5))
                     (m2 2 1 1 3) (v2 5 10) (v2 0 0)) 2 (m2 2 1 1 3) (v2 5 10).
Proof. intros up. apply C70_potrs; [apply Rlp_ok|repeat split; lia|exact ex_symmetric|exact ex_pd]. Qed.
(** the solution of that system is (1, 3) *)
Example ex_unique : forall y, solves (Rops 0) 2 (ent (m2 2 1 1 3)) y (at_ (v2 5 10)) ->
  y 0%nat = 1 /\ y 1%nat = 3.
Proof.
  intros y Hy. pose proof (Hy 0%nat ltac:(lia)) as H0. pose proof (Hy 1%nat ltac:(lia)) as H1.
  cbn in H0, H1. lra.
Qed.

(** a 1 x 1 system, then a 2 x 2 one: within the workspace when the block size
    is 32 *)
Example ex_C70_geqrf : exists s,
  geqrf_run (Rops 0) (Rlp 32 false) true (gobj_new (Rops 0))
    [(wA0 (Rops 0), wb (Rops 0) 1, wb (Rops 0) 1); (m2 2 1 1 3, v2 1 1, v2 0 0)] = Done s /\
  solved (Rops 0) (geqrf_solve (Rops 0) (Rlp 32 false) true s (m2 2 1 1 3) (v2 5 10) (v2 0 0))
    2 (m2 2 1 1 3) (v2 5 10).
Proof.
  apply C70_geqrf_partial; [apply Rlp_ok| |cbn; lia|repeat split; lia|exact ex_nonsingular].
  constructor; [|constructor; [|constructor]].
  - split; [repeat split; cbn; lia|]. split; [exact (wA0_nonsingular (Rops 0) (R_field 0))|cbn; lia].
  - split; [repeat split; cbn; lia|]. split; [exact ex_nonsingular|cbn; lia].
Qed.
(** ... and a larger one afterwards fails: silently in a release build *)
Example ex_C70_refuted : exists A0 b0 y0 n A b y s,
  geqrf_run (Rops 0) (Rlp 32 false) false (gobj_new (Rops 0)) [(A0, b0, y0)] = Done s /\
  sized n A b y /\ nonsingular (Rops 0) n (ent A) /\
  exists s' y', geqrf_solve (Rops 0) (Rlp 32 false) false s A b y = Done (s', y') /\
    ~ solves (Rops 0) n (ent A) (at_ y') (at_ b).
Proof.
  destruct (C70_geqrf_refuted R (Rops 0) (Rlp 32 false) false (R_field 0) (Rlp_ok 32 false))
    as (A0 & b0 & y0 & n & A & b & y & s & H1 & _ & H3 & H4 & _ & _ & H7).
  exists A0, b0, y0, n, A, b, y, s. repeat split; try apply H3; auto.
Qed.

(** a singular matrix and a right hand side outside its range *)
Lemma ex_unsolvable : forall z, ~ solves (Rops 0) 2 (ent (m2 1 2 2 4)) z (at_ (v2 1 0)).
Proof.
  intros z Hz. pose proof (Hz 0%nat ltac:(lia)) as H0. pose proof (Hz 1%nat ltac:(lia)) as H1.
  cbn in H0, H1. lra.
Qed.
Example ex_C71_debug :
  getrs_solve (Rops 0) (Rlp 32 false) true (mk_mtx 0 0 (fun _ _ => 0)) (m2 1 2 2 4) (v2 1 0) (v2 0 0)
  = Stopped.
Proof. eapply C71_debug_partial; [apply Rlp_ok|repeat split; cbn; try lia|exact ex_unsolvable]. Qed.
Example ex_C71_refuted : exists n A b y, sized n A b y /\
  (forall z, ~ solves (Rops 0) n (ent A) z (at_ b)) /\
  (forall asserts, exists s' y',
     geqrf_solve (Rops 0) (Rlp 32 false) asserts (gobj_new (Rops 0)) A b y = Done (s', y')) /\
  (forall aux, exists s' y', getrs_solve (Rops 0) (Rlp 32 false) false aux A b y = Done (s', y')) /\
  (forall up aux, exists s' y', potrs_solve (Rops 0) (Rlp 32 false) false up aux A b y = Done (s', y')).
Proof. exact (C71_refuted R (Rops 0) (Rlp 32 false) (R_field 0) (Rlp_ok 32 false)). Qed.

(** Eigen: native solvers that are exact *)
Definition ex_compute (A : mtx R) := A.
Definition ex_dsolve (A : mtx R) (b : vct R) : vct R := mk_vct (rows A) (qr_solve (rows A) (ent A) (at_ b)).
Definition ex_isolve (k : nat) (A : mtx R) (p : unit) (b : vct R) : vct R * nat * R :=
  (ex_dsolve A b, Nat.min k (rows A), 0).
Definition ex_mem : memory (M:=mtx R) :=
  fun a => if (a =? 0)%nat then Some (m2 2 1 1 3) else None.
Definition ex_script : list (use R (mtx R)) :=
  [UReset 0; UMax 7; USolve (v2 1 1); UWrite 5 (m2 1 1 1 1)].

(** the caller's matrix is changed after the reset; a direct solver does not care *)
Example ex_C72_direct : exists s,
  d_run ex_compute ex_dsolve ex_mem d_new (ex_script ++ [UWrite 0 (m2 1 1 1 1)]) = Done s /\
  exists A', Some (m2 2 1 1 3) = Some A' /\
    d_solve2 ex_dsolve s (v2 5 10) (v2 0 0) = Done (ex_dsolve (ex_compute A') (v2 5 10)).
Proof.
  eexists. split; [reflexivity|].
  eapply (C72_direct _ _ _ ex_compute ex_dsolve (ex_script ++ [UWrite 0 (m2 1 1 1 1)]) ex_mem _ 0%nat);
    reflexivity.
Qed.
Example ex_C72_iterative : exists s,
  i_run (fun _ => tt) ex_isolve ex_mem i_new ex_script = Done s /\
  exists s2 x k, i_solve2 ex_isolve (after ex_mem ex_script) s (v2 5 10) (v2 0 0) = Done (s2, x) /\
    i_max s2 = 7%nat /\ i_iterations s2 = Done k /\ (k <= 7)%nat /\ i_error s2 = Done 0 /\
    x = ex_dsolve (m2 2 1 1 3) (v2 5 10).
Proof.
  eexists. split; [reflexivity|].
  eapply (C72_iterative_partial _ _ _ (fun _ => tt) ex_isolve ex_script ex_mem _ 0%nat (m2 2 1 1 3));
    try reflexivity. intros. cbn. lia.
Qed.
(** with earlier calls of solve(A, b, y), for another matrix *)
Definition ex_script3 : list (use R (mtx R)) := [UMax 4; UWrite 1 (m2 1 0 0 1); USolve3 1 (v2 1 2); USolve (v2 3 4)].
Example ex_C72_direct3 : exists s,
  d_run ex_compute ex_dsolve ex_mem d_new ex_script3 = Done s /\
  exists s2, d_solve3 ex_compute ex_dsolve s (m2 2 1 1 3) (v2 5 10) (v2 0 0) = (Done (ex_dsolve (ex_compute (m2 2 1 1 3)) (v2 5 10)), s2).
Proof.
  eexists. split; [reflexivity|].
  edestruct (C72_direct_with_matrix _ _ _ ex_compute ex_dsolve ex_script3 ex_mem) with (a := 0%nat) (A := m2 2 1 1 3) (b := v2 5 10) (y := v2 0 0)
    as (s2 & E & _); [reflexivity|reflexivity|]. exists s2. exact E.
Qed.
Example ex_C72_iterative3 : exists s,
  i_run (fun _ => tt) ex_isolve ex_mem i_new ex_script3 = Done s /\
  exists s2 x k, i_solve3 (fun _ => tt) ex_isolve (after ex_mem ex_script3) s 0 (v2 5 10) (v2 0 0) = Done (s2, x) /\
    i_max s2 = 4%nat /\ i_iterations s2 = Done k /\ (k <= 4)%nat /\ i_error s2 = Done 0 /\ x = ex_dsolve (m2 2 1 1 3) (v2 5 10).
Proof.
  eexists. split; [reflexivity|].
  eapply (C72_iterative_with_matrix _ _ _ (fun _ => tt) ex_isolve ex_script3 ex_mem _ 0%nat (m2 2 1 1 3));
    try reflexivity. intros. cbn. lia.
Qed.
Example ex_C72_refuted : exists (m : memory (M:=mtx R)) script A n b y s,
  last_reset m script None = Some (0%nat, Some A) /\ sized n A b b /\ nonsingular (Rops 0) n (ent A) /\
  i_run (fun _ => tt) ex_isolve m i_new script = Done s /\
  exists s2 x, i_solve2 ex_isolve (after m script) s b y = Done (s2, x) /\
    ~ solves (Rops 0) n (ent A) (at_ x) (at_ b).
Proof.
  apply C72_iterative_refuted; [apply R_field|].
  intros k n A p b (H0 & H1 & H2 & H3 & _) HN Hk. cbn. rewrite H1. apply qr_solve_ok. exact HN.
Qed.

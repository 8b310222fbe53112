(** Concrete cases that meet the hypotheses of C84. *)
From Coq Require Import List Arith Lia.
From Verif Require Import Base SolverObjects SolverObjectsSpec SolverObjectsClaims PropSolverObjects.
Import ListNotations.

(** A system is a number of residuals, a linear solver counts its uses, a weighting operator is a list that a move empties. The result of a
    solve tells which objects it worked with. *)
Definition exo_run (v : nat) (w : option (list nat * nat)) (l : nat) : outcome (nat * option (list nat * nat) * nat) * nat := (Ok (v, w, l), S l).
Definition exo_one := use_one (fun l : nat => (l, 0)) (fun w : list nat => (w, [])) (fun v : nat => v) (@length nat) exo_run.
Definition exo_all := use_all (fun l : nat => (l, 0)) (fun w : list nat => (w, [])) (fun v : nat => v) (@length nat) exo_run.
Definition exo_m0 : @mem nat nat (list nat) :=
  mk_mem (fun a => if Nat.ltb a 2 then Some (a + 3) else None) (fun a => Some (10 * a)) (fun _ => Some [7; 8]) (fun _ => None).
Definition exo_after u m := snd (exo_one u m).

(** Created with system 0, linear solver 1 and compact weighting operator 0; then the system is changed, the solver is used, copied, the copy is
    used and destroyed, the weighting operator changed *)
Definition exo_named := NCreate 4 CompactWeighted (Named nat 0) (Named nat 1) (Named (list nat) 0).
Definition exo_us : list (@nuse nat nat (list nat)) :=
  [NSystem 0 (Some 9); NSolve 4; NCopy 4 5; NSolve 5; NSolveWith 4 1; NDestroy 5; NWeigher 0 (Some [1; 2; 3])].
Example ex_named_history :
  Forall (keeps 4) exo_us /\ fst (exo_one exo_named exo_m0) = Ok None /\ fst (exo_all exo_us (exo_after exo_named exo_m0)) = Ok tt.
Proof. split; [repeat constructor; cbn; lia|split; reflexivity]. Qed.
(** The linear solver was used three times before; the buffers keep the size they were created with *)
Example ex_named_solve : exists m',
  exo_one (NSolve 4) (snd (exo_all exo_us (exo_after exo_named exo_m0))) = (Ok (Some (9, Some ([1; 2; 3], 2), 13)), m') /\
  only_linear (snd (exo_all exo_us (exo_after exo_named exo_m0))) m' 1 14.
Proof.
  apply (C84_named_objects nat nat (list nat) _ (fun l => (l, 0)) (fun w => (w, [])) (fun v => v) (@length nat) exo_run
    4 CompactWeighted 0 1 (Named (list nat) 0) exo_m0 (exo_after exo_named exo_m0) _ exo_us 3 [7; 8] 9 13 [1; 2; 3] (Ok (9, Some ([1; 2; 3], 2), 13)) 14);
    try reflexivity; try exact I. intros w; reflexivity. exact (proj1 ex_named_history).
Qed.
(** Another system, for a solver created from a temporary one *)
Definition exo_tsys := NCreate 4 Weighted (Temp nat 6) (Named nat 1) (Temp (list nat) [5]).
Example ex_other_solve : exists m',
  exo_one (NSolveWith 4 1) (exo_after exo_tsys exo_m0) = (Ok (Some (4, Some ([5], 6), 10)), m') /\ only_linear (exo_after exo_tsys exo_m0) m' 1 11.
Proof.
  apply (C84_other_system nat nat (list nat) _ (fun l => (l, 0)) (fun w => (w, [])) (fun v => v) (@length nat) exo_run
    4 Weighted (Temp nat 6) 1 (Temp (list nat) [5]) exo_m0 (exo_after exo_tsys exo_m0) _ [] 6 [5] 1 4 10 [5] (Ok (4, Some ([5], 6), 10)) 11);
    try reflexivity; try exact I. intros w; reflexivity. constructor.
Qed.
Example ex_temporary_system : exo_one (NSolve 4) (exo_after exo_tsys exo_m0) = (Undef UDangling, exo_after exo_tsys exo_m0).
Proof.
  eapply (C84_system_destroyed nat nat (list nat) _ (fun l => (l, 0)) (fun w => (w, [])) (fun v => v) (@length nat) exo_run
    4 Weighted (Temp nat 6) (Named nat 1) (Temp (list nat) [5]) exo_m0 _ _ []); [reflexivity|constructor|reflexivity|exact I].
Qed.
(** A temporary linear solver; all named linear solvers used meanwhile go *)
Definition exo_tlin := NCreate 4 Plain (Named nat 0) (Temp nat 100) (Temp (list nat) []).
Definition exo_between : list (@nuse nat nat (list nat)) := [NLinear 0 None; NLinear 1 None; NCopy 4 5; NSolve 5; NSolve 5].
Example ex_own_history :
  Forall (leaves 4) exo_between /\ fst (exo_all exo_between (exo_after exo_tlin exo_m0)) = Ok tt.
Proof. split; [repeat constructor; cbn; lia|reflexivity]. Qed.
Example ex_own_solve : exists m',
  exo_one (NSolve 4) (snd (exo_all exo_between (exo_after exo_tlin exo_m0))) = (Ok (Some (3, None, 100)), m') /\
  only_solver (snd (exo_all exo_between (exo_after exo_tlin exo_m0))) m' 4.
Proof.
  destruct (C84_temporary_linear_solver nat nat (list nat) _ (fun l => (l, 0)) (fun w => (w, [])) (fun v => v) (@length nat) exo_run
    4 Plain (Named nat 0) 100 (Temp (list nat) []) exo_m0 (exo_after exo_tlin exo_m0) (snd (exo_all exo_between (exo_after exo_tlin exo_m0))) exo_between
    3 [] 0 3 [] (Ok (3, None, 100)) 101 (NSolve 4) [] exo_m0 0 3 [] (Ok (3, None, 101)) 102 (NSolve 4)) as (m' & E & O & _);
    try reflexivity; try exact I; try (intros w; reflexivity); try (exact (proj1 ex_own_history)); [right; split; reflexivity|].
  exists m'. split; [exact E|exact O].
Qed.
(** The next solve finds it used once, the copy's uses notwithstanding *)
Example ex_own_twice : fst (exo_one (NSolve 4) (exo_after (NSolve 4) (snd (exo_all exo_between (exo_after exo_tlin exo_m0))))) = Ok (Some (3, None, 101)).
Proof. reflexivity. Qed.
(** Copies and moves; a moved-from solver works with what the move left *)
Example ex_copy : forall m2, m2 = snd (exo_all [NSolve 4; NSolve 4; NDestroy 4] (exo_after (NCopy 4 5) (exo_after exo_tlin exo_m0))) ->
  fst (exo_one (NSolve 5) m2) = fst (exo_one (NSolve 4) (exo_after exo_tlin exo_m0)).
Proof.
  intros m2 ->. eapply (C84_copy nat nat (list nat) _ (fun l => (l, 0)) (fun w => (w, [])) (fun v => v) (@length nat) exo_run 4 5
    (exo_after exo_tlin exo_m0) _ _ [NSolve 4; NSolve 4; NDestroy 4]); try reflexivity; [lia|repeat constructor; cbn; lia].
Qed.
Example ex_move : fst (exo_one (NSolve 5) (exo_after (NMove 4 5) (exo_after exo_tlin exo_m0))) = Ok (Some (3, None, 100)) /\
  fst (exo_one (NSolve 4) (exo_after (NMove 4 5) (exo_after exo_tlin exo_m0))) = Ok (Some (3, None, 0)).
Proof.
  split; [|erewrite (C84_moved_from nat nat (list nat) _ (fun l => (l, 0)) (fun w => (w, [])) (fun v => v) (@length nat) exo_run 4 5
    0 (Temp nat 100) (Temp (list nat) []) exo_m0 (exo_after exo_tlin exo_m0) _ 3 100); try reflexivity; [lia|intros w; reflexivity]].
  erewrite (C84_move nat nat (list nat) _ (fun l => (l, 0)) (fun w => (w, [])) (fun v => v) (@length nat) exo_run 4 5
    (exo_after exo_tlin exo_m0) _ _ []); try reflexivity; try (intros w; reflexivity); [lia|constructor].
Qed.
Example ex_linear_destroyed : fst (exo_one (NSolveWith 4 0) (exo_after (NLinear 1 None) (exo_after exo_named exo_m0))) = Undef UDangling.
Proof.
  erewrite (C84_linear_solver_destroyed nat nat (list nat) _ (fun l => (l, 0)) (fun w => (w, [])) (fun v => v) (@length nat) exo_run 4 CompactWeighted
    (Named nat 0) 1 (Named (list nat) 0) exo_m0 (exo_after exo_named exo_m0) _ [NLinear 1 None] 0 3); try reflexivity. repeat constructor.
Qed.

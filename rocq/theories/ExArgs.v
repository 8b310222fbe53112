(** Concrete cases meeting the hypotheses of the theorems in [PropArgs.v]. *)
From Coq Require Import ZArith List Bool QArith Qcanon.
From Verif Require Import Base QcInst AdvanceModel ArgsModel ArgsSpec ArgsRefute PropArgs.
Import ListNotations.
Local Open Scope Z_scope.

(** A named vector taken by value and a temporary that is only read. *)
Definition kept : list (arg (list Qc)) :=
  [mk_arg ByLvalue TakesValue [Q2Qc 3]; mk_arg ByRvalue TakesReference [Q2Qc 4]].
Example ex_C86_survive : Forall (survives (fun _ => [])) kept.
Proof. constructor; [left; reflexivity|]. constructor; [right; left; reflexivity|]. constructor. Qed.
Example ex_C86_n_steps :
  let r := advance_n_steps_args (fun _ => []) forced QcS plain 3 (Q2Qc 0) (Q2Qc 0, (tt, kept), []) in
  r = beside kept (advance_n_steps QcS (built_in forced plain [[Q2Qc 3]; [Q2Qc 4]]) 3 (Q2Qc 0) (Q2Qc 0, tt, []))
  /\ fst r = Ok tt /\ Qc_eq_bool (fst (fst (snd r))) (Q2Qc 21) = true.
Proof. split; [exact (C86_n_steps_partial _ _ _ _ _ _ _ _ _ ex_C86_survive _ _ _ _ _)|]. vm_compute. split; reflexivity. Qed.
Example ex_C86_retry :
  let r := to_target_args (fun _ => []) picky QcS retrying true 20 (Q2Qc 0) (Q2Qc 3) (Q2Qc 0, (tt, kept), []) in
  r = beside kept (to_target QcS (built_in picky retrying [[Q2Qc 3]; [Q2Qc 4]]) true 20 (Q2Qc 0) (Q2Qc 3) (Q2Qc 0, tt, []))
  /\ fst r = Ok tt /\ Qc_eq_bool (fst (fst (snd r))) (Q2Qc 21) = true.
Proof. split; [exact (C86_to_target_partial _ _ _ _ _ _ _ _ _ ex_C86_survive _ _ _ _ _ _ _)|]. vm_compute. split; reflexivity. Qed.

(** The temporary of the refutations: 7 after one step, still 7 after three. *)
Example ex_C86_lost : forall n, In n [1; 2; 3] ->
  let r := advance_n_steps_args (fun _ => []) forced QcS plain n (Q2Qc 0) (Q2Qc 0, (tt, temporary), []) in
  fst r = Ok tt /\ Qc_eq_bool (fst (fst (snd r))) (Q2Qc 7) = true.
Proof. intros n [<-|[<-|[<-|[]]]]; vm_compute; split; reflexivity. Qed.
Example ex_C86_received :
  map (received (fun _ => []) 0) temporary = [[Q2Qc 3; Q2Qc 4]] /\
  map (received (fun _ => []) 1) temporary = [[]] /\
  map (received (fun _ => []) 5) kept = [[Q2Qc 3]; [Q2Qc 4]].
Proof. repeat split. Qed.

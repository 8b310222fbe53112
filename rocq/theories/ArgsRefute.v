(** A temporary argument, taken by value, in runs of more than one stepper call. *)
From Coq Require Import ZArith List Bool QArith Qcanon.
From Verif Require Import Base QcInst AdvanceModel ArgsModel ArgsSpec.
Import ListNotations.
Local Open Scope Z_scope.

(** y := y + h * (sum of the forcing values), with the forcing in a vector that
    the stepper takes by value. *)
Definition forced (vals : list (list Qc)) (s t : Qc) (k : Z) (h : Qc) (w : unit) : outcome unit * (Qc * unit) :=
  (Ok tt, (Qcplus s (Qcmult h (fold_right Qcplus (Q2Qc 0) (concat vals))), w)).
(** The same, rejecting steps longer than 1. *)
Definition picky (vals : list (list Qc)) (s t : Qc) (k : Z) (h : Qc) (w : unit) : outcome unit * (Qc * unit) :=
  if sltb QcS (Q2Qc 1) h then (Throw ETimeStep, (s, w)) else forced vals s t k h w.
Definition plain : user Qc Qc unit :=
  mk_user noop_obs (const_pol (Q2Qc 1)) noop_guess (fun s _ _ _ w => (Ok tt, (s, w))).
Definition retrying : user Qc Qc unit :=
  mk_user noop_obs (fun _ _ _ w => (Ok (Q2Qc 2, Q2Qc (1 # 2), Q2Qc 2), w)) noop_guess
          (fun s _ _ _ w => (Ok tt, (s, w))).
Definition temporary : list (arg (list Qc)) := [mk_arg ByRvalue TakesValue [Q2Qc 3; Q2Qc 4]].

Lemma n_steps_temporaries :
  ~ (forall (body : list (list Qc) -> Qc -> Qc -> Z -> Qc -> unit -> outcome unit * (Qc * unit))
            (u : user Qc Qc unit) (args : list (arg (list Qc))) num start s w tr,
     forget (advance_n_steps_args (fun _ => []) body QcS u num start (s, (w, args), tr)) =
     advance_n_steps QcS (built_in body u (map a_val args)) num start (s, w, tr)).
Proof.
  intros H. specialize (H forced plain temporary 2 (Q2Qc 0) (Q2Qc 0) tt []).
  apply (f_equal (fun r => Qc_eq_bool (fst (fst (snd r))) (Q2Qc 14))) in H.
  vm_compute in H. discriminate.
Qed.
Lemma retry_temporaries :
  ~ (forall (body : list (list Qc) -> Qc -> Qc -> Z -> Qc -> unit -> outcome unit * (Qc * unit))
            (u : user Qc Qc unit) (args : list (arg (list Qc))) fuel start final s w tr e s' w' tr',
     to_target QcS (built_in body u (map a_val args)) true fuel start final (s, w, tr)
       = (e, (s', w', tr')) ->
     filter (fun c => match c with CPol _ _ => true | _ => false end) tr' = [CPol 1 start] ->
     forget (to_target_args (fun _ => []) body QcS u true fuel start final (s, (w, args), tr)) =
     (e, (s', w', tr'))).
Proof.
  intros H. specialize (H picky retrying temporary 10%nat (Q2Qc 0) (Q2Qc 1) (Q2Qc 0) tt []).
  destruct (to_target QcS (built_in picky retrying (map a_val temporary)) true 10 (Q2Qc 0) (Q2Qc 1) (Q2Qc 0, tt, []))
    as [e [[s' w'] tr']] eqn:E.
  specialize (H e s' w' tr' eq_refl).
  assert (F : filter (fun c => match c with CPol _ _ => true | _ => false end) tr' = [CPol 1 (Q2Qc 0)]).
  { apply (f_equal (fun r => snd (snd r))) in E. cbn [snd] in E. rewrite <- E. vm_compute. reflexivity. }
  specialize (H F). pose proof (eq_trans H (eq_sym E)) as K. clear H E F.
  apply (f_equal (fun r => Qc_eq_bool (fst (fst (snd r))) (Q2Qc 7))) in K.
  vm_compute in K. discriminate.
Qed.

(** Cases meeting the hypotheses of [PropSubspace.v]: 2 x 1 bases over the rationals. *)
From Coq Require Import ZArith QArith Qcanon List.
From Verif Require Import Base QcInst ExplicitExtra SubspaceModel SubspaceSpec SubspaceProofs SubspaceClaims.
Import ListNotations.

Definition q2 (a b : Z) : Qc * Qc := (q a, q b).
Definition sub_vo : vops Qc (Qc * Qc) :=
  mk_vops (q2 0 0) (fun v w => (fst v + fst w, snd v + snd w)%Qc) (fun a v => (a * fst v, a * snd v)%Qc).
Definition sub_prod (m : Qc * Qc) (x : Qc) : Qc * Qc := (fst m * x, snd m * x)%Qc.
Lemma sub_one : forall v, vscale sub_vo (s1 QcS) v = v.
Proof. intros [a b]. cbn [vscale sub_vo fst snd]. change (s1 QcS) with (1%Qc). f_equal; ring. Qed.
Definition sub_mem : mem := mk_mem [q2 1 2; q2 5 5] [q2 3 4; q2 7 7].

(** After creation the caller overwrites both arguments, and makes new cells. *)
Example ex_subspace_values : forall affine, exists s h1,
  sub_create sub_vo false false (q2 0 0) (q2 0 0) (LValue 0) (LValue 0) affine sub_mem = (Ok s, h1) /\
  exists h2, caller (all_m sub_mem) (all_v sub_mem) h1 [0; 1]%nat [3; 0; 1]%nat h2 /\
    m_at h2 0 (q2 9 9) /\ v_at h2 0 (q2 8 8) /\
    exists h3, sub_map QcS sub_vo sub_prod s (q 2) 1 h2 = (Ok tt, h3) /\
      v_at h3 1 (if affine then q2 5 8 else q2 2 4).
Proof.
  intros [|]; (eexists _, _; split; [reflexivity|]).
  - eexists. split.
    + eapply (caller_write_m _ _ _ 0%nat (q2 9 9)); [cbn; auto|cbn; auto with arith|].
      eapply (caller_write_v _ _ _ 0%nat (q2 8 8)); [cbn; auto|cbn; auto with arith|].
      eapply (caller_new_v _ _ _ (q2 0 0)). apply caller_done.
    + split; [reflexivity|]. split; [reflexivity|]. eexists. split; [reflexivity|].
      vm_compute. reflexivity.
  - eexists. split.
    + eapply (caller_write_m _ _ _ 0%nat (q2 9 9)); [cbn; auto|cbn; auto with arith|].
      eapply (caller_write_v _ _ _ 0%nat (q2 8 8)); [cbn; auto|cbn; auto with arith|].
      eapply (caller_new_v _ _ _ (q2 0 0)). apply caller_done.
    + split; [reflexivity|]. split; [reflexivity|]. eexists. split; [reflexivity|].
      vm_compute. reflexivity.
Qed.
(** The refutations are not vacuous. *)
Example ex_subspace_handles :
  ~ untouched sub_vo true true (q2 0 0) (q2 0 0) false /\
  ~ fixed QcS sub_vo sub_prod (fun _ => 1%nat) (fun _ => 2%nat) (fun _ => q 0) true true (q2 0 0) (q2 0 0) true.
Proof.
  split.
  - apply (views_untouched_not _ _ _ _ (q2 1 2) (q2 3 4)). intros E. apply (f_equal fst) in E. discriminate E.
  - apply (views_fixed_not _ _ _ _ _ _ _ _ _ sub_one (q2 1 2) (q 0) (q2 3 4) (q2 8 8)).
    intros E. apply (f_equal fst) in E. apply (f_equal this) in E. vm_compute in E. discriminate E.
Qed.

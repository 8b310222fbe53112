(** Cases meeting the hypotheses of [PropRecon.v]. *)
From Coq Require Import ZArith List Bool QArith Qcanon.
From Verif Require Import Base QcInst Laws LawInst ExplicitModel ImplicitModel ImplicitSpec LspgModel ReconModel ReconSpec ReconProofs
  ReconWitness PropRecon.
Import ListNotations.

(** y' = - y, three rows: the FOM and the writer meet the hypotheses and the pairs are written. *)
Example ex_recon :
  reconstructs QcS (fun w : rw_W => w) rw_recon
    (fun _ t dt y yn => (bdf1_R QcS rw_v yn dt (- y)%Qc y, scheme_J QcS rw_v (Q2Qc 1) (s1 QcS) dt (- Q2Qc 1)%Qc))
    true rw_rows [] (rw_run BDF1).
Proof.
  refine (C42_semi_discrete Qc Qc Qc rw_W QcS rw_v rw_v Qc_field (self_space QcS Qc_field) (self_space QcS Qc_field)
    (fun w => w) true (fun _ => True) rw_recon rw_fom (fun y _ => (- y)%Qc) (fun _ p _ => (- p)%Qc) rw_writer
    (fun y t r w _ => rw_rhs y t r w) (fun y p t j w _ => rw_jac y p t j w) rw_writes
    (Q2Qc 1) BDF1 1 rw_rows (Q2Qc 0) (Q2Qc 0) [] _ _ I).
  - discriminate.
  - intros r [<-|[<-|[<-|[]]]]; reflexivity.
Qed.
(** Residuals 1 - 1 + 1 and 3 - 1 + 3, Jacobians 1 + 1 *)
Example ex_recon_values :
  map (fun p => (fst (fst p), this (snd (fst p)), this (snd p))) (snd (rw_run BDF1)) =
  [(1%nat, 1%Q, 2%Q); (2%nat, 5%Q, 2%Q)].
Proof. vm_compute. reflexivity. Qed.
(** A fully discrete FOM: R = y - y_n + step, J = dt *)
Definition ex_dfom (step : Z) (t dt r phi : Qc) (jo : option Qc) (y : Qc) (older : list Qc) (w : rw_W)
  : outcome unit * (Qc * option Qc * rw_W) :=
  (Ok tt, ((y - hd (Q2Qc 0) older + Q2Qc (step # 1))%Qc, option_map (fun _ => dt) jo, w)).
Example ex_recon_discrete :
  reconstructs QcS (fun w : rw_W => w) rw_recon
    (fun i t dt y yn => ((y - yn + Q2Qc (Z.of_nat i # 1))%Qc, dt)) true rw_rows []
    (reconstruct QcS rw_recon (discrete_eval ex_dfom (Q2Qc 1)) rw_writer 1 (file_of rw_rows) (Q2Qc 0) (Q2Qc 0) []).
Proof.
  apply (C42_fully_discrete Qc Qc Qc Qc Qc rw_W QcS (fun w => w) true (fun _ => True) rw_recon ex_dfom (Q2Qc 1)
    (fun step t dt y yn => (y - yn + Q2Qc (step # 1))%Qc) (fun _ _ dt _ _ => dt) rw_writer).
  - intros. repeat split.
  - exact rw_writes.
  - discriminate.
  - intros r [<-|[<-|[<-|[]]]]; reflexivity.
  - exact I.
Qed.
(** The second row has two values, or none, in dimension one. *)
Example ex_long_row :
  reconstruct QcS rw_recon (semi_discrete_eval QcS rw_v rw_v rw_fom (Q2Qc 1) BDF1) rw_writer 1
    (Some [Numbers [Q2Qc 0; Q2Qc 1]; Numbers [Q2Qc 1; Q2Qc 1; Q2Qc 1]]) (Q2Qc 0) (Q2Qc 0) [] = (Undef UOutOfBounds, []).
Proof. apply C42_too_many_values_refuted with (l := Numbers [Q2Qc 1; Q2Qc 1; Q2Qc 1]); [right; left; reflexivity|cbn; auto]. Qed.
Example ex_short_row :
  fst (reconstruct QcS rw_recon (semi_discrete_eval QcS rw_v rw_v rw_fom (Q2Qc 1) BDF1) rw_writer 1
    (file_of [(Q2Qc 0, [Q2Qc 1]); (Q2Qc 1, [])]) (Q2Qc 0) (Q2Qc 0) []) = Undef UUninitialized.
Proof.
  apply C42_too_few_values_refuted with (good := fun _ => True); try (intros; split; [reflexivity|exact I]).
  - right. left. cbn. auto.
  - intros r [<-|[<-|[]]]; cbn; auto.
  - exact I.
Qed.
Example ex_export : write_matrix [[999999; -20]; [0; 7]]%Z = [[999999; -20]; [0; 7]]%Z.
Proof.
  apply C65_six_digits_partial. intros r [<-|[<-|[]]] n Hn; cbn in Hn;
  repeat (destruct Hn as [<-|Hn]; [reflexivity|]); contradiction.
Qed.
(** 1234565 is a tie, and goes to the even digit *)
Example ex_shown : map shown [1234565; -1234575; 9999995; 123456789]%Z = [1234560; -1234580; 10000000; 123457000]%Z.
Proof. vm_compute. reflexivity. Qed.

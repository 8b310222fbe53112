(** A scalar FOM y' = - y whose world is what was written. *)
From Coq Require Import ZArith List Bool QArith Qcanon.
From Verif Require Import Base QcInst Laws LawInst ExplicitModel ImplicitModel ImplicitSpec LspgModel ReconModel ReconSpec ReconProofs.
Import ListNotations.

Definition rw_W := list (nat * Qc * Qc).
Definition rw_v : vops Qc Qc := self_v QcS.
Definition rw_fom : sfom (S:=Qc) (Y:=Qc) (R:=Qc) (J:=Qc) (B:=Qc) (W:=rw_W) :=
  mk_sfom (fun y t r w => (Ok tt, ((- y)%Qc, w))) (fun y p t j w => (Ok tt, ((- p)%Qc, w))).
Definition rw_writer (i : nat) (r j : Qc) (w : rw_W) : outcome unit * rw_W := (Ok tt, w ++ [(i, r, j)]).
Definition rw_recon (x : list Qc) : Qc := hd (Q2Qc 0) x.
Definition rw_rows : list (Qc * list Qc) := [(Q2Qc 0, [Q2Qc 1]); (Q2Qc 1, [Q2Qc 1]); (Q2Qc 2, [Q2Qc 3])].
Definition rw_run (name : scheme) : outcome unit * rw_W :=
  reconstruct QcS rw_recon (semi_discrete_eval QcS rw_v rw_v rw_fom (Q2Qc 1) name) rw_writer 1 (file_of rw_rows) (Q2Qc 0) (Q2Qc 0) [].

Lemma rw_rhs y t r w : computes (fun w : rw_W => w) true (fun _ => True) w (fo_rhs rw_fom y t r w) (- y)%Qc.
Proof. repeat split. Qed.
Lemma rw_jac y p t j w : computes (fun w : rw_W => w) true (fun _ => True) w (fo_jac rw_fom y p t j w) (- p)%Qc.
Proof. repeat split. Qed.
Lemma rw_writes : writes (fun w : rw_W => w) true (fun _ => True) rw_writer.
Proof. intros i r j w _. repeat split. Qed.

(** Asked for BDF2, with three equidistant rows *)
Lemma scheme_refuted :
  ~ (forall x0 x1 x2 : Qc, exists e w,
     reconstruct QcS rw_recon (semi_discrete_eval QcS rw_v rw_v rw_fom (Q2Qc 1) BDF2) rw_writer 1
       (file_of [(Q2Qc 0, [x0]); (Q2Qc 1, [x1]); (Q2Qc 2, [x2])]) (Q2Qc 0) (Q2Qc 0) [] = (e, w) /\
     ((exists x, e = Throw x) \/
      (e = Ok tt /\ exists p j, w = [p; (2%nat, bdf2_R QcS rw_v x1 x0 (Q2Qc 1) (- x2)%Qc x2, j)]))).
Proof.
  intros H. destruct (H (Q2Qc 1) (Q2Qc 1) (Q2Qc 3)) as (e & w & E & [[x Hx]|(_ & p & j & Hw)]).
  - subst e. apply (f_equal fst) in E. vm_compute in E. discriminate E.
  - subst w. apply (f_equal (fun r => this (snd (fst (nth 1 (snd r) (0%nat, Q2Qc 0, Q2Qc 0)))))) in E.
    vm_compute in E. discriminate E.
Qed.

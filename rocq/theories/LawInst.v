(** The laws of [Laws.v] hold of the rationals and of the reals, with the scalars
    themselves, pairs and functions as vectors. *)
From Coq Require Import ZArith QArith Qcanon Reals Lra Lia Field Ring List.
From Verif Require Import Base QcInst RInst Laws.
Lemma Qc_field : sfield QcS.
Proof.
  unfold sfield. destruct Qcft as [A B C D]. split.
  - exact A.
  - exact B.
  - intros p q. unfold sinv. change (Qcdiv p q = Qcmult p (Qcdiv 1 q)). unfold Qcdiv. ring.
  - intros p H. unfold sinv. change (Qcmult (Qcdiv 1 p) p = 1)%Qc. transitivity (Qcmult (Qcinv p) p); [unfold Qcdiv; ring|].
    apply D. exact H.
Qed.
Lemma Qc_of_pos : forall p, s_of_pos QcS p = Q2Qc (Zpos p # 1).
Proof.
  induction p as [p IH|p IH|]; [| |reflexivity].
  - change (Qcplus (Qcplus (s_of_pos QcS p) (s_of_pos QcS p)) (Q2Qc 1) = Q2Qc (Z.pos p~1 # 1)).
    rewrite IH. apply Qc_is_canon. unfold Qcplus, Q2Qc, this. rewrite !Qred_correct.
    unfold Qeq, Qplus, Qnum, Qden. rewrite (Pos2Z.inj_xI p). cbn -[Z.mul Z.add]. lia.
  - change (Qcplus (s_of_pos QcS p) (s_of_pos QcS p) = Q2Qc (Z.pos p~0 # 1)).
    rewrite IH. apply Qc_is_canon. unfold Qcplus, Q2Qc, this. rewrite !Qred_correct.
    unfold Qeq, Qplus, Qnum, Qden. rewrite (Pos2Z.inj_xO p). cbn -[Z.mul Z.add]. lia.
Qed.
Lemma Qc_char0 : schar0 QcS.
Proof. intros p. rewrite Qc_of_pos. change (s0 QcS) with (Q2Qc 0). intros H. apply Q2Qc_eq_iff in H. discriminate H. Qed.

Lemma R_field eps : sfield (Rops eps).
Proof.
  unfold sfield. split.
  - exact (F_R Rfield).
  - exact R1_neq_R0.
  - intros p q. unfold sinv. change (p / q = p * (1 / q))%R. unfold Rdiv. ring.
  - intros p H. unfold sinv. change ((1 / p) * p = 1)%R. field. exact H.
Qed.
Lemma R_of_pos eps : forall p, s_of_pos (Rops eps) p = IZR (Zpos p).
Proof.
  induction p as [p IH|p IH|]; [| |reflexivity].
  - change ((s_of_pos (Rops eps) p + s_of_pos (Rops eps) p) + 1 = IZR (Z.pos p~1))%R.
    rewrite IH, (Pos2Z.inj_xI p), plus_IZR, mult_IZR. lra.
  - change (s_of_pos (Rops eps) p + s_of_pos (Rops eps) p = IZR (Z.pos p~0))%R.
    rewrite IH, (Pos2Z.inj_xO p), mult_IZR. lra.
Qed.
Lemma R_char0 eps : schar0 (Rops eps).
Proof. intros p. rewrite R_of_pos. apply IZR_neq. discriminate. Qed.

(** Scalars as one-dimensional vectors. *)
Definition self_v {S} (o : sops S) : vops S S := mk_vops (s0 o) (sadd o) (smul o).
Lemma self_space {S} (o : sops S) : sfield o -> vspace o (self_v o).
Proof.
  intros H. pose proof (F_R H) as R. destruct R as [A0 AC AA M1 MC MA DL SB OP].
  split; cbn; intros.
  - apply AC.
  - apply AA.
  - apply A0.
  - apply M1.
  - pose proof (DL (s0 o) (s0 o) x) as D. rewrite A0 in D.
    transitivity (sadd o (smul o (s0 o) x) (sadd o (smul o (s0 o) x) (sopp o (smul o (s0 o) x)))).
    + rewrite OP, (AC _ (s0 o)), A0. reflexivity.
    + rewrite AA, <- D, OP. reflexivity.
  - apply MA.
  - apply DL.
  - rewrite MC, DL, (MC x), (MC y). reflexivity.
Qed.

(** Pairs. *)
Definition pair_v {S A B} (va : vops S A) (vb : vops S B) : vops S (A * B) :=
  mk_vops (vzero va, vzero vb)
          (fun x y => (vadd va (fst x) (fst y), vadd vb (snd x) (snd y)))
          (fun a x => (vscale va a (fst x), vscale vb a (snd x))).
Lemma pair_space {S A B} (o : sops S) (va : vops S A) (vb : vops S B) :
  vspace o va -> vspace o vb -> vspace o (pair_v va vb).
Proof.
  intros [a1 a2 a3 a4 a5 a6 a7 a8] [b1 b2 b3 b4 b5 b6 b7 b8].
  split; cbn; intros; repeat match goal with x : (A * B)%type |- _ => destruct x end; cbn; f_equal; auto.
Qed.

(** The real numbers as a scalar type (exact arithmetic). *)
From Coq Require Import Reals Lra Bool ZArith.
From Verif Require Import Base.
Local Open Scope R_scope.

Definition Rltb (x y : R) : bool := if Rlt_dec x y then true else false.
Definition Rleb (x y : R) : bool := if Rle_dec x y then true else false.
Definition Reqb (x y : R) : bool := if Req_EM_T x y then true else false.

(** [eps] is the machine epsilon the code would use. *)
Definition Rops (eps : R) : sops R :=
  mk_sops 0 1 Rplus Rminus Rmult Rdiv Ropp Rabs Rltb Rleb Reqb eps.

Lemma Rltb_true : forall x y, Rltb x y = true <-> x < y.
Proof. intros; unfold Rltb; destruct (Rlt_dec x y); intuition; discriminate. Qed.
Lemma Rltb_false : forall x y, Rltb x y = false <-> y <= x.
Proof. intros; unfold Rltb; destruct (Rlt_dec x y); split; intros; try lra; try discriminate; auto. Qed.
Lemma Rleb_true : forall x y, Rleb x y = true <-> x <= y.
Proof. intros; unfold Rleb; destruct (Rle_dec x y); intuition; discriminate. Qed.
Lemma Rleb_false : forall x y, Rleb x y = false <-> y < x.
Proof. intros; unfold Rleb; destruct (Rle_dec x y); split; intros; try lra; try discriminate; auto. Qed.
Lemma Reqb_true : forall x y, Reqb x y = true <-> x = y.
Proof. intros; unfold Reqb; destruct (Req_EM_T x y); intuition; discriminate. Qed.
Lemma Reqb_false : forall x y, Reqb x y = false <-> x <> y.
Proof. intros; unfold Reqb; destruct (Req_EM_T x y); intuition; discriminate. Qed.

Lemma INR_above : forall x, exists n : nat, x <= INR n.
Proof.
  intros x. exists (Z.to_nat (Z.max 0 (up x))). rewrite INR_IZR_INZ, Z2Nat.id by apply Z.le_max_l.
  destruct (archimed x) as [H _]. apply Rlt_le in H.
  apply Rle_trans with (1 := H). apply IZR_le. apply Z.le_max_r.
Qed.

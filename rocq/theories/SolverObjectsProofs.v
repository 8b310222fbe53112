(** Proofs about nonlinear solver objects. *)
From Coq Require Import List Bool Arith Lia.
From Verif Require Import Base SolverObjects SolverObjectsSpec.
Import ListNotations.

Section Proofs.
  Context {Sy L Wt Res : Type}.
  Variables (move_l : L -> L * L) (move_w : Wt -> Wt * Wt).
  Variables (extent : Sy -> nat) (leading : Wt -> nat).
  Variable run : Sy -> option (Wt * nat) -> L -> outcome Res * L.
  Notation one := (use_one move_l move_w extent leading run).
  Notation all := (use_all move_l move_w extent leading run).
  Notation mem := (@mem Sy L Wt).

  Lemma put_same {A} (h : nat -> A) a v : put h a v a = v.
  Proof. unfold put. rewrite Nat.eqb_refl. reflexivity. Qed.
  Lemma put_other {A} (h : nat -> A) a b v : a <> b -> put h a v b = h b.
  Proof. intros N. unfold put. destruct (Nat.eqb_spec a b); congruence. Qed.

  (** The registry apart from the state of an owned linear solver *)
  Definition same_but_own (p q : @nsolver L Wt) : Prop :=
    ns_sys p = ns_sys q /\ ns_w p = ns_w q /\
    match ns_lin p, ns_lin q with Ref _ a, Ref _ b => a = b | Own _ _, Own _ _ => True | _, _ => False end.
  Lemma same_refl p : same_but_own p p.
  Proof. repeat split. destruct (ns_lin p); auto. Qed.

  Lemma solve_ns s' p v (m : mem) s : s' <> s -> m_ns (snd (solve_with run s' p v m)) s = m_ns m s.
  Proof.
    intros N. unfold solve_with.
    destruct (held_value (m_lin m) (ns_lin p)); [|reflexivity].
    destruct (match ns_w p with None => _ | Some _ => _ end); [|reflexivity].
    destruct (run v o l) as [r l']. destruct (ns_lin p); cbn; [reflexivity|]. apply put_other; exact N.
  Qed.
  Lemma solve_keeps s p v (m : mem) : m_ns m s = Some p ->
    exists q, m_ns (snd (solve_with run s p v m)) s = Some q /\ same_but_own p q.
  Proof.
    intros E. unfold solve_with.
    destruct (held_value (m_lin m) (ns_lin p)); [|exists p; split; [exact E|apply same_refl]].
    destruct (match ns_w p with None => _ | Some _ => _ end); [|exists p; split; [exact E|apply same_refl]].
    destruct (run v o l) as [r l']. destruct (ns_lin p) eqn:F; cbn.
    - exists p; split; [exact E|apply same_refl].
    - rewrite put_same. eexists; split; [reflexivity|]. repeat split. cbn. rewrite F. exact I.
  Qed.

  Lemma one_leaves s u (m : mem) : leaves s u -> m_ns (snd (one u m)) s = m_ns m s.
  Proof.
    intros [K D]. destruct u; cbn in *; try reflexivity.
    - destruct (create _ _ _ _ _ _ _ _ _); cbn; try reflexivity. apply put_other; exact K.
    - destruct (m_ns m s0); cbn; [|reflexivity]. apply put_other; exact K.
    - destruct K as [K1 K2]. destruct (m_ns m s0); cbn; [|reflexivity]. rewrite put_other by exact K2. apply put_other; exact K1.
    - apply put_other; exact K.
    - destruct (m_ns m s0) as [p|]; [|reflexivity]. destruct (ns_sys p) as [a|]; [|reflexivity].
      destruct (m_sys m a); [|reflexivity]. apply solve_ns; exact D.
    - destruct (m_ns m s0) as [p|]; [|reflexivity]. destruct (m_sys m a); [|reflexivity]. apply solve_ns; exact D.
  Qed.
  Lemma one_keeps s u (m : mem) p : keeps s u -> m_ns m s = Some p ->
    exists q, m_ns (snd (one u m)) s = Some q /\ same_but_own p q.
  Proof.
    intros K E.
    assert (Lv : leaves s u -> exists q, m_ns (snd (one u m)) s = Some q /\ same_but_own p q).
    { intros Lu. exists p. rewrite one_leaves by exact Lu. split; [exact E|apply same_refl]. }
    destruct u; try (apply Lv; split; [exact K|exact I]).
    - destruct (Nat.eq_dec s0 s) as [->|N]; [|apply Lv; split; [exact K|exact N]].
      cbn. rewrite E. destruct (ns_sys p) as [a|]; [|exists p; split; [exact E|apply same_refl]].
      destruct (m_sys m a); [|exists p; split; [exact E|apply same_refl]]. apply solve_keeps; exact E.
    - destruct (Nat.eq_dec s0 s) as [->|N]; [|apply Lv; split; [exact K|exact N]].
      cbn. rewrite E. destruct (m_sys m a); [|exists p; split; [exact E|apply same_refl]]. apply solve_keeps; exact E.
  Qed.
  Lemma all_leaves s us : forall m : mem, Forall (leaves s) us -> m_ns (snd (all us m)) s = m_ns m s.
  Proof.
    induction us as [|u us IH]; intros m F; [reflexivity|]. inversion F as [|? ? H1 H2]; subst.
    cbn [use_all]. pose proof (one_leaves s u m H1) as E. destruct (one u m) as [r m'] eqn:O.
    cbn [snd] in E. destruct r; cbn [snd]; try exact E; rewrite IH by exact H2; exact E.
  Qed.
  Lemma same_trans p q r : same_but_own p q -> same_but_own q r -> same_but_own p r.
  Proof.
    intros (A & B & C) (A' & B' & C'). repeat split; [congruence|congruence|].
    destruct (ns_lin p), (ns_lin q), (ns_lin r); try contradiction; auto; congruence.
  Qed.
  Lemma all_keeps s us : forall (m : mem) p, Forall (keeps s) us -> m_ns m s = Some p ->
    exists q, m_ns (snd (all us m)) s = Some q /\ same_but_own p q.
  Proof.
    induction us as [|u us IH]; intros m p F E; [exists p; split; [exact E|apply same_refl]|].
    inversion F as [|? ? H1 H2]; subst. destruct (one_keeps s u m p H1 E) as (q & Eq & Sq).
    cbn [use_all]. destruct (one u m) as [r m'] eqn:O. cbn [snd] in Eq.
    destruct r; cbn [snd]; try (exists q; split; [exact Eq|exact Sq]);
      destruct (IH m' q H2 Eq) as (q' & E' & S'); exists q'; (split; [exact E'|eapply same_trans; eassumption]).
  Qed.
End Proofs.

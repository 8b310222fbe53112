(** C77: the estimates for completed integrations. *)
From Coq Require Import ZArith List Reals Lra Lia Field.
From Verif Require Import Base RInst Laws LawInst AdvanceModel AdvanceSpec ExplicitModel ImplicitModel ImplicitSpec ImplicitMore Track
  StabilitySpec StabilityOrder DissipSpec DissipProofs DissipChain.
Import ListNotations.
Local Open Scope R_scope.

Section Runs.
  Context {V J W Ws U : Type} (eps0 : R) (vo : vops R V) (jo : vops R J) (jid : J) (ip : V -> V -> R).
  Notation o := (Rops eps0).
  Variables (u : isys (S:=R) (V:=V) (J:=J) (W:=W)) (solver : Ws -> V -> sol V V J Ws).
  Hypotheses (HV : vspace o vo) (HJ : vspace o jo).
  Let HF := R_field eps0.
  Let HC := R_char0 eps0.
  Variables (f : V -> R -> V) (tol : R).
  Hypothesis Hf : rhs_is u f.
  Notation Acc := (fun r => length_of ip r <= tol).
  Notation completed name := (completed_std U o vo jo jid u solver name Acc).

  Lemma chain_bdf1 start y0 tr : completed BDF1 start y0 tr ->
    exists l, linked_from (sadd o) (accepted_bdf1 o vo Acc f) start y0 l /\ reports tr = numbered l.
  Proof.
    intros H. inversion H; subst.
    - assert (HL : length (t_st g0) = 1%nat) by (match goal with h : implicit_create _ _ _ _ _ _ _ = _ |- _ => injection h as <- end; reflexivity).
      edestruct (bdf1_n_steps (U:=U) o vo jo jid u solver HF HV HJ) as (t' & d' & l & _ & E1 & E2); [eassumption|exact Hf|exact HL|eassumption|eassumption|].
      exists ((t', d', y') :: l). split; [exact E1|exact E2].
    - assert (HL : length (t_st g0) = 1%nat) by (match goal with h : implicit_create _ _ _ _ _ _ _ = _ |- _ => injection h as <- end; reflexivity).
      edestruct (bdf1_target (U:=U) o vo jo jid u solver HF HV HJ) as (t' & d' & l & E1 & E2); [eassumption|eassumption|exact Hf|exact HL|eassumption|eassumption|].
      exists ((t', d', y') :: l). split; [exact E1|exact E2].
  Qed.
  Lemma chain_bdf2 start y0 tr : completed BDF2 start y0 tr ->
    exists l, linked_from (sadd o) (accepted_bdf2 o vo Acc f) start y0 l /\ reports tr = numbered l.
  Proof.
    intros H. inversion H; subst.
    - assert (HL : length (t_st g0) = 2%nat) by (match goal with h : implicit_create _ _ _ _ _ _ _ = _ |- _ => injection h as <- end; reflexivity).
      edestruct (bdf2_n_steps (U:=U) o vo jo jid u solver HF HC HV HJ) as (t' & d' & l & _ & E1 & E2); [eassumption|exact Hf|exact HL|eassumption|eassumption|].
      exists ((t', d', y') :: l). split; [exact E1|exact E2].
    - assert (HL : length (t_st g0) = 2%nat) by (match goal with h : implicit_create _ _ _ _ _ _ _ = _ |- _ => injection h as <- end; reflexivity).
      edestruct (bdf2_target (U:=U) o vo jo jid u solver HF HC HV HJ) as (t' & d' & l & E1 & E2); [eassumption|eassumption|exact Hf|exact HL|eassumption|eassumption|].
      exists ((t', d', y') :: l). split; [exact E1|exact E2].
  Qed.
  Lemma chain_cn F fj start y0 tr : repeatable u F fj -> completed CrankNicolson start y0 tr ->
    exists l, linked_from (sadd o) (accepted_cn o vo Acc f) start y0 l /\ reports tr = numbered l.
  Proof.
    intros Hp H. inversion H; subst.
    - destruct H1 as (w0 & ->). edestruct (cn_n_steps (U:=U) o vo jo jid u solver HF HC HV HJ) as (t' & d' & l & _ & E1 & E2);
        [eassumption|exact Hp|exact Hf|eassumption|eassumption|eassumption|].
      exists ((t', d', y') :: l). split; [exact E1|exact E2].
    - destruct H2 as (w0 & ->). edestruct (cn_target (U:=U) o vo jo jid u solver HF HC HV HJ) as (t' & d' & l & E1 & E2);
        [eassumption|eassumption|exact Hp|exact Hf|eassumption|eassumption|eassumption|].
      exists ((t', d', y') :: l). split; [exact E1|exact E2].
  Qed.

  (** A completed run is a sequence obeying the scheme up to the tolerance. *)
  Definition run_of (near : (nat -> R) -> (nat -> R) -> nat -> (nat -> V) -> Prop) start y0 tr : Prop :=
    exists n (ts : nat -> R) (ys : nat -> V), ts 0%nat = start /\ ys 0%nat = y0 /\
      (forall k t y, In (k, t, y) (reports tr) <-> exists j, k = Z.of_nat j /\ (j <= n)%nat /\ t = ts j /\ y = ys j) /\
      near ts (fun _ => tol) n ys.
  Lemma chain_run P (near : (nat -> R) -> (nat -> R) -> nat -> (nat -> V) -> Prop) start y0 tr l :
    linked_from (sadd o) P start y0 l -> reports tr = numbered l ->
    (forall n ts ys, (forall j, (j < n)%nat -> P (past ys j) (ts j) (ts (Datatypes.S j) - ts j) (ys (Datatypes.S j))) ->
       near ts (fun _ => tol) n ys) ->
    run_of near start y0 tr.
  Proof.
    intros [HL (d0 & l0 & El)] Er HN. destruct (chain_fun _ _ _ HL) as (ts & hs & ys & _ & Hlen & (d1 & l1 & E1) & _ & HI & HS).
    rewrite E1 in El. apply app_inj_tail in El. destruct El as [_ El]. injection El as E2 _ E3.
    exists (length l - 1)%nat, ts, ys. split; [exact E2|]. split; [exact E3|]. split.
    - intros k t y. rewrite Er, HI. split; intros (j & A & B & C); exists j; (split; [exact A|split; [lia|exact C]]).
    - apply HN. intros j Hj. destruct (HS j ltac:(lia)) as [A B]. cbn [sadd Rops] in A.
      replace (ts (Datatypes.S j) - ts j) with (hs j) by lra. exact B.
  Qed.
  Lemma run_bdf1 start y0 tr : completed BDF1 start y0 tr -> run_of (near_bdf1 eps0 vo ip f) start y0 tr.
  Proof.
    intros H. destruct (chain_bdf1 _ _ _ H) as (l & A & B). eapply chain_run; [exact A|exact B|].
    intros n ts ys HP k Hk. specialize (HP k Hk). unfold accepted_bdf1 in HP.
    destruct k; cbn [past] in HP; cbn [sadd Rops] in HP;
      match type of HP with context[f _ (?a + (?c - ?a))] => replace (a + (c - a)) with c in HP by ring end; exact HP.
  Qed.
  Lemma run_bdf2 start y0 tr : completed BDF2 start y0 tr -> run_of (near_bdf2 eps0 vo ip f) start y0 tr.
  Proof.
    intros H. destruct (chain_bdf2 _ _ _ H) as (l & A & B). eapply chain_run; [exact A|exact B|].
    intros n ts ys HP. split.
    - intros Hn. specialize (HP 0%nat Hn). unfold accepted_bdf2, accepted_bdf1 in HP. cbn [past] in HP; cbn [sadd Rops] in HP.
      match type of HP with context[f _ (?a + (?c - ?a))] => replace (a + (c - a)) with c in HP by ring end; exact HP.
    - intros k Hk. specialize (HP (Datatypes.S k) Hk). unfold accepted_bdf2 in HP.
      destruct k; cbn [past] in HP; cbn [sadd Rops] in HP;
        match type of HP with context[f _ (?a + (?c - ?a))] => replace (a + (c - a)) with c in HP by ring end; exact HP.
  Qed.
  Lemma run_cn F fj start y0 tr : repeatable u F fj -> completed CrankNicolson start y0 tr ->
    run_of (near_cn eps0 vo ip f) start y0 tr.
  Proof.
    intros Hp H. destruct (chain_cn F fj _ _ _ Hp H) as (l & A & B). eapply chain_run; [exact A|exact B|].
    intros n ts ys HP k Hk. specialize (HP k Hk). unfold accepted_cn in HP.
    destruct k; cbn [past] in HP; cbn [sadd Rops] in HP;
      match type of HP with context[f _ (?a + (?c - ?a))] => replace (a + (c - a)) with c in HP by ring end; exact HP.
  Qed.
End Runs.

(** ** A run against a sequence *)
Section Against.
  Context {V : Type} (eps0 : R) (vo : vops R V) (ip : V -> V -> R) (f : V -> R -> V).
  Notation o := (Rops eps0).
  Hypotheses (HV : vspace o vo) (HI : inner vo ip) (HD : dissipative eps0 vo ip f).
  Notation len := (length_of ip).
  Notation "x -- y" := (vminus (Rops eps0) vo x y) (at level 50, left associativity).
  Variables (tol start : R) (y0 : V) (tr : list (call R V)) (ts err : nat -> R) (n : nat) (z : nat -> V).
  Hypothesis Hts : forall k, (k < n)%nat -> ts k <= ts (Datatypes.S k).
  Hypothesis Htr : times_are tr ts.
  (** the times of the run may be replaced by [ts], and the run cut off at [n] *)
  Lemma against (near : (nat -> R) -> (nat -> R) -> nat -> (nat -> V) -> Prop) : run_of tol near start y0 tr ->
    (forall m rs ys, (forall k, (k <= m)%nat -> rs k = ts k) -> near rs (fun _ => tol) m ys ->
       forall j, (j <= m)%nat -> near ts (fun _ => tol) j ys) ->
    forall Q : nat -> (nat -> V) -> Prop,
    (forall m ys, (m <= n)%nat -> ys 0%nat = y0 -> near ts (fun _ => tol) m ys -> Q m ys) ->
    forall k t y, (k <= n)%nat -> In (Z.of_nat k, t, y) (reports tr) -> exists ys, ys 0%nat = y0 /\ y = ys k /\ Q k ys.
  Proof.
    intros (m & rs & ys & E1 & E2 & HR & HN) Hcut Q HQ k t y Hk Hin.
    pose proof Hin as Hin'. apply HR in Hin'. destruct Hin' as (j & Ej & Hj & Et & Ey). apply Nat2Z.inj in Ej. subst j.
    exists ys. split; [exact E2|]. split; [exact Ey|]. apply HQ; [exact Hk|exact E2|].
    eapply Hcut; [|exact HN|exact Hj]. intros i Hi. apply (Htr i _ (ys i)). apply HR. exists i. repeat split; lia.
  Qed.
  Lemma elapsed_tol k : elapsed (fun _ => tol) k = INR k * tol.
  Proof. apply elapsed_const. Qed.
  Lemma against_bdf1 : run_of tol (near_bdf1 eps0 vo ip f) start y0 tr -> near_bdf1 eps0 vo ip f ts err n z ->
    forall k t y, (k <= n)%nat -> In (Z.of_nat k, t, y) (reports tr) ->
    len (y -- z k) <= len (y0 -- z 0%nat) + (INR k * tol + elapsed err k).
  Proof.
    intros HR Hz k t y Hk Hin.
    destruct (against _ HR) with (Q := fun m ys => len (ys m -- z m) <= len (y0 -- z 0%nat) + (INR m * tol + elapsed err m))
      (k := k) (t := t) (y := y) as (ys & _ & -> & H); try assumption.
    - intros m rs ys Hrs HN j Hj i Hi. specialize (HN i ltac:(lia)). rewrite <- !Hrs by lia. exact HN.
    - intros m ys Hm <- HN. rewrite <- elapsed_tol.
      apply (seq_bdf1 eps0 vo ip f HV HI HD ts (fun _ => tol) err m ys z); [intros; apply Hts; lia|exact HN| |lia].
      intros i Hi. apply Hz. lia.
  Qed.
  Lemma against_bdf2 : run_of tol (near_bdf2 eps0 vo ip f) start y0 tr -> near_bdf2 eps0 vo ip f ts err n z ->
    forall k t y, (k <= n)%nat -> In (Z.of_nat k, t, y) (reports tr) ->
    len (y -- z k) <= sqrt 2 * len (y0 -- z 0%nat) + 6 * (INR k * tol + elapsed err k).
  Proof.
    intros HR Hz k t y Hk Hin.
    destruct (against _ HR) with (Q := fun m ys => len (ys m -- z m) <= sqrt 2 * len (y0 -- z 0%nat) + 6 * (INR m * tol + elapsed err m))
      (k := k) (t := t) (y := y) as (ys & _ & -> & H); try assumption.
    - intros m rs ys Hrs [HN0 HN] j Hj. split.
      + intros Hp. rewrite <- !Hrs by lia. apply HN0. lia.
      + intros i Hi. specialize (HN i ltac:(lia)). rewrite <- !Hrs by lia. exact HN.
    - intros m ys Hm <- HN. rewrite <- elapsed_tol.
      apply (seq_bdf2 eps0 vo ip f HV HI HD ts (fun _ => tol) err m ys z); [intros; apply Hts; lia|exact HN| |lia].
      destruct Hz as [Hz0 Hz]. split; [intros; apply Hz0; lia|intros; apply Hz; lia].
  Qed.
  Lemma against_cn : run_of tol (near_cn eps0 vo ip f) start y0 tr -> near_cn eps0 vo ip f ts err n z ->
    (forall k, (Datatypes.S k < n)%nat -> ts (Datatypes.S (Datatypes.S k)) - ts (Datatypes.S k) <= ts (Datatypes.S k) - ts k) ->
    forall k t y, (k <= n)%nat -> (0 < k)%nat -> In (Z.of_nat k, t, y) (reports tr) ->
    len (y -- z k) <= len (y0 -- z 0%nat -- vscale vo (1 / 2 * (ts 1%nat - ts 0%nat)) (f y0 (ts 0%nat) -- f (z 0%nat) (ts 0%nat)))
      + (INR k * tol + elapsed err k).
  Proof.
    intros HR Hz Hh k t y Hk H0 Hin.
    destruct (against _ HR) with (Q := fun m ys => (0 < m)%nat -> len (ys m -- z m) <= len (y0 -- z 0%nat -- vscale vo (1 / 2 * (ts 1%nat - ts 0%nat)) (f y0 (ts 0%nat) -- f (z 0%nat) (ts 0%nat)))
      + (INR m * tol + elapsed err m)) (k := k) (t := t) (y := y) as (ys & _ & -> & H); try assumption.
    - intros m rs ys Hrs HN j Hj i Hi. specialize (HN i ltac:(lia)). rewrite <- !Hrs by lia. exact HN.
    - intros m ys Hm <- HN Hp. rewrite <- elapsed_tol.
      apply (seq_cn eps0 vo ip f HV HI HD ts (fun _ => tol) err m ys z); [intros; apply Hts; lia|exact HN| |intros; apply Hh; lia|lia|lia].
      intros i Hi. apply Hz. lia.
    - apply H. exact H0.
  Qed.
End Against.

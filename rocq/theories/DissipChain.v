(** C77: accepted states as sequences. *)
From Coq Require Import ZArith List Reals Lra Lia Field.
From Verif Require Import Base RInst Laws LawInst AdvanceModel AdvanceSpec ExplicitModel ImplicitModel ImplicitSpec ImplicitMore Track
  StabilitySpec DissipSpec DissipProofs.
Import ListNotations.
Local Open Scope R_scope.

Fixpoint past {St} (ys : nat -> St) (j : nat) : list St :=
  match j with O => [ys 0%nat] | Datatypes.S i => ys j :: past ys i end.
Lemma past_ext {St} (ys zs : nat -> St) j : (forall i, (i <= j)%nat -> ys i = zs i) -> past ys j = past zs j.
Proof.
  induction j as [|j IH]; intros H; cbn [past]; [rewrite H by lia; reflexivity|].
  rewrite (H (Datatypes.S j)) by lia. rewrite IH; [reflexivity|]. intros; apply H; lia.
Qed.

Lemma chain_fun {T St} (plus : T -> T -> T) (P : list St -> T -> T -> St -> Prop) (l : accepted T St) :
  linked plus P l -> exists (ts hs : nat -> T) (ys : nat -> St),
    map snd l = past ys (length l - 1) /\ (1 <= length l)%nat /\
    (exists d l0, l = l0 ++ [(ts 0%nat, d, ys 0%nat)]) /\
    (match l with (t, _, _) :: _ => t = ts (length l - 1)%nat | [] => True end) /\
    (forall k t y, In (k, t, y) (numbered l) <->
       exists j, k = Z.of_nat j /\ (j < length l)%nat /\ t = ts j /\ y = ys j) /\
    (forall j, (Datatypes.S j < length l)%nat -> ts (Datatypes.S j) = plus (ts j) (hs j) /\
       P (past ys j) (ts j) (hs j) (ys (Datatypes.S j))).
Proof.
  induction l as [|[[t d] y] l IH]; [contradiction|]. destruct l as [|[[t1 d1] y1] l].
  - intros _. exists (fun _ => t), (fun _ => d), (fun _ => y). cbn.
    split; [reflexivity|]. split; [lia|]. split; [exists d, []; reflexivity|]. split; [reflexivity|].
    split; [|intros; lia]. intros k t' y'. split.
    + intros [[= <- <- <-]|[]]. exists 0%nat. repeat split; lia.
    + intros (j & -> & Hj & -> & ->). left. replace j with 0%nat by lia. reflexivity.
  - intros (Et & HP & HL). destruct (IH HL) as (ts & hs & ys & Em & Hlen & (d0 & l0 & E0) & Eh & HI & HS).
    set (n := length ((t1, d1, y1) :: l)) in *.
    assert (Hn : n = Datatypes.S (length l)) by reflexivity.
    exists (fun j => if Nat.eqb j n then t else ts j), (fun j => if Nat.eqb j (n - 1) then d else hs j),
      (fun j => if Nat.eqb j n then y else ys j).
    assert (Hp : forall j, (j < n)%nat -> past (fun j => if Nat.eqb j n then y else ys j) j = past ys j).
    { intros j Hj. apply past_ext. intros i Hi. destruct (Nat.eqb_spec i n); [lia|reflexivity]. }
    change (length ((t, d, y) :: (t1, d1, y1) :: l)) with (Datatypes.S n).
    split; [|split; [lia|split; [|split; [|split]]]].
    + replace (Datatypes.S n - 1)%nat with (Datatypes.S (n - 1)) by lia. cbn [past].
      replace (Datatypes.S (n - 1)) with n by lia. rewrite Nat.eqb_refl. rewrite Hp by lia.
      change (map snd ((t, d, y) :: (t1, d1, y1) :: l)) with (y :: map snd ((t1, d1, y1) :: l)). rewrite Em. reflexivity.
    + exists d0, ((t, d, y) :: l0). destruct (Nat.eqb_spec 0 n); [lia|]. rewrite E0. reflexivity.
    + replace (Datatypes.S n - 1)%nat with n by lia. rewrite Nat.eqb_refl. reflexivity.
    + intros k t' y'. change (numbered ((t, d, y) :: (t1, d1, y1) :: l)) with (numbered ((t1, d1, y1) :: l) ++ [(Z.of_nat n, t, y)]).
      rewrite in_app_iff, HI. split.
      * intros [(j & -> & Hj & -> & ->)|[[= <- <- <-]|[]]].
        -- exists j. split; [reflexivity|]. split; [lia|]. destruct (Nat.eqb_spec j n); [lia|]. split; reflexivity.
        -- exists n. rewrite Nat.eqb_refl. repeat split; lia.
      * intros (j & -> & Hj & -> & ->). destruct (Nat.eqb_spec j n) as [->|Hne].
        -- right. left. reflexivity.
        -- left. exists j. repeat split; lia.
    + intros j Hj. destruct (Nat.eqb_spec (Datatypes.S j) n) as [E|Hne].
      * destruct (Nat.eqb_spec j n); [lia|]. replace (n - 1)%nat with j in * by lia. rewrite Nat.eqb_refl.
        rewrite Hp by lia. rewrite <- Em, <- Eh. split; assumption.
      * destruct (Nat.eqb_spec j n); [lia|]. destruct (Nat.eqb_spec j (n - 1)); [lia|]. rewrite Hp by lia. apply HS. lia.
Qed.

(** ** The estimates for sequences *)
Section Seq.
  Context {V : Type} (eps0 : R) (vo : vops R V) (ip : V -> V -> R) (f : V -> R -> V).
  Notation o := (Rops eps0).
  Hypotheses (HV : vspace o vo) (HI : inner vo ip) (HD : dissipative eps0 vo ip f).
  Let HF := R_field eps0.
  Notation len := (length_of ip).
  Notation "x -- y" := (vminus (Rops eps0) vo x y) (at level 50, left associativity).
  Variables (ts err err' : nat -> R) (n : nat) (y z : nat -> V).
  Hypothesis Hts : forall k, (k < n)%nat -> ts k <= ts (Datatypes.S k).
  Notation e k := (y k -- z k).
  Notation df k := (f (y k) (ts k) -- f (z k) (ts k)).
  Notation h k := (ts (Datatypes.S k) - ts k).
  Notation b k := (err k + err' k).
  Lemma diff_bdf1 a a' hh g g' c c' : (c -- c') -- (a -- a') -- vscale vo hh (g -- g') = bdf1_R o vo a hh g c -- bdf1_R o vo a' hh g' c'.
  Proof. unfold bdf1_R, vminus, neg1. vreduce (Rops eps0) vo HF HV; cbn; ring. Qed.
  Lemma diff_bdf2 a a' p p' hh g g' c c' :
    vadd vo ((c -- c') -- vscale vo (4 / 3) (a -- a')) (vscale vo (1 / 3) (p -- p')) -- vscale vo (2 / 3 * hh) (g -- g') =
    bdf2_R o vo a p hh g c -- bdf2_R o vo a' p' hh g' c'.
  Proof. unfold bdf2_R, vminus, neg1, frac. vreduce (Rops eps0) vo HF HV; cbn; field. Qed.
  Lemma diff_cn a a' q q' hh g g' c c' :
    (c -- c') -- (a -- a') -- vscale vo (1 / 2 * hh) (vadd vo (q -- q') (g -- g')) = cn_R o vo a q hh g c -- cn_R o vo a' q' hh g' c'.
  Proof. unfold cn_R, vminus, neg1, frac. vreduce (Rops eps0) vo HF HV; cbn; field. Qed.

  Lemma seq_bdf1 : near_bdf1 eps0 vo ip f ts err n y -> near_bdf1 eps0 vo ip f ts err' n z ->
    forall k, (k <= n)%nat -> len (e k) <= len (e 0) + (elapsed err k + elapsed err' k).
  Proof.
    intros Hy Hz. induction k as [|k IH]; intros Hk; cbn [elapsed]; [lra|]. specialize (IH ltac:(lia)).
    destruct (contract1 eps0 vo ip HI (e k) (e (Datatypes.S k)) (df (Datatypes.S k)) _ (h k) (b k)
      ltac:(specialize (Hts k ltac:(lia)); lra) (HD _ _ _)
      (len_minus eps0 vo ip HI _ _ _ _ (Hy k ltac:(lia)) (Hz k ltac:(lia))) (diff_bdf1 _ _ _ _ _ _ _)) as [_ Q]. lra.
  Qed.
  Lemma sqrt2 : 1 <= sqrt 2 <= 2.
  Proof.
    split; [rewrite <- sqrt_1 at 1; apply sqrt_le_1_alt; lra|].
    replace 2 with (sqrt (2 * 2)) at 2 by (apply sqrt_square; lra). apply sqrt_le_1_alt. lra.
  Qed.
  Lemma seq_bdf2 : near_bdf2 eps0 vo ip f ts err n y -> near_bdf2 eps0 vo ip f ts err' n z ->
    forall k, (k <= n)%nat -> len (e k) <= sqrt 2 * len (e 0) + 6 * (elapsed err k + elapsed err' k).
  Proof.
    intros [Hy0 Hy] [Hz0 Hz]. pose proof sqrt2 as S2.
    assert (G : forall k, (Datatypes.S k <= n)%nat -> gnorm eps0 vo ip (e (Datatypes.S k)) (e k) <=
      sqrt 2 * len (e 0) + 6 * (elapsed err (Datatypes.S k) + elapsed err' (Datatypes.S k))).
    { induction k as [|k IH]; intros Hk.
      - pose proof (start2 eps0 vo ip HI (e 0) (e 1) (df 1) _ (h 0) (b 0) ltac:(specialize (Hts 0%nat ltac:(lia)); lra) (HD _ _ _)
          (len_minus eps0 vo ip HI _ _ _ _ (Hy0 ltac:(lia)) (Hz0 ltac:(lia))) (diff_bdf1 _ _ _ _ _ _ _)) as Q.
        cbn [elapsed]. pose proof (Rle_trans _ _ _ (len_pos ip _) (Hy0 ltac:(lia))). pose proof (Rle_trans _ _ _ (len_pos ip _) (Hz0 ltac:(lia))).
        eapply Rle_trans; [exact Q|]. rewrite Rmult_plus_distr_l. nra.
      - specialize (IH ltac:(lia)).
        pose proof (contract2 eps0 vo ip HI (e k) (e (Datatypes.S k)) (e (Datatypes.S (Datatypes.S k))) (df (Datatypes.S (Datatypes.S k))) _
          (h (Datatypes.S k)) (b (Datatypes.S k)) ltac:(specialize (Hts (Datatypes.S k) ltac:(lia)); lra) (HD _ _ _)
          (len_minus eps0 vo ip HI _ _ _ _ (Hy k ltac:(lia)) (Hz k ltac:(lia))) (diff_bdf2 _ _ _ _ _ _ _ _ _)) as Q.
        cbn [elapsed] in *. lra. }
    intros [|k] Hk.
    - cbn [elapsed]. pose proof (len_pos ip (e 0)). nra.
    - eapply Rle_trans; [apply (len_gnorm eps0 vo ip HI _ (e k))|apply G; exact Hk].
  Qed.
  Lemma seq_cn : near_cn eps0 vo ip f ts err n y -> near_cn eps0 vo ip f ts err' n z ->
    (forall k, (Datatypes.S k < n)%nat -> h (Datatypes.S k) <= h k) -> (0 < n)%nat ->
    forall k, (k <= n)%nat -> len (e k) <= len (e 0 -- vscale vo (1 / 2 * h 0) (df 0)) + (elapsed err k + elapsed err' k).
  Proof.
    intros Hy Hz Hh Hn.
    assert (G : forall k, (k < n)%nat -> len (e k -- vscale vo (1 / 2 * h k) (df k)) <=
      len (e 0 -- vscale vo (1 / 2 * h 0) (df 0)) + (elapsed err k + elapsed err' k) /\
      len (e (Datatypes.S k) -- vscale vo (1 / 2 * h k) (df (Datatypes.S k))) <=
      len (e 0 -- vscale vo (1 / 2 * h 0) (df 0)) + (elapsed err (Datatypes.S k) + elapsed err' (Datatypes.S k))).
    { assert (A : forall k, (k < n)%nat -> len (e (Datatypes.S k) -- vscale vo (1 / 2 * h k) (df (Datatypes.S k))) <=
        len (e k -- vscale vo (1 / 2 * h k) (df k)) + b k).
      { intros k Hk. apply (contract_cn eps0 vo ip HV HI _ _ _ _ _ (h k) (b k) ltac:(specialize (Hts k ltac:(lia)); lra) (HD _ _ _)
          (len_minus eps0 vo ip HI _ _ _ _ (Hy k ltac:(lia)) (Hz k ltac:(lia))) (diff_cn _ _ _ _ _ _ _ _ _)). }
      induction k as [|k IH]; intros Hk.
      - cbn [elapsed]. split; [lra|]. specialize (A 0%nat Hk). lra.
      - destruct (IH ltac:(lia)) as [_ Q].
        assert (Q1 : len (e (Datatypes.S k) -- vscale vo (1 / 2 * h (Datatypes.S k)) (df (Datatypes.S k))) <=
          len (e (Datatypes.S k) -- vscale vo (1 / 2 * h k) (df (Datatypes.S k)))).
        { apply (shrink_cn eps0 vo ip HI); [|apply HD]. specialize (Hh k ltac:(lia)). specialize (Hts (Datatypes.S k) ltac:(lia)). lra. }
        split; [lra|]. specialize (A (Datatypes.S k) Hk). cbn [elapsed] in *. lra. }
    intros [|k] Hk.
    - cbn [elapsed]. rewrite !Rplus_0_r. apply (len_cn eps0 vo ip HI); [|apply HD]. specialize (Hts 0%nat ltac:(lia)). lra.
    - eapply Rle_trans; [|apply (G k); lia]. apply (len_cn eps0 vo ip HI); [|apply HD]. specialize (Hts k ltac:(lia)). lra.
  Qed.
End Seq.

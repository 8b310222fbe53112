(** Lemmas behind C101. *)
From Coq Require Import Reals ZArith List Lra Lia.
From Verif Require Import Base RInst Laws LawInst AdvanceModel AdvanceSpec AdvanceProofs TargetProofs Track ExplicitModel ImplicitModel ImplicitSpec
  NonlinDiag NonlinModel NonlinSpec NonlinLaws LspgModel LspgSpec RomRunSpec RomLsSpec RomLsClaims StabilitySpec DissipSpec DissipChain LspgBasisSpec.
Import ListNotations.
Local Open Scope R_scope.

Section One.
  Context {X Y J H : Type} (eps : R) (no : nlops R X Y J H) (yo : vops R Y) (jo : vops R J) (ap : J -> X -> Y) (apH : H -> X -> X).
  Notation o := (Rops eps).
  Hypotheses (HL : nl_laws eps no yo ap apH) (HT : tall (n_vo no) yo jo ap) (HJ : vspace o jo).
  Variables (ref : Y) (phi : J) (A : R -> Y -> Y) (b : R -> Y) (name : scheme) (tag : lstag).
  Let f y t := vadd yo (A t y) (b t).
  Let recon := trial yo ap ref phi.
  (** the run as sequences; forward steps give the only minimiser *)
  Definition best_sequence (start : R) (y0 : X) (tr : list (call R X)) : Prop :=
    exists (n : nat) (ts : nat -> R) (xs : nat -> X),
      ts 0%nat = start /\ xs 0%nat = y0 /\
      reports tr = map (fun j => (Z.of_nat j, ts j, xs j)) (seq 0 (Datatypes.S n)) /\
      forall j, (j < n)%nat -> ts j <= ts (Datatypes.S j) ->
        only_minimiser (n_rnorm no) (lspg_res o yo recon f name (past xs j) (ts j) (ts (Datatypes.S j) - ts j)) (xs (Datatypes.S j)).
  Lemma numbered_seq (P : list X -> R -> R -> X -> Prop) (l : accepted R X) : linked Rplus P l -> exists (ts : nat -> R) (xs : nat -> X),
    numbered l = map (fun j => (Z.of_nat j, ts j, xs j)) (seq 0 (length l)) /\ map snd l = past xs (length l - 1) /\
    (exists d l0, l = l0 ++ [(ts 0%nat, d, xs 0%nat)]) /\
    (match l with (t, _, _) :: _ => t = ts (length l - 1)%nat | [] => True end) /\
    (forall j, (Datatypes.S j < length l)%nat -> P (past xs j) (ts j) (ts (Datatypes.S j) - ts j) (xs (Datatypes.S j))).
  Proof.
    induction l as [|[[t d] y] l IH]; [contradiction|]. destruct l as [|[[t1 d1] y1] l].
    - intros _. exists (fun _ => t), (fun _ => y). cbn. split; [reflexivity|]. split; [reflexivity|]. split; [exists d, []; reflexivity|].
      split; [reflexivity|]. intros; lia.
    - intros (Et & HP & HLk). destruct (IH HLk) as (ts & xs & En & Em & (d0 & l0 & E0) & Eh & HS).
      set (n := length ((t1, d1, y1) :: l)) in *. assert (Hn : n = Datatypes.S (length l)) by reflexivity.
      exists (fun j => if Nat.eqb j n then t else ts j), (fun j => if Nat.eqb j n then y else xs j).
      assert (Hp : forall j, (j < n)%nat -> past (fun j => if Nat.eqb j n then y else xs j) j = past xs j).
      { intros j Hj. apply past_ext. intros i Hi. destruct (Nat.eqb_spec i n); [lia|reflexivity]. }
      change (length ((t, d, y) :: (t1, d1, y1) :: l)) with (Datatypes.S n). split; [|split; [|split; [|split]]].
      + change (numbered ((t, d, y) :: (t1, d1, y1) :: l)) with (numbered ((t1, d1, y1) :: l) ++ [(Z.of_nat n, t, y)]).
        rewrite En, seq_S, map_app. cbn [map]. rewrite Nat.add_0_l, Nat.eqb_refl. apply f_equal2; [|reflexivity].
        apply map_ext_in. intros j Hj. apply in_seq in Hj. destruct (Nat.eqb_spec j n); [lia|reflexivity].
      + replace (Datatypes.S n - 1)%nat with (Datatypes.S (n - 1)) by lia. cbn [past].
        replace (Datatypes.S (n - 1)) with n by lia. rewrite Nat.eqb_refl. rewrite Hp by lia.
        change (map snd ((t, d, y) :: (t1, d1, y1) :: l)) with (y :: map snd ((t1, d1, y1) :: l)). rewrite Em. reflexivity.
      + exists d0, ((t, d, y) :: l0). destruct (Nat.eqb_spec 0 n); [lia|]. rewrite E0. reflexivity.
      + replace (Datatypes.S n - 1)%nat with n by lia. rewrite Nat.eqb_refl. reflexivity.
      + intros j Hj. destruct (Nat.eqb_spec j n); [lia|]. rewrite Hp by lia. destruct (Nat.eqb_spec (Datatypes.S j) n) as [E|Hne]; [|apply HS; lia].
        replace j with (n - 1)%nat in * by lia. rewrite <- Em, <- Eh. replace (t - t1) with d by (rewrite Et; ring). exact HP.
  Qed.
  Hypothesis Hreg : steps_regular eps no yo ap apH phi A tag.
  Let HY := in_space _ _ (nl_r _ _ _ _ _ HL).
  Lemma ap_step t h c (Aphi : R -> J) : (forall t x, ap (Aphi t) x = A t (ap phi x)) -> forall v,
    ap (scheme_J o jo phi c h (Aphi t)) v = vminus o yo (ap phi v) (vscale yo (c * h) (A t (ap phi v))).
  Proof.
    intros HAp v. unfold scheme_J, jminus. rewrite (tall_add _ _ _ _ HT), !(tall_scale _ _ _ _ HT), HAp. reflexivity.
  Qed.
  Lemma linked_best Aphi start y0 tr (l : accepted R X) : (forall t x, ap (Aphi t) x = A t (ap phi x)) ->
    linked_from Rplus (minimising (n_rnorm no) (regular no yo ap apH tag)
      (fun t dt past => lspg_jacobian o jo recon (fun _ _ => Aphi) phi name past t dt (vzero (n_vo no))) (lspg_res o yo recon f name)) start y0 l ->
    reports tr = numbered l -> best_sequence start y0 tr.
  Proof.
    intros HAp [Hl (d0 & l0 & E0)] Er. destruct (numbered_seq _ _ Hl) as (ts & xs & En & _ & (d1 & l1 & E1) & _ & HS).
    rewrite E1 in E0. apply app_inj_tail in E0. destruct E0 as [_ E0].
    assert (Hlen : (1 <= length l)%nat) by (destruct l; [destruct l1; discriminate|cbn; lia]).
    exists (length l - 1)%nat, ts, xs. split; [exact (f_equal (fun q => fst (fst q)) E0)|]. split; [exact (f_equal snd E0)|].
    replace (Datatypes.S (length l - 1)) with (length l) by lia. split; [rewrite Er; exact En|].
    intros j Hj Hle. apply (HS j ltac:(lia)).
    assert (Ep : exists q, past xs j = xs j :: q) by (destruct j; cbn [past]; eexists; reflexivity). destruct Ep as [q Ep]. rewrite Ep.
    assert (K1 : regular no yo ap apH tag (scheme_J o jo phi (s1 o) (ts (Datatypes.S j) - ts j) (Aphi (ts j + (ts (Datatypes.S j) - ts j))))).
    { apply (Hreg 1 (ts j + (ts (Datatypes.S j) - ts j)) (ts (Datatypes.S j) - ts j)); [left; reflexivity|lra|]. intros v. apply (ap_step _ _ 1 Aphi HAp). }
    assert (K2 : regular no yo ap apH tag (scheme_J o jo phi (frac o 2 3) (ts (Datatypes.S j) - ts j) (Aphi (ts j + (ts (Datatypes.S j) - ts j))))).
    { apply (Hreg (2 / 3) (ts j + (ts (Datatypes.S j) - ts j)) (ts (Datatypes.S j) - ts j)); [right; reflexivity|lra|]. intros v.
      rewrite (ap_step _ _ _ Aphi HAp). replace (frac o 2 3) with (2 / 3) by (unfold frac; cbn; field). reflexivity. }
    unfold lspg_jacobian. cbv zeta. destruct name; try exact K1. destruct q as [|x2 q]; [exact K1|exact K2].
  Qed.
  Lemma run_best start y0 tr : lspg_run eps no yo jo ap apH ref phi A b name tag start y0 tr -> best_sequence start y0 tr.
  Proof.
    intros HR. destruct HR as [L W U fom Aphi xt wr wj cf obs w0 cs cr zero x0 ws g0 pol num w y' g' w' tr Hfom Hlin Hw Hfs Hws Hg0 Hn Ho Hp E
      |L W U fom Aphi xt wr wj cf obs w0 cs cr zero x0 ws g0 pol recovery h n fuel final w y' g' w' tr Hfom Hlin Hw Hfs Hws Hg0 He Ho Hp Hs Hf Hn Hi E].
    - pose proof Hfom as (_ & HAp & _).
      destruct (lspg_exact_n_steps eps X Y J H L W U no yo jo ap apH HL HT HJ ref phi fom A b Aphi Hfom xt Hlin wr wj Hw tag cf Hfs obs w0 name cs cr zero x0 ws g0
        Hws Hg0 pol num start y0 w Hn Ho Hp) as (y2 & g2 & w2 & tr2 & l & E2 & _ & Hr & Hl & _).
      assert (Et : tr2 = tr) by exact (f_equal (fun q => snd (snd q)) (eq_trans (eq_sym E2) E)). rewrite Et in Hr.
      exact (linked_best Aphi start y0 tr l HAp Hl Hr).
    - pose proof Hfom as (_ & HAp & _).
      destruct (lspg_exact_target eps X Y J H L W U no yo jo ap apH HL HT HJ ref phi fom A b Aphi Hfom xt Hlin wr wj Hw tag cf Hfs obs w0 name cs cr zero x0 ws g0
        Hws Hg0 pol recovery h n fuel start final y0 w He Ho Hp Hs Hf Hn Hi) as (y2 & g2 & w2 & tr2 & l & E2 & Hr & _ & Hl & _).
      assert (Et : tr2 = tr) by exact (f_equal (fun q => snd (snd q)) (eq_trans (eq_sym E2) E)). rewrite Et in Hr.
      exact (linked_best Aphi start y0 tr l HAp Hl Hr).
  Qed.
End One.

Lemma past_map {X Y} (g : X -> Y) xs j : map g (past xs j) = past (fun i => g (xs i)) j.
Proof. induction j as [|j IH]; [reflexivity|]. cbn [past map]. rewrite IH. reflexivity. Qed.

Section Two.
  Context {X X' Y J J' H H' : Type} (eps : R) (no : nlops R X Y J H) (no' : nlops R X' Y J' H') (yo : vops R Y)
    (ap : J -> X -> Y) (ap' : J' -> X' -> Y).
  Notation o := (Rops eps).
  Variables (ref ref' : Y) (phi : J) (phi' : J') (A : R -> Y -> Y) (b : R -> Y) (name : scheme).
  Notation recon := (trial yo ap ref phi).
  Notation recon' := (trial yo ap' ref' phi').
  Let f y t := vadd yo (A t y) (b t).
  Hypothesis Hnorm : forall r, n_rnorm no r = n_rnorm no' r.
  Hypothesis Hsub : forall x, exists x', recon' x' = recon x.
  Hypothesis Hsup : forall x', exists x, recon x = recon' x'.
  (** the residual depends on the full states only *)
  Lemma res_full p p' t dt x x' : map recon p = map recon' p' -> recon x = recon' x' ->
    lspg_res o yo recon f name p t dt x = lspg_res o yo recon' f name p' t dt x'.
  Proof.
    intros Hp Hx. unfold lspg_res, by_past. cbv zeta. rewrite Hx.
    destruct p as [|a [|a2 p]], p' as [|a' [|a2' p']]; cbn in Hp; try discriminate; destruct name; try reflexivity;
      pose proof (f_equal (fun q => hd (recon' x') q) Hp) as E1; cbn in E1; rewrite E1; try reflexivity.
    pose proof (f_equal (fun q => hd (recon' x') (tl q)) Hp) as E2; cbn in E2; rewrite E2; reflexivity.
  Qed.
  Lemma minimiser_full p p' t dt x x' : map recon p = map recon' p' ->
    only_minimiser (n_rnorm no) (lspg_res o yo recon f name p t dt) x ->
    only_minimiser (n_rnorm no') (lspg_res o yo recon' f name p' t dt) x' -> recon x = recon' x'.
  Proof.
    intros Hp HM HM'. destruct (Hsup x') as [z Hz]. destruct (Hsub x) as [z' Hz'].
    assert (E : z = x).
    { apply (proj2 (HM z)). rewrite (res_full p p' t dt z x' Hp Hz), (res_full p p' t dt x z' Hp (eq_sym Hz')), !Hnorm. apply (proj1 (HM' z')). }
    rewrite <- E. exact Hz.
  Qed.
  Lemma same_reports start start' y0 y0' tr tr' :
    best_sequence eps no yo ap ref phi A b name start y0 tr -> best_sequence eps no' yo ap' ref' phi' A b name start' y0' tr' ->
    recon y0 = recon' y0' -> same_times tr tr' -> forward_in_time tr ->
    full_reports yo ap ref phi tr = full_reports yo ap' ref' phi' tr'.
  Proof.
    intros (n & ts & xs & E0 & E1 & Er & HM) (n' & ts' & xs' & E0' & E1' & Er' & HM') Hy Hsame Hfw.
    assert (Hn : n' = n).
    { pose proof (f_equal (@length _) Hsame) as El. rewrite Er, Er', !map_length, !seq_length in El. lia. }
    subst n'.
    assert (HIn : forall j, (j <= n)%nat -> In (Z.of_nat j, ts j, xs j) (reports tr)).
    { intros j Hj. rewrite Er. apply in_map_iff. exists j. split; [reflexivity|]. apply in_seq. lia. }
    assert (Ht : forall j, (j <= n)%nat -> ts j = ts' j).
    { intros j Hj. unfold same_times in Hsame. rewrite Er, Er', !map_map in Hsame. cbn [fst] in Hsame.
      assert (K : forall m a, map (fun x => (Z.of_nat x, ts x)) (seq a m) = map (fun x => (Z.of_nat x, ts' x)) (seq a m) ->
        forall i, (a <= i < a + m)%nat -> ts i = ts' i).
      { induction m as [|m IH]; intros a Hs i Hi; [lia|]. cbn [seq map] in Hs.
        pose proof (f_equal (fun q => snd (hd (0%Z, 0) q)) Hs) as A1. pose proof (f_equal (@tl _) Hs) as A2. cbn in A1, A2.
        destruct (Nat.eq_dec i a) as [->|]; [exact A1|apply (IH (Datatypes.S a) A2); lia]. }
      apply (K _ _ Hsame). lia. }
    assert (Hs : forall j, (j <= n)%nat -> forall i, (i <= j)%nat -> recon (xs i) = recon' (xs' i)).
    { induction j as [|j IH]; intros Hj i Hi; [replace i with 0%nat by lia; rewrite E1, E1'; exact Hy|].
      specialize (IH ltac:(lia)). destruct (Nat.eq_dec i (Datatypes.S j)) as [->|]; [|apply IH; lia].
      assert (Hle : ts j <= ts (Datatypes.S j)).
      { refine (Hfw (Z.of_nat j) _ (xs j) _ (xs (Datatypes.S j)) (HIn j ltac:(lia)) _). replace (Z.of_nat j + 1)%Z with (Z.of_nat (Datatypes.S j)) by lia. apply HIn. lia. }
      apply (minimiser_full (past xs j) (past xs' j) (ts j) (ts (Datatypes.S j) - ts j)).
      - rewrite !past_map. apply past_ext. exact IH.
      - apply HM; [lia|exact Hle].
      - rewrite !Ht by lia. apply HM'; [lia|]. rewrite <- !Ht by lia. exact Hle. }
    unfold full_reports. rewrite Er, Er', !map_map. apply map_ext_in. intros j Hj. apply in_seq in Hj. cbn [fst snd].
    rewrite Ht by lia. rewrite (Hs j ltac:(lia) j (le_n _)). reflexivity.
  Qed.
End Two.

(** Lemmas behind the property theorems on nonlinear solvers in exact arithmetic. *)
From Coq Require Import Reals ZArith List Lra Lia Bool.
From Verif Require Import Base RInst QcInst FloatInst Laws LawInst ImplicitModel ImplicitSpec NonlinDiag NonlinModel NonlinWp NonlinDiagProofs
  NonlinSpec NonlinRuns NonlinProofs NonlinSolve NonlinLines NonlinClaims NonlinSeq NonlinFollow NonlinLaws NonlinExact.
Import ListNotations.
Local Open Scope R_scope.

(** ** Halving *)
Lemma ten_ends : forall S (o : sops S), ten_halvings o -> halving_ends o.
Proof. intros S o [H _]. exists 10%nat. split; [lia|exact H]. Qed.
Lemma ten_Qc : ten_halvings QcS.
Proof.
  split; [vm_compute; reflexivity|]. intros n Hn.
  do 10 (destruct n as [|n]; [vm_compute; reflexivity|]). lia.
Qed.
Lemma ten_F64 : ten_halvings F64.
Proof.
  split; [vm_compute; reflexivity|]. intros n Hn.
  do 10 (destruct n as [|n]; [vm_compute; reflexivity|]). lia.
Qed.
Lemma sZ_R : forall eps z, sZ (Rops eps) z = IZR z.
Proof.
  intros eps z. destruct z as [|p|p]; [reflexivity| |].
  - apply R_of_pos.
  - change (- s_of_pos (Rops eps) p = IZR (Z.neg p)). rewrite R_of_pos. reflexivity.
Qed.
Lemma halvings_R : forall eps n, halvings (Rops eps) n = (/ 2) ^ n.
Proof.
  induction n as [|n IH]; [reflexivity|]. cbn [halvings]. rewrite IH, sZ_R. cbn [pow].
  change (smul (Rops eps)) with Rmult. change (sdiv (Rops eps)) with Rdiv. change (s1 (Rops eps)) with 1. lra.
Qed.
Lemma ten_R : forall eps, ten_halvings (Rops eps).
Proof.
  intros eps.
  assert (K : forall n, too_small (Rops eps) (halvings (Rops eps) n) = Rleb ((/ 2) ^ n) (1 / 1000)).
  { intros n. unfold too_small. rewrite halvings_R, sZ_R.
    change (sleb (Rops eps)) with Rleb. change (sabs (Rops eps)) with Rabs. change (sdiv (Rops eps)) with Rdiv. change (s1 (Rops eps)) with 1.
    rewrite Rabs_right; [reflexivity|]. apply Rle_ge. apply pow_le. lra. }
  split.
  - rewrite K. apply Rleb_true. simpl. lra.
  - intros n Hn. rewrite K. apply Rleb_false. do 10 (destruct n as [|n]; [simpl; lra|]). lia.
Qed.

Section Real.
  Context {V Rs J H L W : Type}.
  Variable eps : R.
  Notation o := (Rops eps).
  Variable no : nlops R V Rs J H.
  Variable xt : exts V Rs J H L.
  Notation G := (reg R V Rs J H L).
  Notation info := (info R V Rs J).
  Notation vo := (n_vo no).

  (** ** Descent along the visited states *)
  Variable F : V -> Rs.
  Lemma descends_le : forall f xs, descends o F f 1 xs ->
    forall n m y z, (n <= m)%nat -> nth_error xs n = Some y -> nth_error xs m = Some z -> f (F z) <= f (F y).
  Proof.
    intros f xs Hd n m. induction m as [|m IH]; intros y z Hnm Hy Hz.
    - replace n with O in Hy by lia. rewrite Hy in Hz. injection Hz as <-. lra.
    - destruct (Nat.eq_dec n (S m)) as [->|Hne]; [rewrite Hy in Hz; injection Hz as <-; lra|].
      destruct (nth_error xs m) as [u|] eqn:Eu.
      + specialize (IH y u ltac:(lia) Hy eq_refl). pose proof (Hd m u z Eu Hz) as K.
        change (sleb o) with Rleb in K. change (smul o) with Rmult in K. apply Rleb_true in K. lra.
      + apply nth_error_None in Eu. assert (S m < length xs)%nat by (apply nth_error_Some; congruence). lia.
  Qed.
  Lemma visited_le : forall f xs ls x0 x, descends o F f 1 xs -> visited xs ls x0 x ->
    f (F x) <= f (F x0) /\ forall l, In l ls -> f (F x) <= f (F (l_state (S:=R) l)) <= f (F x0).
  Proof.
    intros f xs ls x0 x Hd [V1 [[a V2] V3]].
    assert (N0 : nth_error xs 0 = Some x0) by (destruct xs; [discriminate|exact V1]).
    assert (N1 : nth_error xs (length a) = Some x) by (rewrite V2, nth_error_app2, Nat.sub_diag by lia; reflexivity).
    split; [apply (descends_le f xs Hd 0 (length a)); [lia|assumption|assumption]|].
    intros l Hl. apply (in_map l_state) in Hl.
    assert (Hin : In (l_state l) xs) by (destruct V3 as [-> | ->]; [exact Hl|apply in_or_app; left; exact Hl]).
    destruct (In_nth_error _ _ Hin) as [n Hn].
    assert (n < length xs)%nat by (apply nth_error_Some; congruence).
    assert (length xs = S (length a)) by (rewrite V2, app_length; cbn; lia).
    split; [apply (descends_le f xs Hd n (length a)); [lia|assumption|assumption]
           |apply (descends_le f xs Hd 0 n); [lia|assumption|assumption]].
  Qed.
  Lemma descends_strict : forall f zeta xs, zeta < 1 -> descends o F f zeta xs ->
    forall n y z, nth_error xs n = Some y -> nth_error xs (S n) = Some z -> 0 < f (F y) -> f (F z) < f (F y).
  Proof.
    intros f zeta xs Hz Hd n y z Hy Hzz Hp. pose proof (Hd n y z Hy Hzz) as K.
    change (sleb o) with Rleb in K. change (smul o) with Rmult in K. apply Rleb_true in K.
    assert (zeta * f (F y) < 1 * f (F y)) by (apply Rmult_lt_compat_r; lra). lra.
  Qed.

  (** ** Damping *)
  Lemma larger_ge : forall a b, a <= larger o a b /\ b <= larger o a b.
  Proof.
    intros a b. unfold larger. change (sltb o) with Rltb. destruct (Rltb a b) eqn:E.
    - apply Rltb_true in E. lra.
    - apply Rltb_false in E. lra.
  Qed.
  Lemma smaller_le : forall a b, smaller o a b <= a /\ smaller o a b <= b /\ (smaller o a b = a \/ smaller o a b = b).
  Proof.
    intros a b. unfold smaller. change (sltb o) with Rltb. destruct (Rltb b a) eqn:E.
    - apply Rltb_true in E. lra.
    - apply Rltb_false in E. lra.
  Qed.
  Lemma larger_cases : forall a b, larger o a b = a \/ larger o a b = b.
  Proof. intros a b. unfold larger. destruct (sltb o a b); auto. Qed.
  Lemma schedule1_pos : forall mu nu rho, 0 < mu -> 0 < nu ->
    0 < fst (schedule1 o mu nu rho) /\ 0 < snd (schedule1 o mu nu rho).
  Proof.
    intros mu nu rho H1 H2. unfold schedule1. destruct (sltb o (s0 o) rho); cbn [fst snd].
    - change (smul o) with Rmult. rewrite !sZ_R. split; [|lra]. apply Rmult_lt_0_compat; [exact H1|].
      eapply Rlt_le_trans; [|apply (proj1 (larger_ge _ _))]. change (sdiv o) with Rdiv. change (s1 o) with 1. lra.
    - change (smul o) with Rmult. rewrite !sZ_R. split; apply Rmult_lt_0_compat; lra.
  Qed.
  Definition in_range (mu : R) : Prop := 1 / 10000000 <= mu <= 10000000.
  Lemma schedule2_range : forall mu rho, in_range mu -> in_range (schedule2 o mu rho).
  Proof.
    unfold in_range. intros mu rho Hm. unfold schedule2. rewrite !sZ_R. change (smul o) with Rmult. change (sdiv o) with Rdiv.
    change (s1 o) with 1. change (sltb o) with Rltb.
    set (mu' := if Rltb rho (1 / 5) then _ else mu).
    assert (Hm' : 1 / 10000000 <= mu' <= 10000000).
    { subst mu'. destruct (Rltb rho (1 / 5)); [|exact Hm].
      destruct (smaller_le (mu * 2) 10000000) as [A [B [C|C]]]; rewrite C in A, B |- *; lra. }
    destruct (Rltb (4 / 5) rho); [|exact Hm'].
    destruct (larger_ge (1 / 10000000) (mu' * (1 / 3))) as [A B].
    destruct (larger_cases (1 / 10000000) (mu' * (1 / 3))) as [C|C]; rewrite C in A, B |- *; lra.
  Qed.

  (** the points of a run stay in a set that moves preserve *)
  Lemma ends_invariant : forall cf (valid : info -> Prop) measure (move : info -> V * R * R -> Prop) p0 stuck fsys flin ftrial rexn lexn pub reports file0 r p ls fl (P : V * R * R -> Prop),
    P p0 -> (forall i q, valid i -> P (i_x i, i_mu i, i_nu i) -> move i q -> P q) ->
    solve_ends o cf valid measure move p0 stuck fsys flin ftrial rexn lexn pub reports file0 r p ls fl -> P p.
  Proof.
    intros cf valid measure move p0 stuck fsys flin ftrial rexn lexn pub reports file0 r p ls fl P H0 Hm K.
    assert (Hs : forall is p, steps o cf valid measure move p0 is p -> P p).
    { intros is q Hs. induction Hs; [exact H0|]. apply (Hm i p'); [assumption| |assumption]. unfold at_point in *. subst. exact IHHs. }
    destruct K; eauto.
  Qed.
End Real.

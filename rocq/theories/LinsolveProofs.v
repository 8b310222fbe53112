(** Proofs about the linear solver objects. *)
From Coq Require Import ZArith List Bool Arith Lia Field.
From Verif Require Import Base Laws LinsolveModel LinsolveSpec.
Import ListNotations.

Section Sums.
  Context {S : Type} (o : sops S) (HF : sfield o).
  Add Ring Sr : (sring o HF).

  Lemma ssum_ext : forall m k f g, (forall j, k <= j < k + m -> f j = g j) ->
    ssum o m k f = ssum o m k g.
  Proof.
    induction m; intros k f g H; cbn; [reflexivity|]. rewrite H by lia.
    rewrite (IHm _ _ g); [reflexivity|]. intros j Hj. apply H. lia.
  Qed.
  Lemma ssum_0 : forall m k, ssum o m k (fun _ => s0 o) = s0 o.
  Proof. induction m; intros k; cbn; [reflexivity|]. rewrite IHm. ring. Qed.
  Lemma ssum_single : forall m k i f, k <= i < k + m ->
    (forall j, k <= j < k + m -> j <> i -> f j = s0 o) -> ssum o m k f = f i.
  Proof.
    induction m; intros k i f Hi H; [lia|]. cbn.
    destruct (Nat.eq_dec i k) as [->|Hn].
    - rewrite (ssum_ext m _ _ (fun _ => s0 o)); [rewrite ssum_0; ring|].
      intros j Hj. apply H; lia.
    - rewrite (H k) by lia. rewrite (IHm _ i); [ring|lia|]. intros j Hj. apply H. lia.
  Qed.
  Lemma ssum_split : forall m1 m2 k f,
    ssum o (m1 + m2) k f = sadd o (ssum o m1 k f) (ssum o m2 (k + m1) f).
  Proof.
    induction m1; intros m2 k f; cbn.
    - rewrite Nat.add_0_r. ring.
    - rewrite IHm1. replace (Datatypes.S k + m1) with (k + Datatypes.S m1) by lia. ring.
  Qed.
  Lemma ssum_add : forall m k f g,
    ssum o m k (fun j => sadd o (f j) (g j)) = sadd o (ssum o m k f) (ssum o m k g).
  Proof. induction m; intros k f g; cbn; [ring|]. rewrite IHm. ring. Qed.
  Lemma ssum_scale : forall m k c f,
    ssum o m k (fun j => smul o c (f j)) = smul o c (ssum o m k f).
  Proof. induction m; intros k c f; cbn; [ring|]. rewrite IHm. ring. Qed.
End Sums.

Section Kokkos.
  Context {S : Type} (o : sops S) (lp : lapack S) (HL : lapack_ok o lp).
  Variable asserts : bool.

  Lemma to_aux_ok : forall aux A,
    to_aux o aux A = Done (mk_mtx (rows A) (cols A) (ent A)).
  Proof.
    intros aux A. unfold to_aux, mdeep_copy.
    destruct ((rows A =? rows aux) && (cols A =? cols aux)) eqn:E.
    - apply andb_prop in E. destruct E as [E1 E2]. rewrite E1, E2. cbn.
      apply Nat.eqb_eq in E1, E2. rewrite <- E1, <- E2, !Nat.eqb_refl. reflexivity.
    - replace (negb (rows A =? rows aux) || negb (cols A =? cols aux)) with true.
      + cbn. rewrite !Nat.eqb_refl. reflexivity.
      + destruct (rows A =? rows aux), (cols A =? cols aux); cbn in *; congruence.
  Qed.

  Lemma size_checks_ok : forall n (A : mtx S) (b y : vct S), sized n A b y ->
    size_checks asserts A b y = Done tt.
  Proof.
    intros n A b y (H0 & H1 & H2 & H3 & H4). unfold size_checks, check.
    rewrite H1, H2, H3, H4, Nat.eqb_refl. reflexivity.
  Qed.

  Lemma solves_ext : forall n A y b b', (forall i, i < n -> b i = b' i) ->
    solves o n A y b -> solves o n A y b'.
  Proof. intros n A y b b' E H i Hi. rewrite <- E by exact Hi. apply H; exact Hi. Qed.

  Lemma qr_solves : forall n A d t b, lp_geqrf lp n A = (d, t) -> nonsingular o n A ->
    solves o n A (lp_trsm lp n d (lp_ormqr lp n d t b)) b.
  Proof.
    intros n A d t b E HN. destruct (lo_qr _ _ HL _ _ _ _ E) as (_ & Hi & H0).
    apply Hi. apply (lo_trsm _ _ HL). intros y Hy. apply HN. apply Hi.
    intros i Hlt. rewrite H0 by exact Hlt. apply Hy; exact Hlt.
  Qed.

  (** ** getrs *)
  Lemma getrs_reuse : forall aux n A b y, sized n A b y -> nonsingular o n (ent A) ->
    solved o (getrs_solve o lp asserts aux A b y) n A b.
  Proof.
    intros aux n A b y Hs HN. unfold getrs_solve. rewrite to_aux_ok. cbn [andthen].
    unfold getrs_overwrite. rewrite (size_checks_ok n) by exact Hs.
    destruct Hs as (H0 & H1 & H2 & H3 & H4). cbn [andthen rows cols ent].
    rewrite (proj2 (Nat.eqb_neq (rows A) 0)) by lia.
    destruct (lp_getrf lp (rows A) (ent A)) as [[d p] info] eqn:E.
    rewrite H1 in E. destruct (lo_getrf _ _ HL _ _ _ _ _ E) as [Hi Hsol].
    assert (info = 0%Z) as -> by (apply Hi; exact HN).
    unfold check, vdeep_copy. cbn [Z.eqb negb andb andthen size at_]. rewrite H3, H4, Nat.eqb_refl. cbn [andthen size at_].
    rewrite H1, Nat.ltb_irrefl. eexists. eexists. split; [reflexivity|].
    split; [reflexivity|]. cbn. apply Hsol. reflexivity.
  Qed.

  Lemma getrs_debug_stops : forall aux n A b y, asserts = true -> sized n A b y ->
    ~ nonsingular o n (ent A) -> getrs_solve o lp asserts aux A b y = Stopped.
  Proof.
    intros aux n A b y Ha Hs HN. unfold getrs_solve. rewrite to_aux_ok. cbn [andthen].
    unfold getrs_overwrite. rewrite (size_checks_ok n) by exact Hs.
    destruct Hs as (H0 & H1 & H2 & H3 & H4). cbn [andthen rows cols ent].
    rewrite (proj2 (Nat.eqb_neq (rows A) 0)) by lia.
    destruct (lp_getrf lp (rows A) (ent A)) as [[d p] info] eqn:E.
    rewrite H1 in E. destruct (lo_getrf _ _ HL _ _ _ _ _ E) as [Hi Hsol].
    destruct (Z.eqb_spec info 0) as [->|Hne]; [exfalso; apply HN, Hi; reflexivity|].
    unfold check. rewrite Ha. reflexivity.
  Qed.
  Lemma getrs_release : forall aux n A b y, asserts = false -> sized n A b y ->
    exists x y', getrs_solve o lp asserts aux A b y = Done (x, y').
  Proof.
    intros aux n A b y Ha Hs. unfold getrs_solve. rewrite to_aux_ok. cbn [andthen].
    unfold getrs_overwrite. rewrite (size_checks_ok n) by exact Hs.
    destruct Hs as (H0 & H1 & H2 & H3 & H4). cbn [andthen rows cols ent].
    rewrite (proj2 (Nat.eqb_neq (rows A) 0)) by lia.
    destruct (lp_getrf lp (rows A) (ent A)) as [[d p] info] eqn:E.
    unfold check, vdeep_copy. rewrite Ha, andb_false_r. cbn [andthen size at_]. rewrite H3, H4, Nat.eqb_refl. cbn [andthen size at_].
    rewrite H1, Nat.ltb_irrefl. eexists. eexists. reflexivity.
  Qed.

  (** ** potrs *)
  Lemma symm_eq : forall up n (A : nat -> nat -> S), symmetric n A -> forall i j, i < n -> j < n ->
    symm up A i j = A i j.
  Proof.
    intros up n A H i j Hi Hj. unfold symm.
    destruct up, (Nat.le_gt_cases i j) as [Hc|Hc].
    - rewrite Nat.min_l, Nat.max_r by lia. reflexivity.
    - rewrite Nat.min_r, Nat.max_l by lia. apply H; assumption.
    - rewrite Nat.max_r, Nat.min_l by lia. apply H; assumption.
    - rewrite Nat.max_l, Nat.min_r by lia. reflexivity.
  Qed.
  Lemma solves_ext_m : forall n A A' y b, (forall i j, i < n -> j < n -> A i j = A' i j) ->
    solves o n A y b -> solves o n A' y b.
  Proof.
    intros n A A' y b E H i Hi. rewrite <- (H i Hi). apply ssum_ext.
    intros j Hj. rewrite E by lia. reflexivity.
  Qed.
  Lemma pd_ext : forall n A A', (forall i j, i < n -> j < n -> A i j = A' i j) ->
    positive_definite o n A -> positive_definite o n A'.
  Proof.
    intros n A A' E H y Hy. rewrite <- (H y Hy). f_equal. apply ssum_ext.
    intros i Hi. f_equal. apply ssum_ext. intros j Hj. rewrite E by lia. reflexivity.
  Qed.

  Lemma potrs_solved_sym : forall up aux n A b y, sized n A b y ->
    positive_definite o n (symm up (ent A)) ->
    exists x y', potrs_solve o lp asserts up aux A b y = Done (x, y') /\ size y' = n /\
      solves o n (symm up (ent A)) (at_ y') (at_ b).
  Proof.
    intros up aux n A b y Hs HP. unfold potrs_solve. rewrite to_aux_ok. cbn [andthen].
    unfold potrs_overwrite. rewrite (size_checks_ok n) by exact Hs.
    destruct Hs as (H0 & H1 & H2 & H3 & H4). cbn [andthen rows cols ent].
    rewrite (proj2 (Nat.eqb_neq (rows A) 0)) by lia.
    destruct (lp_potrf lp up (rows A) (ent A)) as [d info] eqn:E.
    rewrite H1 in E. destruct (lo_potrf _ _ HL _ _ _ _ _ E) as [Hi Hsol].
    rewrite (Hi HP) in *.
    unfold check, vdeep_copy. cbn [Z.eqb negb andb andthen size at_]. rewrite H3, H4, Nat.eqb_refl. cbn [andthen size at_].
    rewrite H1, Nat.ltb_irrefl. eexists. eexists. split; [reflexivity|].
    split; [reflexivity|]. cbn. apply Hsol. reflexivity.
  Qed.
  Lemma potrs_reuse : forall up aux n A b y, sized n A b y ->
    symmetric n (ent A) -> positive_definite o n (ent A) ->
    solved o (potrs_solve o lp asserts up aux A b y) n A b.
  Proof.
    intros up aux n A b y Hs Hsy HP.
    destruct (potrs_solved_sym up aux n A b y Hs) as (x & y' & E & E1 & E2).
    - apply (pd_ext _ (ent A)); [|exact HP]. intros i j Hi Hj. symmetry.
      apply (symm_eq up n); assumption.
    - exists x, y'. split; [exact E|]. split; [exact E1|].
      apply (solves_ext_m _ (symm up (ent A))); [|exact E2].
      intros i j Hi Hj. apply (symm_eq up n); assumption.
  Qed.
  Lemma potrs_debug : forall up aux n A b y, asserts = true -> sized n A b y ->
    (forall z, ~ solves o n (symm up (ent A)) z (at_ b)) ->
    potrs_solve o lp asserts up aux A b y = Stopped.
  Proof.
    intros up aux n A b y Ha Hs HP. unfold potrs_solve. rewrite to_aux_ok. cbn [andthen].
    unfold potrs_overwrite. rewrite (size_checks_ok n) by exact Hs.
    destruct Hs as (H0 & H1 & H2 & H3 & H4). cbn [andthen rows cols ent].
    rewrite (proj2 (Nat.eqb_neq (rows A) 0)) by lia.
    destruct (lp_potrf lp up (rows A) (ent A)) as [d info] eqn:E.
    rewrite H1 in E. destruct (lo_potrf _ _ HL _ _ _ _ _ E) as [Hi Hsol].
    destruct (Z.eqb_spec info 0) as [->|Hne].
    - exfalso. apply (HP (lp_potrs lp up n d (at_ b))). apply Hsol. reflexivity.
    - unfold check. rewrite Ha. reflexivity.
  Qed.
  Lemma potrs_release : forall up aux n A b y, asserts = false -> sized n A b y ->
    exists x y', potrs_solve o lp asserts up aux A b y = Done (x, y').
  Proof.
    intros up aux n A b y Ha Hs. unfold potrs_solve. rewrite to_aux_ok. cbn [andthen].
    unfold potrs_overwrite. rewrite (size_checks_ok n) by exact Hs.
    destruct Hs as (H0 & H1 & H2 & H3 & H4). cbn [andthen rows cols ent].
    rewrite (proj2 (Nat.eqb_neq (rows A) 0)) by lia.
    destruct (lp_potrf lp up (rows A) (ent A)) as [d info] eqn:E.
    unfold check, vdeep_copy. rewrite Ha, andb_false_r. cbn [andthen size at_]. rewrite H3, H4, Nat.eqb_refl. cbn [andthen size at_].
    rewrite H1, Nat.ltb_irrefl. eexists. eexists. reflexivity.
  Qed.

  (** ** geqrf *)
  Definition geqrf_at (s : gobj S) (w : nat) : Prop := go_lwork s = Z.of_nat w.

  Lemma geqrf_call_ok : forall n A tau w, Nat.max 1 n <= w ->
    geqrf_call lp n A tau (Z.of_nat w) =
    Done (fst (lp_geqrf lp n A), snd (lp_geqrf lp n A), 0, 0%Z).
  Proof.
    intros n A tau w Hw. unfold geqrf_call.
    rewrite (proj2 (Z.eqb_neq _ _)) by lia.
    rewrite (proj2 (Z.ltb_ge _ _)) by lia.
    destruct (lp_geqrf lp n A). reflexivity.
  Qed.

  Lemma geqrf_step : forall s w n A b y, geqrf_at s w -> Nat.max 1 n <= w ->
    sized n A b y -> nonsingular o n (ent A) ->
    exists s' y', geqrf_solve o lp asserts s A b y = Done (s', y') /\ geqrf_at s' w /\
      size y' = n /\ solves o n (ent A) (at_ y') (at_ b) /\
      go_tau s' = snd (lp_geqrf lp n (ent A)).
  Proof.
    intros s w n A b y Hw Hle Hs HN. unfold geqrf_solve. rewrite to_aux_ok. cbn [andthen].
    unfold geqrf_overwrite. rewrite (size_checks_ok n) by exact Hs.
    destruct Hs as (H0 & H1 & H2 & H3 & H4). cbn [andthen rows cols ent].
    rewrite (proj2 (Nat.eqb_neq (rows A) 0)) by lia.
    rewrite Hw, (proj2 (Z.eqb_neq _ _)) by lia. cbn [andthen fst snd].
    rewrite H1. rewrite geqrf_call_ok by exact Hle. cbn [andthen].
    unfold check, vdeep_copy. cbn [Z.eqb negb andb andthen size at_]. rewrite H3, H4, Nat.eqb_refl. cbn [andthen size at_].
    rewrite Nat.ltb_irrefl. cbn. eexists. eexists. split; [reflexivity|].
    split; [exact (eq_refl _)|]. split; [reflexivity|]. split; [|reflexivity]. cbn.
    destruct (lp_geqrf lp n (ent A)) as [d t] eqn:E. cbn. apply qr_solves; assumption.
  Qed.

  Lemma geqrf_first : forall s n A b y, go_lwork s = (-1)%Z ->
    sized n A b y -> nonsingular o n (ent A) ->
    exists s' y', geqrf_solve o lp asserts s A b y = Done (s', y') /\
      geqrf_at s' (lp_optimal lp n) /\
      size y' = n /\ solves o n (ent A) (at_ y') (at_ b) /\
      go_tau s' = snd (lp_geqrf lp n (ent A)).
  Proof.
    intros s n A b y Hw Hs HN. unfold geqrf_solve. rewrite to_aux_ok. cbn [andthen].
    unfold geqrf_overwrite. rewrite (size_checks_ok n) by exact Hs.
    destruct Hs as (H0 & H1 & H2 & H3 & H4). cbn [andthen rows cols ent].
    rewrite (proj2 (Nat.eqb_neq (rows A) 0)) by lia.
    rewrite Hw, Z.eqb_refl. unfold geqrf_call at 1. rewrite Z.eqb_refl. cbn [andthen fst snd].
    rewrite H1. rewrite geqrf_call_ok by apply (lo_optimal _ _ HL). cbn [andthen].
    unfold check, vdeep_copy. cbn [Z.eqb negb andb andthen size at_]. rewrite H3, H4, Nat.eqb_refl. cbn [andthen size at_].
    rewrite Nat.ltb_irrefl. cbn. eexists. eexists. split; [reflexivity|].
    split; [exact (eq_refl _)|]. split; [reflexivity|]. split; [|reflexivity]. cbn.
    destruct (lp_geqrf lp n (ent A)) as [d t] eqn:E. cbn. apply qr_solves; assumption.
  Qed.

  (** a system that the object can be asked to solve *)
  Definition fine (bound : nat) (c : mtx S * vct S * vct S) : Prop :=
    let '(A, b, y) := c in
    sized (rows A) A b y /\ nonsingular o (rows A) (ent A) /\ rows A <= bound.

  Lemma geqrf_run_at : forall l s w, geqrf_at s w -> 1 <= w -> Forall (fine w) l ->
    exists s', geqrf_run o lp asserts s l = Done s' /\ geqrf_at s' w.
  Proof.
    induction l as [|[[A b] y] l IH]; intros s w Hw H1 Hl; cbn.
    - exists s. split; [reflexivity|exact Hw].
    - inversion Hl as [|c l' Hc Hl']; subst. destruct Hc as (Hs & HN & Hle).
      destruct (geqrf_step s w (rows A) A b y Hw) as (s' & y' & E & Hw' & _);
        [lia|exact Hs|exact HN|].
      rewrite E. cbn. apply IH; assumption.
  Qed.

  Lemma geqrf_reuse : forall A0 b0 y0 l n A b y,
    Forall (fine (lp_optimal lp (rows A0))) ((A0, b0, y0) :: l) ->
    n <= lp_optimal lp (rows A0) -> sized n A b y -> nonsingular o n (ent A) ->
    exists s, geqrf_run o lp asserts (gobj_new o) ((A0, b0, y0) :: l) = Done s /\
      solved o (geqrf_solve o lp asserts s A b y) n A b.
  Proof.
    intros A0 b0 y0 l n A b y Hl Hn Hs HN. pose proof (lo_optimal _ _ HL (rows A0)) as Hopt.
    inversion Hl as [|c l' Hc Hl']; subst. destruct Hc as (Hs0 & HN0 & _).
    destruct (geqrf_first (gobj_new o) (rows A0) A0 b0 y0) as (s1 & y1 & E & Hw & _);
      [reflexivity|exact Hs0|exact HN0|].
    destruct (geqrf_run_at l s1 _ Hw) as (s2 & E2 & Hw2); [lia|exact Hl'|].
    exists s2. split; [cbn [geqrf_run]; rewrite E; cbn; exact E2|].
    destruct (geqrf_step s2 _ n A b y Hw2) as (s3 & y3 & E3 & _ & Hsz & Hsol & _);
      [lia|exact Hs|exact HN|].
    exists s3, y3. repeat split; assumption.
  Qed.

  (** ** geqrf: a second, larger system *)
  Context (HF : sfield o).
  Add Ring Sr2 : (sring o HF).

  Lemma one_neq_zero : s1 o <> s0 o.
  Proof. exact (F_1_neq_0 HF). Qed.

  Definition wA0 : mtx S := mk_mtx 1 1 (fun _ _ => s1 o).
  Definition wb (n : nat) : vct S := mk_vct n (fun i => if i =? 0 then s1 o else s0 o).
  Definition wA (n : nat) : mtx S :=
    mk_mtx n n (fun i j => if (i =? j) || ((Datatypes.S i =? n) && (j =? 0)) then s1 o else s0 o).

  Lemma wA_upper : forall n i y, 2 <= n -> i < n ->
    ssum o (n - i) i (fun j => smul o (ent (wA n) i j) (y j)) = y i.
  Proof.
    intros n i y Hn Hi. rewrite (ssum_single o HF _ _ i); [|lia|].
    - cbn. rewrite Nat.eqb_refl. cbn. ring.
    - intros j Hj Hne. cbn [ent wA]. rewrite (proj2 (Nat.eqb_neq i j)) by lia.
      rewrite (proj2 (Nat.eqb_neq j 0)) by lia. rewrite andb_false_r. cbn. ring.
  Qed.
  Lemma wA_row : forall n i y, 2 <= n -> i < n ->
    ssum o n 0 (fun j => smul o (ent (wA n) i j) (y j)) =
    if Datatypes.S i =? n then sadd o (y 0) (y i) else y i.
  Proof.
    intros n i y Hn Hi. destruct (Nat.eqb_spec (Datatypes.S i) n) as [E|E].
    - replace n with (i + 1) at 1 by lia. rewrite (ssum_split o HF).
      rewrite (ssum_single o HF i 0 0); [|lia|].
      + cbn [ssum]. cbn [ent wA]. rewrite !Nat.add_0_l, !Nat.eqb_refl, E, Nat.eqb_refl.
        rewrite orb_true_r. cbn. ring.
      + intros j Hj Hne. cbn [ent wA]. rewrite (proj2 (Nat.eqb_neq i j)) by lia.
        rewrite (proj2 (Nat.eqb_neq j 0)) by lia. rewrite andb_false_r. cbn. ring.
    - rewrite (ssum_single o HF _ _ i); [|lia|].
      + cbn. rewrite Nat.eqb_refl. cbn. ring.
      + intros j Hj Hne. cbn [ent wA]. rewrite (proj2 (Nat.eqb_neq i j)) by lia.
        rewrite (proj2 (Nat.eqb_neq (Datatypes.S i) n)) by exact E. cbn. ring.
  Qed.
  Lemma wA_nonsingular : forall n, 2 <= n -> nonsingular o n (ent (wA n)).
  Proof.
    intros n Hn y Hy.
    assert (forall i, Datatypes.S i < n -> y i = s0 o) as H1.
    { intros i Hi. pose proof (Hy i ltac:(lia)) as E. rewrite wA_row in E by lia.
      rewrite (proj2 (Nat.eqb_neq _ _)) in E by lia. exact E. }
    intros i Hi. destruct (Nat.eq_dec (Datatypes.S i) n) as [E|E]; [|apply H1; lia].
    pose proof (Hy i Hi) as E2. rewrite wA_row in E2 by lia.
    rewrite (proj2 (Nat.eqb_eq _ _) E) in E2. rewrite (H1 0) in E2 by lia.
    rewrite <- E2. ring.
  Qed.
  Lemma wA0_nonsingular : nonsingular o 1 (ent wA0).
  Proof.
    intros y Hy i Hi. replace i with 0 by lia. pose proof (Hy 0 ltac:(lia)) as E.
    cbn in E. rewrite <- E. ring.
  Qed.

  Lemma wrong_solution : forall n, 2 <= n ->
    ~ solves o n (ent (wA n)) (lp_trsm lp n (ent (wA n))
       (lp_ormqr lp n (ent (wA n)) (repeat (s0 o) n) (at_ (wb n)))) (at_ (wb n)).
  Proof.
    intros n Hn H.
    set (z := lp_ormqr lp n (ent (wA n)) (repeat (s0 o) n) (at_ (wb n))) in *.
    assert (upper_solves o n (ent (wA n)) (lp_trsm lp n (ent (wA n)) z) z) as Hu.
    { apply (lo_trsm _ _ HL). intros y Hy i Hi. rewrite <- (Hy i Hi).
      symmetry. apply wA_upper; lia. }
    assert (forall i, i < n -> lp_trsm lp n (ent (wA n)) z i = at_ (wb n) i) as He.
    { intros i Hi. rewrite <- (lo_identity _ _ HL n (ent (wA n)) (at_ (wb n)) i Hi).
      pose proof (Hu i Hi) as E. rewrite wA_upper in E by lia. exact E. }
    assert (n - 1 < n) as Hl by lia. pose proof (H (n - 1) Hl) as E.
    rewrite wA_row in E by lia. rewrite (proj2 (Nat.eqb_eq _ _)) in E by lia.
    rewrite !He in E by lia. cbn in E. rewrite (proj2 (Nat.eqb_neq (n - 1) 0)) in E by lia.
    apply one_neq_zero. transitivity (sadd o (s1 o) (s0 o)); [ring|exact E].
  Qed.

  Lemma geqrf_larger : exists n s,
    geqrf_run o lp asserts (gobj_new o) [(wA0, wb 1, wb 1)] = Done s /\
    solved o (geqrf_solve o lp asserts (gobj_new o) wA0 (wb 1) (wb 1)) 1 wA0 (wb 1) /\
    sized n (wA n) (wb n) (wb n) /\ nonsingular o n (ent (wA n)) /\
    ~ solved o (geqrf_solve o lp asserts s (wA n) (wb n) (wb n)) n (wA n) (wb n) /\
    (asserts = true \/ lp_stops lp = true ->
       geqrf_solve o lp asserts s (wA n) (wb n) (wb n) = Stopped) /\
    (asserts = false -> lp_stops lp = false ->
       exists s' y', geqrf_solve o lp asserts s (wA n) (wb n) (wb n) = Done (s', y') /\
         ~ solves o n (ent (wA n)) (at_ y') (at_ (wb n))).
  Proof.
    set (n := Datatypes.S (lp_optimal lp 1)).
    pose proof (lo_optimal _ _ HL 1) as Hopt. assert (2 <= n) as Hn by (unfold n; lia).
    destruct (geqrf_first (gobj_new o) 1 wA0 (wb 1) (wb 1))
      as (s & y1 & E & Hw & Hsz & Hsol & Ht); [reflexivity|repeat split; lia|exact wA0_nonsingular|].
    rewrite (lo_last _ _ HL) in Ht.
    assert (geqrf_solve o lp asserts s (wA n) (wb n) (wb n) =
      if lp_stops lp || asserts then Stopped else
      Done (mk_gobj (go_lwork s) (go_work s) (repeat (s0 o) n) (mk_mtx n n (ent (wA n))),
            mk_vct n (lp_trsm lp n (ent (wA n))
              (lp_ormqr lp n (ent (wA n)) (repeat (s0 o) n) (at_ (wb n)))))) as E2.
    { unfold geqrf_solve. rewrite to_aux_ok. cbn [andthen].
      unfold geqrf_overwrite. rewrite (size_checks_ok n) by (repeat split; cbn; lia).
      cbn [andthen rows cols ent]. rewrite (proj2 (Nat.eqb_neq (rows (wA n)) 0)) by (cbn; lia). rewrite Hw.
      rewrite (proj2 (Z.eqb_neq (Z.of_nat (lp_optimal lp 1)) (-1))) by lia. cbn [andthen fst snd].
      unfold geqrf_call. red in Hw. rewrite Hw. rewrite (proj2 (Z.eqb_neq (Z.of_nat (lp_optimal lp 1)) (-1))) by lia.
      cbn [rows wA].
      rewrite (proj2 (Z.ltb_lt _ _)) by (unfold n; lia).
      destruct (lp_stops lp); [reflexivity|]. cbn [andthen].
      unfold check. destruct asserts; cbn [negb andb orb Z.eqb andthen]; [reflexivity|].
      unfold vdeep_copy. cbn [size wb]. rewrite Nat.eqb_refl. cbn [andthen size at_].
      rewrite Nat.ltb_irrefl. cbn [andthen go_lwork go_work go_tau]. rewrite Ht. cbn [length].
      rewrite (proj2 (Nat.eqb_neq 1 n)) by lia. cbn [negb]. unfold lresize. cbn [length].
      replace (firstn n [s0 o] ++ repeat (s0 o) (n - 1)) with (repeat (s0 o) n).
      - rewrite <- Hw. reflexivity.
      - replace n with (Datatypes.S (n - 1)) at 1 2 by lia. cbn [firstn repeat app].
        rewrite firstn_nil. reflexivity. }
    exists n, s. split; [cbn [geqrf_run]; rewrite E; reflexivity|].
    split; [exists s, y1; repeat split; assumption|].
    split; [repeat split; lia|]. split; [apply wA_nonsingular; exact Hn|].
    rewrite E2. split; [|split].
    - intros (x & y & Ed & _ & Hy). destruct (lp_stops lp || asserts); [discriminate|].
      injection Ed as <- <-. exact (wrong_solution n Hn Hy).
    - intros Hor. destruct (lp_stops lp), asserts; cbn; try reflexivity. destruct Hor; discriminate.
    - intros -> ->. cbn [orb]. eexists. eexists. split; [reflexivity|].
      exact (wrong_solution n Hn).
  Qed.
End Kokkos.

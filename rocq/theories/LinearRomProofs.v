(** The linear reduced operators. *)
From Coq Require Import ZArith List Bool Lia Ring.
From Verif Require Import Base Laws LinearRomModel LinearRomSpec.
Import ListNotations.

Section Linear.
  Context {S V W : Type} (o : sops S) (vo : vops S V).
  Hypotheses (HF : sfield o) (HV : vspace o vo).
  Add Ring Sr : (sring o HF).
  Variable dot : V -> V -> S.
  Hypothesis dot_add : forall l u v, dot l (vadd vo u v) = sadd o (dot l u) (dot l v).
  Hypothesis dot_scale : forall l a v, dot l (vscale vo a v) = smul o a (dot l v).
  Variable apply : V -> V -> W -> outcome unit * (V * W).
  Variables (good : W -> Prop) (A : V -> V) (b : V).
  Hypothesis HA : applies vo good apply A b.
  Hypothesis Alin : linear vo vo A.

  Lemma drop_forcing v : vadd vo (vscale vo (s1 o) (vadd vo v b)) (vscale vo (negone o) b) = v.
  Proof. unfold negone. vreduce o vo HF HV; ring. Qed.
  Lemma A_zero : A (vzero vo) = vzero vo.
  Proof.
    rewrite <- (vs_0 o vo HV (vzero vo)) at 1. rewrite (lin_scale _ _ _ Alin). apply (vs_0 o vo HV).
  Qed.
  Lemma dot_zero l : dot l (vzero vo) = s0 o.
  Proof. rewrite <- (vs_0 o vo HV (vzero vo)), dot_scale. ring. Qed.

  Lemma columns_ok (forcing : bool) b' rb : b' = b -> (forcing = false -> b = vzero vo) -> forall cols w,
    length cols = length rb -> good w ->
    exists w', do_columns o vo apply forcing b' rb cols w = (Ok tt, (map A rb, w')) /\ good w'.
  Proof.
    intros Hb Hf. induction rb as [|r rb IH]; intros [|c cols] w Hl Hw; try discriminate Hl.
    - exists w. split; [reflexivity|exact Hw].
    - cbn. destruct (HA r c w Hw) as (w1 & E & Hw1). rewrite E.
      destruct (IH cols w1 ltac:(injection Hl as Hl; exact Hl) Hw1) as (w' & E' & Hw'). rewrite E'.
      exists w'. split; [|exact Hw']. do 3 f_equal. destruct forcing.
      + rewrite Hb. apply drop_forcing.
      + rewrite (Hf eq_refl). rewrite (va_comm o vo HV), (va_0_l o vo HV). reflexivity.
  Qed.
  Lemma times_cols l : forall rb x, length x = length rb ->
    row_times o (map (fun c => dot l (A c)) rb) x = dot l (A (combine_cols vo rb x)).
  Proof.
    induction rb as [|r rb IH]; intros [|a x] Hl; try discriminate Hl.
    - cbn. rewrite A_zero, dot_zero. reflexivity.
    - cbn. rewrite (IH x ltac:(injection Hl as Hl; exact Hl)), (lin_add _ _ _ Alin), (lin_scale _ _ _ Alin), dot_add, dot_scale. ring.
  Qed.
  Lemma mat_is lb rb x : length x = length rb ->
    mat_times o (reduce_cols dot lb (map A rb)) x = tested dot lb (A (combine_cols vo rb x)).
  Proof.
    intros Hl. unfold mat_times, reduce_cols, tested. rewrite map_map. apply map_ext. intros l.
    rewrite map_map. apply times_cols. exact Hl.
  Qed.
  Lemma plus_tested lb u v : plus o (tested dot lb u) (tested dot lb v) = tested dot lb (vadd vo u v).
  Proof. unfold tested. induction lb as [|l lb IH]; [reflexivity|]. cbn. rewrite IH, dot_add. reflexivity. Qed.

  Lemma linear_operator_ok lb rb shift AR0 As0 w : length AR0 = length rb -> good w ->
    exists m M, create_reduced_linear_operator o vo dot apply lb rb shift AR0 As0 w = (Ok tt, m) /\
      operators m = (Some M, Some (tested dot lb (A shift)), Some (tested dot lb b)) /\ good (m_w m) /\
      (forall x, length x = length rb -> mat_times o M x = tested dot lb (A (combine_cols vo rb x))) /\
      (forall x, length x = length rb ->
         plus o (plus o (mat_times o M x) (tested dot lb (A shift))) (tested dot lb b) =
         tested dot lb (vadd vo (A (vadd vo (combine_cols vo rb x) shift)) b)).
  Proof.
    intros Hl Hw.
    destruct (HA (vzero vo) shift w Hw) as (w1 & E1 & Hw1).
    assert (EA : vadd vo (A (vzero vo)) b = b) by (rewrite A_zero; apply (va_0_l o vo HV)).
    destruct (columns_ok true b rb eq_refl ltac:(discriminate) AR0 w1 Hl Hw1) as (w2 & E2 & Hw2).
    destruct (HA shift As0 w2 Hw2) as (w3 & E3 & Hw3).
    unfold create_reduced_linear_operator, create_linear, compute2, forcing_step, project_forcing, columns_step,
      project_mat, shift_step, project_shift, bind. cbn [m_AR m_As m_b m_mat m_shift m_forcing m_w].
    rewrite E1, EA. cbn [m_AR m_As m_b m_mat m_shift m_forcing m_w]. rewrite E2. cbn [m_AR m_As m_b m_mat m_shift m_forcing m_w].
    rewrite E3. cbn [m_AR m_As m_b m_mat m_shift m_forcing m_w]. rewrite drop_forcing.
    do 2 eexists. split; [reflexivity|]. unfold operators. cbn [m_AR m_As m_b m_mat m_shift m_forcing m_w].
    split; [reflexivity|]. split; [exact Hw3|].
    split; [intros x Hx; apply mat_is; exact Hx|].
    intros x Hx. rewrite mat_is by exact Hx. rewrite !plus_tested, <- (lin_add _ _ _ Alin). reflexivity.
  Qed.
  Lemma matrix_operator_ok lb rb shift AR0 As0 w : b = vzero vo -> length AR0 = length rb -> good w ->
    exists m M, create_reduced_matrix_operator o vo dot apply lb rb shift AR0 As0 w = (Ok tt, m) /\
      operators m = (Some M, Some (tested dot lb (A shift)), None) /\ good (m_w m) /\
      (forall x, length x = length rb -> mat_times o M x = tested dot lb (A (combine_cols vo rb x))) /\
      (forall x, length x = length rb ->
         plus o (mat_times o M x) (tested dot lb (A shift)) = tested dot lb (A (vadd vo (combine_cols vo rb x) shift))).
  Proof.
    intros Hb Hl Hw.
    assert (HA0 : forall v, vadd vo (A v) b = A v) by (intros v; rewrite Hb, (va_comm o vo HV); apply (va_0_l o vo HV)).
    assert (E2 : exists w2, do_columns o vo apply false shift rb AR0 w = (Ok tt, (map A rb, w2)) /\ good w2).
    { clear -HA HA0 Hl Hw. revert AR0 w Hl Hw. induction rb as [|r rb IH]; intros [|c cols] w Hl Hw; try discriminate Hl.
      - exists w. split; [reflexivity|exact Hw].
      - cbn. destruct (HA r c w Hw) as (w1 & E & Hw1). rewrite E, HA0.
        destruct (IH cols w1 ltac:(injection Hl as Hl; exact Hl) Hw1) as (w' & E' & Hw'). rewrite E'.
        exists w'. split; [reflexivity|exact Hw']. }
    destruct E2 as (w2 & E2 & Hw2). destruct (HA shift As0 w2 Hw2) as (w3 & E3 & Hw3). rewrite HA0 in E3.
    unfold create_reduced_matrix_operator, create_linear, compute, columns_step,
      project_mat, shift_step, project_shift, bind. cbn [m_AR m_As m_b m_mat m_shift m_forcing m_w].
    rewrite E2. cbn [m_AR m_As m_b m_mat m_shift m_forcing m_w].
    rewrite E3. do 2 eexists. split; [reflexivity|]. unfold operators. cbn [m_AR m_As m_b m_mat m_shift m_forcing m_w].
    split; [reflexivity|]. split; [exact Hw3|].
    split; [intros x Hx; apply mat_is; exact Hx|].
    intros x Hx. rewrite mat_is by exact Hx. rewrite !plus_tested, <- (lin_add _ _ _ Alin). reflexivity.
  Qed.
End Linear.

(** * Failures *)
Section Failures.
  Context {S V W : Type} (o : sops S) (vo : vops S V).
  Variable dot : V -> V -> S.
  Variable apply : V -> V -> W -> outcome unit * (V * W).
  Lemma columns_fail forcing b rb : forall cols w, length cols = length rb ->
    fst (do_columns o vo apply forcing b rb cols w) <> Ok tt -> fails_with apply (fst (do_columns o vo apply forcing b rb cols w)).
  Proof.
    induction rb as [|r rb IH]; intros [|c cols] w Hl; try discriminate Hl; cbn; [tauto|].
    destruct (apply r c w) as [e [c1 w1]] eqn:E. destruct e as [[]|x|u|].
    - specialize (IH cols w1 ltac:(injection Hl as Hl; exact Hl)).
      destruct (do_columns o vo apply forcing b rb cols w1) as [e' [l w']]. exact IH.
    - intros _. exists r, c, w. rewrite E. reflexivity.
    - intros _. exists r, c, w. rewrite E. reflexivity.
    - intros _. exists r, c, w. rewrite E. reflexivity.
  Qed.
  Lemma create_fails solve lb rb shift AR0 As0 w e m : length AR0 = length rb ->
    create_linear o vo dot apply solve lb rb shift AR0 As0 w = (e, m) -> e <> Ok tt -> fails_with apply e.
  Proof.
    intros Hl E He. unfold create_linear in E. destruct solve.
    - unfold compute2, forcing_step, project_forcing, columns_step, project_mat, shift_step, project_shift, bind in E.
      cbn [m_AR m_As m_b m_mat m_shift m_forcing m_w] in E.
      destruct (apply (vzero vo) shift w) as [e1 [v1 w1]] eqn:E1. destruct e1 as [[]|x|u|];
        try (injection E as <- _; exists (vzero vo), shift, w; rewrite E1; reflexivity).
      cbn [m_AR m_As m_b m_mat m_shift m_forcing m_w] in E.
      pose proof (columns_fail true v1 rb AR0 w1 Hl) as HC.
      destruct (do_columns o vo apply true v1 rb AR0 w1) as [e2 [l w2]]. cbn [fst] in HC.
      destruct e2 as [[]|x|u|]; try (injection E as <- _; apply HC; discriminate).
      cbn [m_AR m_As m_b m_mat m_shift m_forcing m_w] in E.
      destruct (apply shift As0 w2) as [e3 [v3 w3]] eqn:E3. destruct e3 as [[]|x|u|];
        try (injection E as <- _; exists shift, As0, w2; rewrite E3; reflexivity).
    - unfold compute, columns_step, project_mat, shift_step, project_shift, bind in E.
      cbn [m_AR m_As m_b m_mat m_shift m_forcing m_w] in E.
      pose proof (columns_fail false shift rb AR0 w Hl) as HC.
      destruct (do_columns o vo apply false shift rb AR0 w) as [e2 [l w2]]. cbn [fst] in HC.
      destruct e2 as [[]|x|u|]; try (injection E as <- _; apply HC; discriminate).
      cbn [m_AR m_As m_b m_mat m_shift m_forcing m_w] in E.
      destruct (apply shift As0 w2) as [e3 [v3 w3]] eqn:E3. destruct e3 as [[]|x|u|];
        try (injection E as <- _; exists shift, As0, w2; rewrite E3; reflexivity).
  Qed.
  Lemma vector_operator_ok evaluate lb (w : W) :
    create_reduced_vector_operator dot evaluate lb w =
    (match fst (evaluate w) with Ok v => Ok (tested dot lb v) | Throw x => Throw x | Undef u => Undef u | NoFuel => NoFuel end,
     snd (evaluate w)).
  Proof. unfold create_reduced_vector_operator, tested, reduce. destruct (evaluate w) as [[v|x|u|] w']; reflexivity. Qed.
End Failures.

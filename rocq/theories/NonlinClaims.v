(** Lemmas behind the property theorems on nonlinear solvers that need no laws of
    arithmetic. *)
From Coq Require Import ZArith List Bool Lia.
From Verif Require Import Base ImplicitModel ImplicitSpec NonlinDiag NonlinModel NonlinWp NonlinDiagProofs
  NonlinSpec NonlinProofs NonlinSolve NonlinLines.
Import ListNotations.
Local Open Scope Z_scope.
Local Opaque sZ.

Section Claims.
  Context {S V R J H L W : Type}.
  Variable o : sops S.
  Variable no : nlops S V R J H.
  Variable xt : exts V R J H L.
  Notation G := (reg S V R J H L).
  Variable rj : V -> R -> option J -> W -> outcome unit * (R * option J * W).

  Lemma any_sys_ok : plain_system rj -> sys_ok (graph rj) (returns_r rj) (returns_j rj) no_linesearch.
  Proof.
    intros Hp. split.
    - intros y r j w r' j' w' E. unfold graph in E. exists r, j, w, j', w'. exact E.
    - intros y r j w r' j' w' E. unfold graph in E. exists r, j, w, r', j', w'. auto.
    - intros y r j w e r' j' w' E _. exact (Hp _ _ _ _ _ _ E).
  Qed.
  Lemma any_linear_ok :
    linear_ok xt (fun _ _ _ => True) (fun _ _ _ => True) (fun _ _ _ => True) anything.
  Proof. split; intros; exact I. Qed.
  Lemma no_ls : forall e, no_linesearch (Throw e) -> is_linesearch_failure e = false.
  Proof.
    intros e K. destruct (is_linesearch_failure e) eqn:E; [|reflexivity].
    exfalso. apply K. apply linesearch_exn_iff. exact E.
  Qed.
  Lemma ls_named : forall cf : config S, forall d, named (f_stop cf) = Some d -> In d ls_diags.
  Proof. intros cf d. destruct (f_stop cf); cbn; intros E; inversion E; subst; cbn; tauto. Qed.
  Lemma root_named : forall cf : config S, root_supported cf -> forall d, named (f_stop cf) = Some d -> In d root_diags.
  Proof.
    intros cf [_ K] d. destruct (f_stop cf); cbn; intros E; inversion E; subst; cbn; try tauto; contradiction.
  Qed.

  (** C21 *)
  Definition ls_gave_up (tag : lstag) (wr : R -> R) (cf : config S) (x : V) : Prop :=
    exists i : info S V R J, i_x i = x /\
      line_search_stuck o no (returns_r rj) (ls_objective o no wr tag) cf i.
  Definition root_gave_up (cf : config S) (x : V) : Prop :=
    exists i : info S V R J, i_x i = x /\ line_search_stuck o no (returns_r rj) (n_rnorm no) cf i.

  Lemma well_run_weaken : forall cf (gu gu' : V -> Prop) x0 r x (ls : list (line S V)),
    (forall v, gu v -> gu' v) -> well_run o cf gu x0 r x ls -> well_run o cf gu' x0 r x ls.
  Proof.
    intros cf gu gu' x0 r x ls Hg [a b c d e f]. split; auto. intros Er. destruct (f Er) as [K|K]; [left|right; exact K].
    destruct K as [p [l [K1 [K2 [K3|[K3 K4]]]]]]; exists p, l; auto 6.
  Qed.

  Lemma ls_well_run : forall wr wj tag cf s w r s' w',
    ls_object o s -> ls_supported tag cf -> halving_ends o -> plain_system rj -> weights_ok xt wr wj no_linesearch ->
    exec rj (ls_solve o no xt tag cf) (s, w) = (r, (s', w')) ->
    ls_object o s' /\ exists ls, g_log s' = g_log s ++ ls /\
      well_run o cf (ls_gave_up tag wr cf) (g_x s) r (g_x s') ls.
  Proof.
    intros wr wj tag cf s w r s' w' Ho Hs Hh Hp Hw E.
    pose proof (ls_solve_ok o no xt (graph rj) wr wj _ _ _ _ _ _ _ (any_sys_ok Hp) Hw any_linear_ok Hh no_ls
                  tag cf s w Ho Hs) as K.
    pose proof (tri_exec _ _ _ _ _ _ _ _ _ _ _ _ _ _ K E) as [K1 [ls [K2 K3]]].
    split; [exact K1|]. exists ls. split; [exact K2|].
    apply ends_well_run in K3; [|apply ls_named].
    eapply well_run_weaken; [|exact K3]. intros v [i [_ [E1 E2]]]. exists i. auto.
  Qed.
  Lemma root_well_run : forall cf s w r s' w',
    root_object o s -> root_supported cf -> halving_ends o -> plain_system rj ->
    exec rj (root_solve o no xt cf) (s, w) = (r, (s', w')) ->
    root_object o s' /\ exists ls, g_log s' = g_log s ++ ls /\
      well_run o cf (root_gave_up cf) (g_x s) r (g_x s') ls.
  Proof.
    intros cf s w r s' w' Ho Hs Hh Hp E.
    pose proof (root_solve_ok o no xt (graph rj) _ _ _ _ _ _ _ (any_sys_ok Hp) any_linear_ok Hh no_ls
                  cf s w Ho Hs) as K.
    pose proof (tri_exec _ _ _ _ _ _ _ _ _ _ _ _ _ _ K E) as [K1 [ls [K2 K3]]].
    split; [exact K1|]. exists ls. split; [exact K2|].
    apply ends_well_run in K3; [|apply root_named; exact Hs].
    eapply well_run_weaken; [|exact K3]. intros v [i [_ [E1 E2]]]. exists i. auto.
  Qed.

  (** C23 *)
  Lemma ls_relative : forall wr wj tag cf s w r s' w',
    ls_object o s -> ls_supported tag cf -> halving_ends o -> plain_system rj -> weights_ok xt wr wj no_linesearch ->
    exec rj (ls_solve o no xt tag cf) (s, w) = (r, (s', w')) ->
    exists ls, g_log s' = g_log s ++ ls /\ relative_to_first o ls_diags ls.
  Proof.
    intros wr wj tag cf s w r s' w' Ho Hs Hh Hp Hw E.
    pose proof (ls_solve_ok o no xt (graph rj) wr wj _ _ _ _ _ _ _ (any_sys_ok Hp) Hw any_linear_ok Hh no_ls
                  tag cf s w Ho Hs) as K.
    pose proof (tri_exec _ _ _ _ _ _ _ _ _ _ _ _ _ _ K E) as [K1 [ls [K2 K3]]].
    exists ls. split; [exact K2|]. apply ends_printed in K3. destruct K3 as [is ->].
    apply printed_relative. intros d Hd a Ha. destruct d; cbn in Ha; inversion Ha; subst; cbn; tauto.
  Qed.
  Lemma root_relative : forall cf s w r s' w',
    root_object o s -> root_supported cf -> halving_ends o -> plain_system rj ->
    exec rj (root_solve o no xt cf) (s, w) = (r, (s', w')) ->
    exists ls, g_log s' = g_log s ++ ls /\ relative_to_first o root_diags ls.
  Proof.
    intros cf s w r s' w' Ho Hs Hh Hp E.
    pose proof (root_solve_ok o no xt (graph rj) _ _ _ _ _ _ _ (any_sys_ok Hp) any_linear_ok Hh no_ls
                  cf s w Ho Hs) as K.
    pose proof (tri_exec _ _ _ _ _ _ _ _ _ _ _ _ _ _ K E) as [K1 [ls [K2 K3]]].
    exists ls. split; [exact K2|]. apply ends_printed in K3. destruct K3 as [is ->].
    apply printed_relative. intros d Hd a Ha. destruct d; cbn in Ha; inversion Ha; subst; cbn in *; intuition congruence.
  Qed.

  (** C22 *)
  Lemma ls_every_stop : forall gr gj glin gqr gnewt wr wj tag cf s w,
    ls_object o s -> ls_supported tag cf -> halving_ends o -> f_max cf < int32_max ->
    sys_ok (graph rj) gr gj nothing -> weights_ok xt wr wj nothing -> linear_ok xt glin gqr gnewt nothing ->
    exists s' w', exec rj (ls_solve o no xt tag cf) (s, w) = (Ok tt, (s', w')).
  Proof.
    intros gr gj glin gqr gnewt wr wj tag cf s w Ho Hs Hh Hm Hsys Hw Hl.
    destruct (exec rj (ls_solve o no xt tag cf) (s, w)) as [r [s' w']] eqn:E.
    assert (Hno : forall e, nothing (Throw e) -> is_linesearch_failure e = false) by (intros e []).
    pose proof (ls_solve_ok o no xt (graph rj) wr wj _ _ _ _ _ _ _ Hsys Hw Hl Hh Hno tag cf s w Ho Hs) as K.
    pose proof (tri_exec _ _ _ _ _ _ _ _ _ _ _ _ _ _ K E) as [K1 [ls [K2 K3]]].
    exists s', w'. f_equal.
    inversion K3; try reflexivity; try contradiction; unfold trial_failures in *;
      try (unfold int32_max in *; lia).
    destruct (f_update cf); contradiction.
  Qed.
  Lemma root_stop_ends : forall gr gj glin gqr gnewt cf s w,
    root_object o s -> root_supported cf -> halving_ends o -> f_max cf < int32_max ->
    sys_ok (graph rj) gr gj nothing -> linear_ok xt glin gqr gnewt nothing ->
    exists s' w', exec rj (root_solve o no xt cf) (s, w) = (Ok tt, (s', w')).
  Proof.
    intros gr gj glin gqr gnewt cf s w Ho Hs Hh Hm Hsys Hl.
    destruct (exec rj (root_solve o no xt cf) (s, w)) as [r [s' w']] eqn:E.
    assert (Hno : forall e, nothing (Throw e) -> is_linesearch_failure e = false) by (intros e []).
    pose proof (root_solve_ok o no xt (graph rj) _ _ _ _ _ _ _ Hsys Hl Hh Hno cf s w Ho Hs) as K.
    pose proof (tri_exec _ _ _ _ _ _ _ _ _ _ _ _ _ _ K E) as [K1 [ls [K2 K3]]].
    exists s', w'. f_equal.
    inversion K3; try reflexivity; try contradiction; unfold trial_failures in *;
      try (unfold int32_max in *; lia).
    destruct (f_update cf); contradiction.
  Qed.
  Definition root_untracked (st : stop) : Prop :=
    match st with
    | WhenAbsGradient | WhenRelGradient | WhenAbsObjective | WhenRelObjective | AfterMaxIters => True
    | _ => False
    end.
  Lemma root_bad_stop : forall gr gj glin gqr gnewt cf s w,
    root_object o s -> root_untracked (f_stop cf) ->
    (f_update cf = UStandard \/ (f_update cf = UBacktrack /\ f_params cf <> Some [])) -> 1 <= f_max cf ->
    sys_ok (graph rj) gr gj nothing -> linear_ok xt glin gqr gnewt nothing ->
    exists s' w', exec rj (root_solve o no xt cf) (s, w) = (Throw EOutOfRange, (s', w')) /\ g_x s' = g_x s.
  Proof.
    intros gr gj glin gqr gnewt cf s w Ho Hst Hup Hm Hsys Hl.
    assert (Hb : forall up s w, root_object o s -> tri (graph rj) (root_body o no xt cf up 1) s w
              (fun r s' w' => r = Throw EOutOfRange /\ g_x s' = g_x s)).
    { clear s w Ho. intros up s w Ho. unfold root_body. apply tri_bind. apply tri_catch.
      eapply tri_mono; [|eapply rj_tri; exact Hsys].
      intros r s1' w1 [K1 K2]. destruct r as [u|e|u|]; try contradiction.
      apply tri_bind. eapply tri_mono; [|eapply newton_tri; exact Hl].
      intros r s2 w2 [K3 [_ K4]]. destruct r as [u2|e|u2|]; try contradiction.
      apply tri_bind. apply tri_lift. cbn [fst snd]. set (c2 := mk_dcont _ _ _ _).
      assert (Hn : same_names (make_container o root_diags) c2).
      { apply (same_names_trans _ (g_diags s)); [exact Ho|].
        destruct K3 as [_ k2 _ _], K1 as [_ j2 _ _]. rewrite <- j2, <- k2.
        destruct (map_tracked (g_diags s2) (norm_diagnostic o no false (1 =? 1) s2)) as [Hs2 _]; [|exact Hs2].
        intros y. unfold norm_diagnostic. destruct (d_name y) eqn:En; rewrite ?d_update_name; auto. }
      pose proof (same_wf _ _ Hn (make_wf o root_diags)) as Hwf.
      assert (Hx : g_x s2 = g_x s).
      { destruct K3 as [k1 _ _ _], K1 as [j1 _ _ _]. rewrite j1 in k1. unfold pt in k1. congruence. }
      apply tri_bind. apply tri_lift. cbn [g_diags set_diags]. rewrite (log_line_ok o c2 Hwf). cbn [fst snd].
      apply tri_bind. unfold root_must_stop. apply tri_bind. apply tri_lift. cbn [fst snd g_diags set_diags add_line].
      assert (Ea : dc_at c2 (stop_diag (f_stop cf)) = Throw EOutOfRange).
      { apply at_missing; [exact Hwf|]. destruct Hn as [_ [-> _]]. rewrite root_pub.
        destruct (f_stop cf); try contradiction; cbn; intuition congruence. }
      unfold metric_below. rewrite Ea. cbn. split; [reflexivity|exact Hx]. }
    assert (Hloop : forall up, tri (graph rj) (root_loop o no xt cf up) s w
              (fun r s' w' => r = Throw EOutOfRange /\ g_x s' = g_x s)).
    { intros up. unfold root_loop, loop_fuel. cbn [iterate].
      replace (0 =? int32_max) with false by reflexivity.
      rewrite (proj2 (Z.leb_le _ _)) by lia. apply tri_bind.
      eapply tri_mono; [|apply (Hb up s w Ho)]. intros r s1' w1 [-> K]. split; [reflexivity|exact K]. }
    assert (K : tri (graph rj) (root_solve o no xt cf) s w (fun r s' w' => r = Throw EOutOfRange /\ g_x s' = g_x s)).
    { unfold root_solve. destruct Hup as [->|[-> Hp]]; [apply Hloop|].
      destruct (f_params cf) as [[|z t]|]; [congruence|apply Hloop|apply Hloop]. }
    destruct (exec rj (root_solve o no xt cf) (s, w)) as [r [s' w']] eqn:E.
    destruct (tri_exec _ _ _ _ _ _ _ _ _ _ _ _ _ _ K E) as [-> Hx]. exists s', w'. auto.
  Qed.
End Claims.

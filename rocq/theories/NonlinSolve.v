(** solve() of both solver objects, as a whole. *)
From Coq Require Import ZArith List Bool Lia.
From Verif Require Import Base ImplicitModel ImplicitSpec NonlinDiag NonlinModel NonlinWp NonlinDiagProofs NonlinSpec NonlinProofs.
Import ListNotations.
Local Open Scope Z_scope.
Local Opaque sZ.

Section Solve.
  Context {S V R J H L W : Type}.
  Variable o : sops S.
  Variable no : nlops S V R J H.
  Variable xt : exts V R J H L.
  Notation G := (reg S V R J H L).
  Notation info := (info S V R J).
  Variable sys : V -> R -> option J -> W -> outcome unit -> R -> option J -> W -> Prop.
  Variable wr : R -> R.
  Variable wj : J -> J.
  Variable gr : V -> R -> Prop.
  Variable gj : V -> J -> Prop.
  Variable glin : H -> V -> V -> Prop.
  Variable gqr gnewt : J -> R -> V -> Prop.
  Variable fsys flin : outcome unit -> Prop.
  Hypothesis Hsys : sys_ok sys gr gj fsys.
  Hypothesis Hw : weights_ok xt wr wj fsys.
  Hypothesis Hlin : linear_ok xt glin gqr gnewt flin.
  Hypothesis Hhalf : halving_ends o.
  Hypothesis Hls : forall e, fsys (Throw e) -> is_linesearch_failure e = false.

  Lemma Htrial : forall (cf : config S) e, trial_failures cf fsys (Throw e) -> is_linesearch_failure e = false.
  Proof. intros cf e. unfold trial_failures. destruct (f_update cf); auto. contradiction. Qed.
  Lemma residual_exn_iff : forall e, is_residual_failure e = true <-> residual_exn e.
  Proof. unfold residual_exn. destruct e; cbn; intuition congruence. Qed.
  Lemma linesearch_exn_iff : forall e, is_linesearch_failure e = true <-> linesearch_exn e.
  Proof. unfold linesearch_exn. destruct e; cbn; intuition congruence. Qed.

  Lemma result_ends : forall cf valid measure move stuck ftrial p0 c0 log0 reports file0 r (s : G),
    Result o fsys flin cf valid measure move stuck ftrial p0 c0 log0 reports file0 r s ->
    same_names c0 (g_diags s) /\
    exists ls, g_log s = log0 ++ ls /\
      solve_ends o cf valid measure move p0 stuck fsys flin ftrial residual_exn linesearch_exn
                 (dc_pub c0) reports file0 r (pt s) ls (g_file s).
  Proof.
    intros cf valid measure move stuck ftrial p0 c0 log0 reports file0 r s [is Er Hk K|is Er Hk Hmx K|is Er Hk Hm K|is Er Hk K].
    - destruct K as [i [[q1 q2 q3 q4 q5] K]]. split; [exact q4|]. eexists. split; [exact q5|]. subst r.
      rewrite <- q3 in q1.
      destruct K as [[K1 K2]|[K1 [K2 [e [K3 K4]]]]].
      + rewrite K2. eapply ends_converged; eauto.
      + rewrite K4. change (put reports (RError e) file0) with (report_of reports file0 (RError e)).
        eapply ends_stuck; eauto. apply linesearch_exn_iff. exact K3.
    - destruct K as [q1 q2 q3 q4 q5]. split; [exact q2|]. eexists. split; [exact q4|]. subst r.
      rewrite q5. replace (file cf reports file0 is) with (match is with [] => file0 | _ => report_of reports file0 RMaxIters end).
      + apply ends_at_max; assumption.
      + unfold file. destruct is; [reflexivity|]. rewrite (proj2 (Z.leb_le _ _)); [reflexivity|].
        cbn [length] in *. lia.
    - destruct K as [q1 q2 q3 q4 q5]. split; [exact q2|]. eexists. split; [exact q4|]. subst r.
      rewrite q5. replace (file cf reports file0 is) with
        (if f_max cf <=? int32_max then report_of reports file0 RMaxIters else file0).
      + apply ends_overflow; assumption.
      + unfold file. destruct is; [cbn in Hk; discriminate|]. rewrite Hk. reflexivity.
    - destruct K as [[[q1 q2 q3] K]|[i [[q1 q2 q3 q4 q5] [K1 [K2 K3]]]]].
      + split; [exact q2|]. eexists. split; [exact q3|].
        destruct K as [[K1 [e [K2 [K3 K4]]]]|[K1 [[K2 K3]|K2]]].
        * subst r. rewrite K4. apply ends_residual_failure; try assumption. apply residual_exn_iff. exact K2.
        * rewrite K1. apply ends_system_failure; try assumption. intros e E1 E2.
          apply residual_exn_iff in E2. rewrite (K3 e E1) in E2. discriminate.
        * rewrite K1. apply ends_linear_failure; assumption.
      + split; [exact q4|]. eexists. split; [exact q5|]. rewrite <- q3 in q1. rewrite K2.
        replace (file cf reports file0 (is ++ [i])) with
          (if f_max cf <=? number is then report_of reports file0 RMaxIters else file0).
        * eapply ends_trial_failure; eauto.
        * unfold file. replace (Z.of_nat (length (is ++ [i]))) with (number is)
            by (unfold number; rewrite app_length; cbn [length]; lia).
          destruct is; reflexivity.
  Qed.

  Notation lsend tag cf s := (solve_ends o cf (ls_valid no wr wj gr gj glin gqr tag) (ls_meas o no wr wj tag)
      (ls_move o no gr (ls_objective o no wr tag) cf) (start o tag cf (g_x s) (g_damp s) (g_nu s))
      (line_search_stuck o no gr (ls_objective o no wr tag) cf) fsys flin (trial_failures cf fsys) residual_exn linesearch_exn
      ls_diags false (g_file s)).
  Lemma ls_pub : dc_pub (make_container o ls_diags) = ls_diags. Proof. reflexivity. Qed.
  Lemma ls_solve_ok : forall tag cf s w, ls_object o s -> ls_supported tag cf ->
    tri sys (ls_solve o no xt tag cf) s w (fun r s' w' =>
      ls_object o s' /\ exists ls, g_log s' = g_log s ++ ls /\ lsend tag cf s r (pt s') ls (g_file s')).
  Proof.
    intros tag cf s w Ho Hsup. unfold ls_solve, ls_supported in *.
    assert (Hloop : forall up pre s1 w1,
      up_ok sys (ls_objective o no wr tag) pre up (objective o no xt tag)
        (ls_move o no gr (ls_objective o no wr tag) cf) (line_search_stuck o no gr (ls_objective o no wr tag) cf) (trial_failures cf fsys) ->
      (forall i s, ready o no i s -> (tag = LevMar -> g_hu s = n_jtj no (i_j i) (i_j i)) ->
         g_g s = ls_gradient no wr wj tag (i_j i) (i_r i) -> pre i s) ->
      pt s1 = start o tag cf (g_x s) (g_damp s) (g_nu s) -> g_diags s1 = g_diags s ->
      g_log s1 = g_log s -> g_file s1 = g_file s ->
      tri sys (ls_loop o no xt tag cf up) s1 w1 (fun r s' w' =>
        ls_object o s' /\ exists ls, g_log s' = g_log s ++ ls /\ lsend tag cf s r (pt s') ls (g_file s'))).
    { intros up pre s1 w1 Hup Hpre E1 E2 E3 E4.
      eapply tri_mono; [|eapply (loop_ok o sys fsys flin cf _ _ _ _ _ (pt s1) (make_container o ls_diags) (g_log s1) false (g_file s1));
        [eapply (ls_body_ok o no xt sys wr wj gr gj glin gqr gnewt fsys flin Hsys Hw Hlin cf tag up pre); eauto using Htrial|..]]; auto.
      - intros r s' w' K. apply result_ends in K. rewrite E1, E3, E4, ls_pub in K. exact K.
      - apply make_wf.
      - cbn. intuition congruence.
      - rewrite ls_pub. cbn. tauto.
      - rewrite ls_pub. destruct (f_stop cf); cbn; tauto.
      - rewrite E2. exact Ho. }
    destruct (f_update cf) eqn:Eu.
    - apply tri_bind. destruct tag; apply tri_lift; cbn [fst snd ret];
        (eapply Hloop with (pre := ready o no);
          [unfold ls_move, line_search_stuck, trial_failures; rewrite Eu; apply default_ok
          |intros; assumption
          |unfold start; rewrite Eu; reflexivity
          |reflexivity..]).
    - apply tri_bind. destruct (f_params cf) as [[|z t]|] eqn:Ep; [congruence| |];
      destruct tag; apply tri_lift; cbn [fst snd ret]; rewrite <- Ep;
        (eapply Hloop with (pre := ready o no);
          [unfold ls_move, line_search_stuck, trial_failures; rewrite Eu; apply backtrack_ok;
             [eapply objective_ok; eassumption|exact Hhalf|congruence]
          |intros; assumption
          |unfold start; rewrite Eu; reflexivity
          |reflexivity..]).
    - apply tri_bind. destruct (f_params cf) as [[|z t]|] eqn:Ep; [congruence| |];
      destruct tag; apply tri_lift; cbn [fst snd ret]; rewrite <- Ep;
        (eapply Hloop with (pre := ready o no);
          [unfold ls_move, line_search_stuck, trial_failures; rewrite Eu; apply backtrack_ok;
             [eapply objective_ok; eassumption|exact Hhalf|congruence]
          |intros; assumption
          |unfold start; rewrite Eu; reflexivity
          |reflexivity..]).
    - subst tag. cbn [is_levmar reset_for_new_solve]. apply tri_bind. apply tri_lift. cbn [fst snd].
      apply tri_bind. apply tri_lift. cbn [fst snd].
      eapply Hloop with (pre := lm_ready o no);
          [unfold ls_move, line_search_stuck, trial_failures; rewrite Eu; apply lm1_ok; eapply objective_ok; eassumption
          |intros; split; auto
          |unfold start; rewrite Eu; reflexivity
          |reflexivity..].
    - subst tag. cbn [is_levmar reset_for_new_solve]. apply tri_bind. apply tri_lift. cbn [fst snd].
      eapply Hloop with (pre := lm_ready o no);
          [unfold ls_move, line_search_stuck, trial_failures; rewrite Eu; apply lm2_ok; eapply objective_ok; eassumption
          |intros; split; auto
          |unfold start; rewrite Eu; reflexivity
          |reflexivity..].
    - contradiction.
  Qed.

  Notation rootend cf s := (solve_ends o cf (root_valid gr gj gnewt) (root_meas o no)
      (ls_move o no gr (n_rnorm no) cf) (g_x s, g_damp s, g_nu s)
      (line_search_stuck o no gr (n_rnorm no) cf) fsys flin (trial_failures cf fsys) residual_exn linesearch_exn
      root_diags true (g_file s)).
  Lemma root_pub : dc_pub (make_container o root_diags) = root_diags. Proof. reflexivity. Qed.
  Lemma root_solve_ok : forall cf s w, root_object o s -> root_supported cf ->
    tri sys (root_solve o no xt cf) s w (fun r s' w' =>
      root_object o s' /\ exists ls, g_log s' = g_log s ++ ls /\ rootend cf s r (pt s') ls (g_file s')).
  Proof.
    intros cf s w Ho [Hsup Hst]. unfold root_solve in *.
    assert (Hloop : forall up,
      up_ok sys (n_rnorm no) (ready o no) up (root_objective no)
        (ls_move o no gr (n_rnorm no) cf) (line_search_stuck o no gr (n_rnorm no) cf) (trial_failures cf fsys) ->
      tri sys (root_loop o no xt cf up) s w (fun r s' w' =>
        root_object o s' /\ exists ls, g_log s' = g_log s ++ ls /\ rootend cf s r (pt s') ls (g_file s'))).
    { intros up Hup.
      eapply tri_mono; [|eapply (loop_ok o sys fsys flin cf _ _ _ _ _ (pt s) (make_container o root_diags) (g_log s) true (g_file s));
        [eapply (root_body_ok o no xt sys gr gj glin gqr gnewt fsys flin Hsys Hlin cf up); eauto using Htrial|..]]; auto.
      - intros r s' w' K. apply result_ends in K. rewrite root_pub in K. exact K.
      - apply make_wf.
      - rewrite root_pub. cbn. intuition (subst; auto).
      - rewrite root_pub. cbn. tauto.
      - rewrite root_pub. destruct (f_stop cf); cbn; tauto. }
    destruct (f_update cf) eqn:Eu; try contradiction.
    - apply Hloop. unfold ls_move, line_search_stuck, trial_failures; rewrite Eu; apply default_ok.
    - destruct (f_params cf) as [[|z t]|] eqn:Ep; [congruence| |]; rewrite <- Ep; apply Hloop;
      unfold ls_move, line_search_stuck, trial_failures; rewrite Eu; (apply backtrack_ok;
             [eapply root_objective_ok; eassumption|exact Hhalf|congruence]).
  Qed.
End Solve.

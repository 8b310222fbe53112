(** Lemmas behind the property theorems about runs on systems that compute a
    function. *)
From Coq Require Import ZArith List Bool Lia.
From Verif Require Import Base ImplicitModel ImplicitSpec NonlinDiag NonlinModel NonlinWp NonlinDiagProofs
  NonlinSpec NonlinRuns NonlinProofs NonlinSolve NonlinLines NonlinClaims NonlinSeq.
Import ListNotations.
Local Open Scope Z_scope.
Local Opaque sZ.

Section Follow.
  Context {S V R J H L W : Type}.
  Variable o : sops S.
  Variable no : nlops S V R J H.
  Variable xt : exts V R J H L.
  Notation G := (reg S V R J H L).
  Notation info := (info S V R J).
  Variable rj : V -> R -> option J -> W -> outcome unit * (R * option J * W).
  Variable F : V -> R.
  Variable DF : V -> J.
  Notation grF := (fun y r => r = F y).
  Notation gjF := (fun y j => j = DF y).
  Hypothesis Hc : computes rj F DF.

  Lemma computes_ok : sys_ok (graph rj) grF gjF nothing.
  Proof.
    split.
    - intros y r j w r' j' w' E. unfold graph in E. destruct (Hc y r j w) as [a [b [K _]]]. congruence.
    - intros y r j w r' j' w' E. unfold graph in E. destruct (Hc y r (Some j) w) as [a [b [K K2]]].
      rewrite K in E. injection E as _ <- _. rewrite K2. reflexivity.
    - intros y r j w e r' j' w' E Hn. unfold graph in E. destruct (Hc y r j w) as [a [b [K _]]]. congruence.
  Qed.
  Lemma none_linesearch : forall e, nothing (Throw e) -> is_linesearch_failure e = false.
  Proof. intros e []. Qed.

  Variable wr : R -> R.
  Variable wj : J -> J.
  Hypothesis Hw : weights_ok xt wr wj nothing.

  Section Full.
    Variable D : H -> V -> V.
    Variable Dq Dn : J -> R -> V.
    Hypothesis Hl : linear_computes D Dq Dn xt.
    Hypothesis Hhalf : halving_ends o.

    Lemma root_follows : forall cf s w r s' w',
      root_object o s -> root_supported cf -> f_update cf = UStandard -> f_max cf < int32_max ->
      exec rj (root_solve o no xt cf) (s, w) = (r, (s', w')) ->
      exists ls, g_log s' = g_log s ++ ls /\ follows o cf (newton_next o no F DF Dn) (g_x s) r (g_x s') ls.
    Proof.
      intros cf s w r s' w' Ho Hs Hu Hm E.
      pose proof (root_solve_ok o no xt (graph rj) _ _ _ _ _ _ _ computes_ok Hl Hhalf none_linesearch cf s w Ho Hs) as K.
      pose proof (tri_exec _ _ _ _ _ _ _ _ _ _ _ _ _ _ K E) as [K1 [ls [K2 K3]]].
      exists ls. split; [exact K2|].
      eapply ends_follows in K3; [exact K3|..]; try solve [intros ? []]; try assumption.
      - intros i q [V1 [V2 V3]]. unfold ls_move. rewrite Hu. intros ->. cbn [fst]. cbv beta in *.
        unfold newton_next, minus, i_c. rewrite V3, V1, V2. reflexivity.
      - apply root_named. exact Hs.
      - unfold trial_failures. rewrite Hu. intros ? [].
      - unfold line_search_stuck. rewrite Hu. intros ? [].
    Qed.
    Lemma ls_mu : forall tag cf (i : info) p0 is p,
      f_update cf = UStandard ->
      steps o cf (ls_valid no wr wj grF gjF (fun h g d => d = D h g) (fun j r d => d = Dq j r) tag)
            (ls_meas o no wr wj tag) (ls_move o no grF (ls_objective o no wr tag) cf) p0 is p ->
      at_point i p -> i_mu i = snd (fst p0).
    Proof.
      intros tag cf i p0 is p Hu K. revert i.
      induction K as [|is p j p' K IH Ha Hv Hm Hmv]; intros i Hi; unfold at_point in *; [subst; reflexivity|].
      unfold ls_move in Hmv. rewrite Hu in Hmv. unfold move_full in Hmv. specialize (IH j Ha). congruence.
    Qed.
    Lemma ls_follows : forall tag cf s w r s' w',
      ls_object o s -> f_update cf = UStandard -> f_max cf < int32_max ->
      exec rj (ls_solve o no xt tag cf) (s, w) = (r, (s', w')) ->
      exists ls, g_log s' = g_log s ++ ls /\ follows o cf (ls_next o no F DF wr wj D Dq tag) (g_x s) r (g_x s') ls.
    Proof.
      intros tag cf s w r s' w' Ho Hu Hm E.
      assert (Hs : ls_supported tag cf) by (unfold ls_supported; rewrite Hu; exact I).
      pose proof (ls_solve_ok o no xt (graph rj) wr wj _ _ _ _ _ _ _ computes_ok Hw Hl Hhalf none_linesearch tag cf s w Ho Hs) as K.
      pose proof (tri_exec _ _ _ _ _ _ _ _ _ _ _ _ _ _ K E) as [K1 [ls [K2 K3]]].
      exists ls. split; [exact K2|].
      (* strengthen [valid] by the damping *)
      set (valid := ls_valid no wr wj grF gjF (fun h g d => d = D h g) (fun j r d => d = Dq j r) tag) in *.
      set (p0 := start o tag cf (g_x s) (g_damp s) (g_nu s)) in *.
      set (valid' := fun i : info => valid i /\ i_mu i = snd (fst p0)).
      assert (Hst : forall is p, steps o cf valid (ls_meas o no wr wj tag) (ls_move o no grF (ls_objective o no wr tag) cf) p0 is p ->
                      steps o cf valid' (ls_meas o no wr wj tag) (ls_move o no grF (ls_objective o no wr tag) cf) p0 is p).
      { intros is p K0. induction K0 as [|is p i p' K0 IH Ha Hv Hmm Hmv]; [constructor|].
        econstructor; eauto. split; [exact Hv|]. eapply ls_mu; eauto. }
      assert (K4 : solve_ends o cf valid' (ls_meas o no wr wj tag) (ls_move o no grF (ls_objective o no wr tag) cf) p0
                     (line_search_stuck o no grF (ls_objective o no wr tag) cf) nothing nothing (trial_failures cf nothing)
                     residual_exn linesearch_exn ls_diags false (g_file s) r (pt s') ls (g_file s')).
      { destruct K3; try (econstructor; eauto; fail).
        - eapply ends_converged; eauto. split; [assumption|eapply ls_mu; eauto].
        - eapply ends_stuck; eauto. split; [assumption|eapply ls_mu; eauto].
        - eapply ends_trial_failure; eauto. split; [assumption|eapply ls_mu; eauto]. }
      change (g_x s) with (fst (fst p0)). change (g_x s') with (fst (fst (pt s'))).
      eapply ends_follows; [| | | | | | |exact K4]; try solve [intros ? []]; try assumption.
      - intros i q [[V1 [V2 V3]] V4]. unfold ls_move. rewrite Hu. intros ->. cbn [fst]. cbv beta in *.
        unfold ls_next, minus, i_c. rewrite <- V1, <- V2. destruct tag; rewrite V3, ?V4; reflexivity.
      - apply ls_named.
      - unfold trial_failures. rewrite Hu. intros ? [].
      - unfold line_search_stuck. rewrite Hu. intros ? [].
    Qed.
  End Full.

  (** ** Values and descent, with any linear solver *)
  Definition free {A B} (a : A) (b : B) (d : V) : Prop := True.
  Lemma free_ok : linear_ok xt free free free anything.
  Proof. split; intros; exact I. Qed.
  Hypothesis Hhalf : halving_ends o.

  Lemma ls_values_right : forall tag cf s w r s' w',
    ls_object o s -> ls_supported tag cf ->
    exec rj (ls_solve o no xt tag cf) (s, w) = (r, (s', w')) ->
    exists ls, g_log s' = g_log s ++ ls /\ values_right (ls_values o no F DF wr wj tag) ls.
  Proof.
    intros tag cf s w r s' w' Ho Hs E.
    pose proof (ls_solve_ok o no xt (graph rj) wr wj _ _ _ _ _ _ _ computes_ok Hw free_ok Hhalf none_linesearch tag cf s w Ho Hs) as K.
    pose proof (tri_exec _ _ _ _ _ _ _ _ _ _ _ _ _ _ K E) as [K1 [ls [K2 K3]]].
    exists ls. split; [exact K2|]. apply ends_chain in K3. destruct K3 as [is [-> [[C1 _ _] _]]].
    intros l d v Hl Hv. destruct (In_nth_error _ _ Hl) as [n Hn]. rewrite printed_nth in Hn.
    destruct (nth_error is n) as [i|] eqn:Ei; [|discriminate]. cbn in Hn. injection Hn as <-.
    assert (Vi : ls_valid no wr wj grF gjF free free tag i).
    { rewrite Forall_forall in C1. apply C1. eapply nth_error_In; eauto. }
    destruct Vi as [V1 [V2 _]]. cbn [l_state line_at] in Hv.
    destruct d; cbn [ls_values] in Hv; try discriminate; injection Hv as <-;
      rewrite value_line by (cbn; tauto); cbn [reading ls_meas m_corr m_res m_grad m_obj]; rewrite V1, ?V2; reflexivity.
  Qed.
  Lemma root_values_right : forall cf s w r s' w',
    root_object o s -> root_supported cf ->
    exec rj (root_solve o no xt cf) (s, w) = (r, (s', w')) ->
    exists ls, g_log s' = g_log s ++ ls /\ values_right (root_values no F) ls.
  Proof.
    intros cf s w r s' w' Ho Hs E.
    pose proof (root_solve_ok o no xt (graph rj) _ _ _ _ _ _ _ computes_ok free_ok Hhalf none_linesearch cf s w Ho Hs) as K.
    pose proof (tri_exec _ _ _ _ _ _ _ _ _ _ _ _ _ _ K E) as [K1 [ls [K2 K3]]].
    exists ls. split; [exact K2|]. apply ends_chain in K3. destruct K3 as [is [-> [[C1 _ _] _]]].
    intros l d v Hl Hv. destruct (In_nth_error _ _ Hl) as [n Hn]. rewrite printed_nth in Hn.
    destruct (nth_error is n) as [i|] eqn:Ei; [|discriminate]. cbn in Hn. injection Hn as <-.
    assert (Vi : root_valid grF gjF free i).
    { rewrite Forall_forall in C1. apply C1. eapply nth_error_In; eauto. }
    destruct Vi as [V1 [V2 _]]. cbn [l_state line_at] in Hv.
    destruct d; cbn [root_values] in Hv; try discriminate; injection Hv as <-;
      rewrite value_line by (cbn; tauto); cbn [reading root_meas m_corr m_res m_grad m_obj]; rewrite V1; reflexivity.
  Qed.

  Lemma descends_chain : forall f zeta (valid : info -> Prop) p0 is,
    (forall i, valid i -> i_r i = F (i_x i)) ->
    chain valid (move_backtrack o no grF f zeta) p0 is -> descends o F f zeta (map i_x is).
  Proof.
    intros f zeta valid p0 is Hv [C1 C2 C3] n y z Hy Hz. rewrite nth_error_map in Hy, Hz.
    destruct (nth_error is n) as [i|] eqn:Ei; [|discriminate].
    destruct (nth_error is (Datatypes.S n)) as [j|] eqn:Ej; [|discriminate].
    cbn in Hy, Hz. injection Hy as <-. injection Hz as <-.
    destruct (C3 n i j Ei Ej) as [q [[m [_ [[_ [rr [-> T]]] ->]]] Ha]]. unfold at_point in Ha.
    injection Ha as Ha _ _. rewrite <- Ha. rewrite <- (Hv i); [exact T|].
    rewrite Forall_forall in C1. apply C1. eapply nth_error_In; eauto.
  Qed.
  Lemma descends_snoc : forall f zeta xs y z, descends o F f zeta (xs ++ [y]) ->
    sleb o (f (F z)) (smul o zeta (f (F y))) = true -> descends o F f zeta ((xs ++ [y]) ++ [z]).
  Proof.
    intros f zeta xs y z Hd Hz n a b Ha Hb.
    assert (Hlt : (Datatypes.S n < length ((xs ++ [y]) ++ [z]))%nat) by (apply nth_error_Some; congruence).
    rewrite !app_length in Hlt. cbn in Hlt.
    destruct (Nat.eq_dec n (length xs)) as [->|Hne].
    - rewrite nth_error_app1 in Ha by (rewrite app_length; cbn; lia).
      rewrite nth_error_app2, Nat.sub_diag in Ha by lia. cbn in Ha. injection Ha as <-.
      rewrite nth_error_app2 in Hb by (rewrite app_length; cbn; lia).
      rewrite app_length in Hb. cbn [length] in Hb. rewrite Nat.add_1_r, Nat.sub_diag in Hb.
      cbn in Hb. injection Hb as <-. exact Hz.
    - rewrite nth_error_app1 in Ha, Hb by (rewrite app_length; cbn; lia). eauto.
  Qed.
  Lemma visited_descends : forall f zeta (valid : info -> Prop) measure pub p0 is p,
    (forall i, valid i -> i_r i = F (i_x i)) ->
    chain valid (move_backtrack o no grF f zeta) p0 is ->
    ((exists a i, is = a ++ [i] /\ at_point i p) \/
       match rev is with [] => p = p0 | j :: _ => move_backtrack o no grF f zeta j p end) ->
    exists xs, visited xs (printed o measure pub is) (fst (fst p0)) (fst (fst p)) /\ descends o F f zeta xs.
  Proof.
    intros f zeta valid measure pub p0 is p Hv C K.
    pose proof (descends_chain f zeta valid p0 is Hv C) as Hd.
    assert (Hhd : forall i t, is = i :: t -> i_x i = fst (fst p0)).
    { intros i t ->. destruct C as [_ C2 _]. specialize (C2 i eq_refl). unfold at_point in C2. rewrite C2. reflexivity. }
    destruct K as [[a [i [-> Ha]]]|K].
    - exists (map i_x (a ++ [i])). split; [|exact Hd]. rewrite <- (printed_states o measure pub). split; [|split].
      + rewrite printed_states. destruct a as [|b t]; cbn; f_equal; [apply (Hhd i [] eq_refl)|apply (Hhd b _ eq_refl)].
      + rewrite printed_states, map_app. cbn. exists (map i_x a). unfold at_point in Ha. rewrite Ha. reflexivity.
      + left. reflexivity.
    - assert (Hcase : is = [] \/ exists a i, is = a ++ [i]) by (destruct is using rev_ind; eauto); destruct Hcase as [->|[a [i ->]]].
      + cbn in K. subst p. exists [fst (fst p0)]. split; [|intros [|n] y z Hy Hz; cbn in Hz; [discriminate|destruct n; discriminate]].
        split; [reflexivity|]. split; [exists []; reflexivity|right; reflexivity].
      + rewrite rev_app_distr in K. cbn in K. exists (map i_x (a ++ [i]) ++ [fst (fst p)]). split.
        * split; [|split].
          -- destruct a as [|b t]; cbn; f_equal; [apply (Hhd i [] eq_refl)|apply (Hhd b _ eq_refl)].
          -- eexists. reflexivity.
          -- right. rewrite printed_states. reflexivity.
        * rewrite map_app in *. cbn [map] in *. apply descends_snoc; [exact Hd|].
          destruct K as [m [_ [[_ [rr [-> T]]] ->]]]. cbn [fst]. rewrite <- (Hv i); [exact T|].
          destruct C as [C1 _ _]. apply Forall_app in C1. destruct C1 as [_ C1]. inversion C1. assumption.
  Qed.

  Lemma ls_descends : forall tag cf s w r s' w',
    ls_object o s -> (f_update cf = UBacktrack \/ f_update cf = UArmijo) -> f_params cf <> Some [] ->
    exec rj (ls_solve o no xt tag cf) (s, w) = (r, (s', w')) ->
    exists ls xs, g_log s' = g_log s ++ ls /\ visited xs ls (g_x s) (g_x s') /\
      descends o F (ls_objective o no wr tag) (reduction_factor o cf) xs.
  Proof.
    intros tag cf s w r s' w' Ho Hu Hp E.
    assert (Hs : ls_supported tag cf) by (unfold ls_supported; destruct Hu as [-> | ->]; exact Hp).
    pose proof (ls_solve_ok o no xt (graph rj) wr wj _ _ _ _ _ _ _ computes_ok Hw free_ok Hhalf none_linesearch tag cf s w Ho Hs) as K.
    pose proof (tri_exec _ _ _ _ _ _ _ _ _ _ _ _ _ _ K E) as [K1 [ls [K2 K3]]].
    exists ls. apply ends_chain in K3. destruct K3 as [is [-> [C K3]]].
    replace (ls_move o no grF (ls_objective o no wr tag) cf) with
      (move_backtrack o no grF (ls_objective o no wr tag) (reduction_factor o cf) (J := J)) in *
      by (unfold ls_move; destruct Hu as [-> | ->]; reflexivity).
    destruct (visited_descends _ _ _ (ls_meas o no wr wj tag) ls_diags _ is _
                (fun i (Hi : ls_valid no wr wj grF gjF free free tag i) => proj1 Hi) C K3) as [xs [X1 X2]].
    exists xs. auto.
  Qed.
  Lemma root_descends : forall cf s w r s' w',
    root_object o s -> root_supported cf -> f_update cf = UBacktrack ->
    exec rj (root_solve o no xt cf) (s, w) = (r, (s', w')) ->
    exists ls xs, g_log s' = g_log s ++ ls /\ visited xs ls (g_x s) (g_x s') /\
      descends o F (n_rnorm no) (reduction_factor o cf) xs.
  Proof.
    intros cf s w r s' w' Ho Hs Hu E.
    pose proof (root_solve_ok o no xt (graph rj) _ _ _ _ _ _ _ computes_ok free_ok Hhalf none_linesearch cf s w Ho Hs) as K.
    pose proof (tri_exec _ _ _ _ _ _ _ _ _ _ _ _ _ _ K E) as [K1 [ls [K2 K3]]].
    exists ls. apply ends_chain in K3. destruct K3 as [is [-> [C K3]]].
    replace (ls_move o no grF (n_rnorm no) cf) with
      (move_backtrack o no grF (n_rnorm no) (reduction_factor o cf) (J := J)) in *
      by (unfold ls_move; rewrite Hu; reflexivity).
    destruct (visited_descends _ _ _ (root_meas o no) root_diags _ is _
                (fun i (Hi : root_valid grF gjF free i) => proj1 Hi) C K3) as [xs [X1 X2]].
    exists xs. auto.
  Qed.

  (** ** The line search itself *)
  Hypothesis Hten : ten_halvings o.
  Notation tri' := (tri (graph rj)).
  Lemma bt_loop_result : forall f obj zeta f0 y c, obj_ok (graph rj) grF nothing f obj -> forall fuel n (s : G) (w : W),
    g_x s = y -> g_c s = c -> (n <= 10)%nat -> (10 - n < fuel)%nat ->
    (forall m, (m < n)%nat -> passes o no F f zeta f0 y c m = false) ->
    tri' (backtrack_loop o no zeta obj f0 fuel (halvings o n)) s w (fun r (s' : G) w' =>
      backtracked o no F f zeta f0 y c r (g_x s')).
  Proof.
    intros f obj zeta f0 y c Ho. induction fuel as [|fuel IH]; intros n s w Hx Hcc Hn Hf Hrej; [lia|].
    cbn [backtrack_loop].
    change (sleb o (sabs o (halvings o n)) (alpha_min o)) with (too_small o (halvings o n)).
    destruct Hten as [T1 T2].
    destruct (Nat.eq_dec n 10) as [->|Hne].
    - rewrite T1. apply tri_lift. cbn [fst snd throw]. right. auto.
    - rewrite T2 by lia. apply tri_bind. apply tri_lift. cbn [fst snd].
      set (s1' := set_trial _ s). apply tri_bind.
      eapply tri_mono; [|exact (Ho (g_trial s1') s1' w)].
      assert (Et : g_trial s1' = along o no y c (halvings o n)) by (subst s1'; cbn; rewrite Hx, Hcc; reflexivity).
      assert (Ex : g_x s1' = y) by exact Hx. assert (Ec : g_c s1' = c) by exact Hcc. clearbody s1'.
      intros r s2 w2 [Fr K]. destruct r as [v|e|u|]; try contradiction. destruct K as [rr [-> ->]]. rewrite Et.
      destruct Fr as [f1 _ f3 _ _ _ _ _ _ _].
      fold (passes o no F f zeta f0 y c n). destruct (passes o no F f zeta f0 y c n) eqn:Ep.
      + apply tri_lift. cbn [fst snd]. left. exists n. repeat (split; [auto; lia|]).
        cbn. rewrite f1, f3, Ex, Ec. reflexivity.
      + change (smul o (halvings o n) (half o)) with (halvings o (Datatypes.S n)).
        apply IH; try congruence; try lia. intros m Hm.
        destruct (Nat.eq_dec m n) as [->|Hmn]; [exact Ep|apply Hrej; lia].
  Qed.
  Lemma bt_result : forall tag cf f0 s w r s' w', f_params cf <> Some [] ->
    exec rj (backtrack_updater o no (f_params cf) (objective o no xt tag) f0) (s, w) = (r, (s', w')) ->
    backtracked o no F (ls_objective o no wr tag) (reduction_factor o cf) f0 (g_x s) (g_c s) r (g_x s').
  Proof.
    intros tag cf f0 s w r s' w' Hp E.
    assert (K : tri' (backtrack_updater o no (f_params cf) (objective o no xt tag) f0) s w (fun r s' w' =>
      backtracked o no F (ls_objective o no wr tag) (reduction_factor o cf) f0 (g_x s) (g_c s) r (g_x s'))).
    { unfold backtrack_updater, reduction_factor.
      destruct (f_params cf) as [[|z t]|]; [congruence| |];
        (apply (bt_loop_result _ _ _ _ (g_x s) (g_c s) (objective_ok _ _ _ _ _ _ _ _ _ computes_ok Hw tag) _ 0%nat);
          [reflexivity|reflexivity|lia|unfold backtrack_fuel; lia|intros m Hm; lia]). }
    exact (tri_exec _ _ _ _ _ _ _ _ _ _ _ _ _ _ K E).
  Qed.
  Lemma bt_root_result : forall cf f0 (s : G) w r s' w', f_params cf <> Some [] ->
    exec rj (backtrack_updater o no (f_params cf) (root_objective no) f0) (s, w) = (r, (s', w')) ->
    backtracked o no F (n_rnorm no) (reduction_factor o cf) f0 (g_x s) (g_c s) r (g_x s').
  Proof.
    intros cf f0 s w r s' w' Hp E.
    assert (K : tri' (backtrack_updater o no (f_params cf) (root_objective no) f0) s w (fun r s' w' =>
      backtracked o no F (n_rnorm no) (reduction_factor o cf) f0 (g_x s) (g_c s) r (g_x s'))).
    { unfold backtrack_updater, reduction_factor.
      destruct (f_params cf) as [[|z t]|]; [congruence| |];
        (apply (bt_loop_result _ _ _ _ (g_x s) (g_c s) (root_objective_ok _ _ _ _ _ computes_ok) _ 0%nat);
          [reflexivity|reflexivity|lia|unfold backtrack_fuel; lia|intros m Hm; lia]). }
    exact (tri_exec _ _ _ _ _ _ _ _ _ _ _ _ _ _ K E).
  Qed.
  Lemma armijo_loop_result : forall f obj f0 gp y c, obj_ok (graph rj) grF nothing f obj -> forall fuel n (s : G) (w : W),
    g_x s = y -> g_c s = c -> (n <= 10)%nat -> (10 - n < fuel)%nat ->
    (forall m, (m < n)%nat -> sufficient o no F f f0 gp y c m = false /\ unchanged o no F f f0 y c m = false) ->
    tri' (armijo_loop o no obj f0 gp fuel (halvings o n)) s w (fun r (s' : G) w' =>
      armijo_searched o no F f f0 gp y c r (g_x s')).
  Proof.
    intros f obj f0 gp y c Ho. induction fuel as [|fuel IH]; intros n s w Hx Hcc Hn Hf Hrej; [lia|].
    cbn [armijo_loop].
    change (sleb o (sabs o (halvings o n)) (alpha_min o)) with (too_small o (halvings o n)).
    destruct Hten as [T1 T2].
    destruct (Nat.eq_dec n 10) as [->|Hne].
    - rewrite T1. apply tri_lift. cbn [fst snd throw]. right. right. auto.
    - rewrite T2 by lia. apply tri_bind. apply tri_lift. cbn [fst snd].
      set (s1' := set_trial _ s). cbv zeta. apply tri_bind.
      eapply tri_mono; [|exact (Ho (g_trial s1') s1' w)].
      assert (Et : g_trial s1' = along o no y c (halvings o n)) by (subst s1'; cbn; rewrite Hx, Hcc; reflexivity).
      assert (Ex : g_x s1' = y) by exact Hx. assert (Ec : g_c s1' = c) by exact Hcc. clearbody s1'.
      intros r s2 w2 [Fr K]. destruct r as [v|e|u|]; try contradiction. destruct K as [rr [-> ->]]. rewrite Et.
      destruct Fr as [f1 _ f3 _ _ _ _ _ _ _].
      change (sleb o (ssub o (f (F (along o no y c (halvings o n)))) f0) (smul o (smul o (halvings o n) (armijo_beta o)) gp))
        with (sufficient o no F f f0 gp y c n).
      destruct (sufficient o no F f f0 gp y c n) eqn:Ep.
      + apply tri_lift. cbn [fst snd]. left. exists n. repeat (split; [auto; lia|]).
        cbn. rewrite f1, f3, Ex, Ec. reflexivity.
      + change (sleb o (sabs o (ssub o (f (F (along o no y c (halvings o n)))) f0)) (armijo_eps o))
          with (unchanged o no F f f0 y c n).
        destruct (unchanged o no F f f0 y c n) eqn:Eu.
        * apply tri_lift. cbn [fst snd throw]. right. left. exists n.
          split; [lia|]. split; [exact Hrej|]. repeat (split; [assumption || reflexivity|]). congruence.
        * change (smul o (halvings o n) (half o)) with (halvings o (Datatypes.S n)).
          apply IH; try congruence; try lia. intros m Hm.
          destruct (Nat.eq_dec m n) as [->|Hmn]; [split; [exact Ep|exact Eu]|apply Hrej; lia].
  Qed.
  Lemma armijo_result : forall tag f0 s w r s' w',
    exec rj (armijo_updater o no (objective o no xt tag) f0) (s, w) = (r, (s', w')) ->
    armijo_searched o no F (ls_objective o no wr tag) f0 (n_dot no (g_g s) (g_c s)) (g_x s) (g_c s) r (g_x s').
  Proof.
    intros tag f0 s w r s' w' E.
    assert (K : tri' (armijo_updater o no (objective o no xt tag) f0) s w (fun r s' w' =>
      armijo_searched o no F (ls_objective o no wr tag) f0 (n_dot no (g_g s) (g_c s)) (g_x s) (g_c s) r (g_x s'))).
    { unfold armijo_updater. apply tri_bind. apply tri_lift. cbn [fst snd ret].
      apply (armijo_loop_result _ _ _ _ (g_x s) (g_c s) (objective_ok _ _ _ _ _ _ _ _ _ computes_ok Hw tag) _ 0%nat);
          [reflexivity|reflexivity|lia|unfold backtrack_fuel; lia|intros m Hm; lia]. }
    exact (tri_exec _ _ _ _ _ _ _ _ _ _ _ _ _ _ K E).
  Qed.
End Follow.

(** Runs on systems that compute a function; number of evaluations. *)
From Coq Require Import ZArith List Bool Lia.
From Verif Require Import Base ImplicitModel ImplicitSpec NonlinDiag NonlinModel NonlinWp NonlinDiagProofs
  NonlinSpec NonlinRuns NonlinProofs NonlinSolve NonlinLines NonlinClaims.
Import ListNotations.
Local Open Scope Z_scope.
Local Opaque sZ.

(** ** Chains of iterations *)
Section Chain.
  Context {S V R J : Type}.
  Variable o : sops S.
  Notation info := (info S V R J).
  Notation point := (V * S * S)%type.
  Variable cf : config S.
  Variable valid : info -> Prop.
  Variable measure : info -> meas S.
  Variable move : info -> point -> Prop.
  Variable p0 : point.
  Variable stuck : info -> Prop.
  Variable fsys flin ftrial : outcome unit -> Prop.
  Variable rexn lexn : exn -> Prop.
  Variable pub : list diag.
  Variable reports : bool.
  Variable file0 : option report.
  Notation steps' := (steps o cf valid measure move p0).
  Notation ends := (solve_ends o cf valid measure move p0 stuck fsys flin ftrial rexn lexn pub reports file0).

  Record chain (is : list info) : Prop := {
    ch_valid : Forall valid is;
    ch_first : forall i, nth_error is 0 = Some i -> at_point i p0;
    ch_next : forall n i j, nth_error is n = Some i -> nth_error is (Datatypes.S n) = Some j ->
      exists q, move i q /\ at_point j q }.
  Lemma chain_snoc : forall is i p, chain is ->
    (match rev is with [] => p = p0 | j :: _ => move j p end) -> at_point i p -> valid i -> chain (is ++ [i]).
  Proof.
    intros is i p [c1 c2 c3] Hm Ha Hv. split.
    - apply Forall_app. auto.
    - intros j Hj. destruct is; [cbn in *; injection Hj as <-; subst p; exact Ha|]. cbn in Hj. apply c2. exact Hj.
    - intros n j k Hj Hk.
      assert (Hlt : (Datatypes.S n < length (is ++ [i]))%nat) by (apply nth_error_Some; congruence).
      rewrite app_length in Hlt. cbn in Hlt.
      destruct (Nat.eq_dec (Datatypes.S n) (length is)) as [E|E].
      + rewrite nth_error_app2 in Hk by lia. replace (Datatypes.S n - length is)%nat with O in Hk by lia.
        cbn in Hk. injection Hk as <-. rewrite nth_error_app1 in Hj by lia.
        destruct (@exists_last _ is) as [a [z Ez]]; [destruct is; [cbn in E; lia|discriminate]|].
        subst is. rewrite rev_app_distr in Hm. cbn in Hm. rewrite app_length in E. cbn in E.
        rewrite nth_error_app2 in Hj by lia. replace (n - length a)%nat with O in Hj by lia.
        cbn in Hj. injection Hj as <-. eauto.
      + rewrite nth_error_app1 in Hj by lia. rewrite nth_error_app1 in Hk by lia. eauto.
  Qed.
  Lemma steps_chain : forall is p, steps' is p ->
    chain is /\ match rev is with [] => p = p0 | j :: _ => move j p end.
  Proof.
    intros is p K. induction K as [|is p i p' K [IH1 IH2] Ha Hv Hm Hmv].
    - split; [|reflexivity]. split; [constructor|intros i Hi; discriminate|intros [|n] i j Hi; discriminate].
    - split; [eapply chain_snoc; eauto|]. rewrite rev_app_distr. cbn. exact Hmv.
  Qed.
  (** Either the run stopped at the last iteration printed, or it moved on. *)
  Lemma ends_chain : forall r p ls fl, ends r p ls fl -> exists is, ls = printed o measure pub is /\ chain is /\
    ((exists a i, is = a ++ [i] /\ at_point i p) \/ match rev is with [] => p = p0 | j :: _ => move j p end).
  Proof.
    intros r p ls fl K.
    destruct K;
      match goal with Hs : _ |- _ => destruct (steps_chain _ _ Hs) as [C1 C2] end;
      first
        [ exists is; split; [reflexivity|]; solve [auto]
        | exists (is ++ [i]); split; [reflexivity|]; split; [eapply chain_snoc; eauto|]; left; eauto ].
  Qed.
  Lemma printed_states : forall is, map l_state (printed o measure pub is) = map i_x is.
  Proof.
    intros is. apply list_nth_ext. intros n. rewrite !nth_error_map, printed_nth.
    destruct (nth_error is n); reflexivity.
  Qed.

  (** *** Moves that are a function of the state *)
  Variable next : V -> V.
  Hypothesis Hnext : forall i q, valid i -> move i q -> fst (fst q) = next (i_x i).
  Notation x0 := (fst (fst p0)).
  Lemma steps_iter : forall is p, steps' is p ->
    fst (fst p) = iterates next (length is) x0 /\
    map i_x is = map (fun n => iterates next n x0) (seq 0 (length is)).
  Proof.
    intros is p K. induction K as [|is p i p' K [IH1 IH2] Ha Hv Hm Hmv]; [split; reflexivity|].
    unfold at_point in Ha. subst p. cbn [fst] in IH1. rewrite app_length. cbn [length]. rewrite Nat.add_1_r. split.
    - rewrite (Hnext _ _ Hv Hmv), IH1. reflexivity.
    - rewrite seq_S, !map_app, IH2. cbn [map Nat.add]. rewrite <- IH1. reflexivity.
  Qed.
  Hypothesis Hstop : forall d, named (f_stop cf) = Some d -> In d pub.
  Lemma ends_follows : (forall r, ~ fsys r) -> (forall r, ~ flin r) -> (forall r, ~ ftrial r) ->
    (forall i, ~ stuck i) -> f_max cf < int32_max ->
    forall r p ls fl, ends r p ls fl -> follows o cf next x0 r (fst (fst p)) ls.
  Proof.
    intros H1 H2 H3 H4 H5 r p ls fl K.
    destruct K;
      try match goal with
          | Hx : stuck _ |- _ => destruct (H4 _ Hx) | Hx : fsys _ |- _ => destruct (H1 _ Hx)
          | Hx : flin _ |- _ => destruct (H2 _ Hx) | Hx : ftrial _ |- _ => destruct (H3 _ Hx)
          | Hx : int32_max <= _ |- _ => exfalso; lia end.
    - pose proof (steps_iter _ _ H0) as [I1 I2]. unfold at_point in H6. subst p. cbn [fst] in *. split; [reflexivity| |].
      + rewrite printed_states, printed_length, app_length. cbn [length]. rewrite Nat.add_1_r.
        rewrite seq_S, !map_app, I2. cbn [map Nat.add]. rewrite <- I1. reflexivity.
      + left. exists (printed o measure pub is), (line_at o measure pub (first measure is i) (number is) i).
        rewrite printed_last. split; [reflexivity|]. split; [apply line_met_iff; assumption|].
        split; [eapply none_met; eauto|]. rewrite app_length, printed_length. cbn [length].
        unfold number in H. split; [lia|exact I1].
    - match goal with Hs : _ |- _ => pose proof (steps_iter _ _ Hs) as [I1 I2] end. split; [reflexivity| |].
      + rewrite printed_states, printed_length. exact I2.
      + right. rewrite printed_length. split; [exact H|]. split; [eapply none_met; eauto|exact I1].
  Qed.
End Chain.

(** ** Number of calls *)
Section Calls.
  Context {V R J : Type}.
  Lemma cam_mono : forall X (t : ptree V R J X) a b, (a <= b)%nat -> calls_at_most t a -> calls_at_most t b.
  Proof.
    induction t as [x|y r j k IH]; intros a b Hl K; cbn in *; [exact I|].
    destruct a; [destruct K|]. destruct b; [lia|]. intros e r' j'. apply (IH e r' j' a b); [lia|apply K].
  Qed.
  Lemma cam_bind : forall X Y (t : ptree V R J X) (k : X -> ptree V R J Y) a b,
    calls_at_most t a -> (forall x, calls_at_most (k x) b) -> calls_at_most (ptbind t k) (a + b).
  Proof.
    intros X Y. induction t as [x|y r j q IH]; intros k a b K1 K2; cbn in *; [eapply cam_mono; [|apply K2]; lia|].
    destruct a; [destruct K1|]. cbn. intros e r' j'. apply IH; auto.
  Qed.
  Lemma cam_count : forall X W rj (t : ptree V R J X) n (w : W) k,
    calls_at_most t n -> (snd (snd (prun (counting rj) t (w, k))) <= k + n)%nat.
  Proof.
    intros X W rj. induction t as [x|y r j q IH]; intros n w k K; cbn; [lia|].
    destruct n; [destruct K|]. destruct (rj y r j w) as [e [[r' j'] w']] eqn:E.
    specialize (IH e r' j' n w' (Datatypes.S k) (K e r' j')). unfold counting at 1. cbn [fst snd]. rewrite E. cbv beta iota. lia.
  Qed.
End Calls.
Section CallsProg.
  Context {S V R J H L : Type}.
  Variable o : sops S.
  Variable no : nlops S V R J H.
  Variable xt : exts V R J H L.
  Notation G := (reg S V R J H L).
  Notation P := (prog V R J G).
  Definition pcalls {A} (p : P A) (n : nat) : Prop := forall s, calls_at_most (p s) n.
  Lemma pc_lift : forall A (c : cmd G A), pcalls (plift c) 0.
  Proof. intros A c s. exact I. Qed.
  Lemma pc_mono : forall A (p : P A) a b, (a <= b)%nat -> pcalls p a -> pcalls p b.
  Proof. intros A p a b Hl K s. eapply cam_mono; eauto. Qed.
  Lemma pc_bind : forall A B (m : P A) (k : A -> P B) a b, pcalls m a -> (forall x, pcalls (k x) b) -> pcalls (pbind m k) (a + b).
  Proof.
    intros A B m k a b K1 K2 s. apply cam_bind; [apply K1|]. intros [[x|e|u|] s']; [apply K2|exact I|exact I|exact I].
  Qed.
  Lemma pc_bind0 : forall A B (m : P A) (k : A -> P B) b, pcalls m 0 -> (forall x, pcalls (k x) b) -> pcalls (pbind m k) b.
  Proof. intros A B m k b. apply (pc_bind A B m k 0 b). Qed.
  Lemma pc_catch : forall A (m : P A) hd (h : exn -> P A) a, pcalls m a -> (forall x, pcalls (h x) 0) -> pcalls (pcatch m hd h) a.
  Proof.
    intros A m hd h a K1 K2 s. replace a with (a + 0)%nat by lia. apply cam_bind; [apply K1|].
    intros [[x|e|u|] s']; cbn; try exact I. destruct (hd e); [apply K2|exact I].
  Qed.
  Ltac pc := repeat (match goal with
    | |- pcalls (pbind _ _) 0 => apply (pc_bind _ _ _ _ 0%nat 0%nat); [|intros ?]
    | |- pcalls (plift _) _ => eapply pc_mono; [apply Nat.le_0_l|apply pc_lift]
    | |- pcalls (pret _) _ => eapply pc_mono; [apply Nat.le_0_l|apply pc_lift]
    | |- pcalls (pmod _) _ => eapply pc_mono; [apply Nat.le_0_l|apply pc_lift]
    | |- pcalls (pget _) _ => eapply pc_mono; [apply Nat.le_0_l|apply pc_lift]
    | |- pcalls (pthrow _) _ => eapply pc_mono; [apply Nat.le_0_l|apply pc_lift]
    | |- pcalls (pundef _) _ => eapply pc_mono; [apply Nat.le_0_l|apply pc_lift]
    | |- pcalls pnofuel _ => eapply pc_mono; [apply Nat.le_0_l|apply pc_lift]
    | |- pcalls (if ?b then _ else _) _ => destruct b
    end).
  Lemma pc_residual : forall y, pcalls (compute_residual y) 1.
  Proof. intros y s. cbn. auto. Qed.
  Lemma pc_rj : pcalls compute_residual_and_jacobian 1.
  Proof. intros s. cbn. auto. Qed.
  Lemma pc_objective : forall tag y, pcalls (objective o no xt tag y) 1.
  Proof.
    intros tag y. destruct tag; cbn [objective]; apply (pc_bind _ _ _ _ 1%nat 0%nat); try apply pc_residual; intros ?; unfold weigh_r; pc.
  Qed.
  Lemma pc_root_objective : forall y, pcalls (root_objective no y) 1.
  Proof. intros y. apply (pc_bind _ _ _ _ 1%nat 0%nat); [apply pc_residual|]. intros ?. pc. Qed.
  Lemma pc_operators : forall tag, pcalls (operators_and_objective o no xt tag) 1.
  Proof.
    intros tag. apply (pc_bind _ _ _ _ 1%nat 0%nat); [apply pc_rj|]. intros ?.
    destruct tag; unfold weigh_r, weigh_j; pc.
  Qed.
  Lemma pc_correction : forall tag, pcalls (correction o no xt tag) 0.
  Proof. intros tag. destruct tag; cbn [correction]; unfold solve_hessian, negate_c; pc. Qed.
  Lemma pc_trial : forall (obj : V -> P S), (forall y, pcalls (obj y) 1) ->
    pcalls (fun s => obj (g_trial s) s) 1.
  Proof. intros obj Ho s. apply Ho. Qed.
  Hypothesis Hten : ten_halvings o.
  Lemma pc_backtrack : forall zeta obj f0, (forall y, pcalls (obj y) 1) -> forall fuel n, (n <= 10)%nat ->
    pcalls (backtrack_loop o no zeta obj f0 fuel (halvings o n)) (10 - n).
  Proof.
    intros zeta obj f0 Ho. induction fuel as [|fuel IH]; intros n Hn; cbn [backtrack_loop]; [pc|].
    change (sleb o (sabs o (halvings o n)) (alpha_min o)) with (too_small o (halvings o n)).
    destruct (too_small o (halvings o n)) eqn:Es; [pc|].
    assert (n < 10)%nat.
    { destruct (Nat.eq_dec n 10) as [->|Hne]; [|lia]. destruct Hten as [Ht _]. congruence. }
    replace (10 - n)%nat with (0 + (1 + (10 - Datatypes.S n)))%nat by lia.
    apply pc_bind; [pc|intros ?]. apply pc_bind; [apply pc_trial; exact Ho|]. intros f.
    destruct (sleb o f (smul o zeta f0)); [pc|].
    change (smul o (halvings o n) (half o)) with (halvings o (Datatypes.S n)). apply IH. lia.
  Qed.
  Lemma pc_iterate : forall (body : Z -> P bool) mx c, (forall k, pcalls (body k) c) -> forall fuel k,
    pcalls (iterate body mx fuel k) (c * Z.to_nat (mx - k)).
  Proof.
    intros body mx c Hb. induction fuel as [|fuel IH]; intros k; cbn [iterate]; [pc|].
    destruct (k =? int32_max); [pc|]. destruct (Z.leb_spec (k + 1) mx); [|pc].
    replace (Z.to_nat (mx - k)) with (Datatypes.S (Z.to_nat (mx - (k + 1)))) by lia.
    rewrite Nat.mul_succ_r, Nat.add_comm. apply pc_bind; [apply Hb|]. intros b. destruct b; [pc|apply IH].
  Qed.
  Lemma pc_ls_body : forall tag cf up n k, (forall obj f0, (forall y, pcalls (obj y) 1) -> pcalls (up obj f0) n) ->
    pcalls (ls_body o no xt tag cf up k) (1 + n).
  Proof.
    intros tag cf up n k Hup. unfold ls_body.
    apply pc_bind; [apply pc_catch; [|intros ?; pc]; apply (pc_bind _ _ _ _ 1%nat 0%nat); [apply pc_operators|intros ?; pc]|intros ?].
    replace n with (0 + (0 + (0 + (0 + n))))%nat by lia.
    apply pc_bind; [apply pc_correction|intros ?]. apply pc_bind; [unfold norm_diagnostics; pc|intros ?].
    apply pc_bind; [unfold log_iteration; pc|intros ?]. apply pc_bind; [unfold ls_must_stop; pc|intros b].
    destruct b; [pc|]. apply pc_catch; [|intros ?; pc].
    replace n with (0 + (n + 0))%nat by lia.
    apply pc_bind; [pc|intros f0]. apply pc_bind; [|intros ?; pc]. apply Hup. apply pc_objective.
  Qed.
  Lemma pc_root_body : forall cf up n k, (forall obj f0, (forall y, pcalls (obj y) 1) -> pcalls (up obj f0) n) ->
    pcalls (root_body o no xt cf up k) (1 + n).
  Proof.
    intros cf up n k Hup. unfold root_body.
    apply pc_bind; [apply pc_catch; [apply pc_rj|intros ?; unfold write_report; pc]|intros ?].
    replace n with (0 + (0 + (0 + (0 + n))))%nat by lia.
    apply pc_bind; [unfold newton_step, negate_c; pc|intros ?]. apply pc_bind; [unfold norm_diagnostics; pc|intros ?].
    apply pc_bind; [unfold log_iteration; pc|intros ?]. apply pc_bind; [unfold root_must_stop, write_report; pc|intros b].
    destruct b; [pc|]. apply pc_catch; [|intros ?; unfold write_report; pc].
    replace n with (0 + (n + 0))%nat by lia.
    apply pc_bind; [pc|intros f0]. apply pc_bind; [|intros ?; pc]. apply Hup. apply pc_root_objective.
  Qed.
  Lemma pc_bt_up : forall ps obj f0, (forall y, pcalls (obj y) 1) -> pcalls (backtrack_updater o no ps obj f0) 10.
  Proof.
    intros ps obj f0 Ho. unfold backtrack_updater. destruct ps as [[|z t]|]; [pc| |];
      apply (pc_backtrack _ obj f0 Ho _ 0%nat); lia.
  Qed.
  Lemma pc_gain : forall obj f0, (forall y, pcalls (obj y) 1) -> pcalls (lm_gain_factor o no obj f0) 1.
  Proof.
    intros obj f0 Ho. unfold lm_gain_factor. change 1%nat with (0 + (1 + 0))%nat.
    apply pc_bind; [pc|intros ?]. apply pc_bind; [apply pc_trial; exact Ho|intros ?; pc].
  Qed.
  Lemma pc_lm1 : forall obj f0, (forall y, pcalls (obj y) 1) -> pcalls (lm1_updater o no obj f0) 1.
  Proof.
    intros obj f0 Ho. unfold lm1_updater. change 1%nat with (1 + 0)%nat.
    apply pc_bind; [apply pc_gain; exact Ho|intros rho; pc].
  Qed.
  Lemma pc_lm2 : forall obj f0, (forall y, pcalls (obj y) 1) -> pcalls (lm2_updater o no obj f0) 1.
  Proof.
    intros obj f0 Ho. unfold lm2_updater. change 1%nat with (1 + 0)%nat.
    apply pc_bind; [apply pc_gain; exact Ho|intros rho; pc].
  Qed.
  Lemma pc_ls_solve : forall tag cf, pcalls (ls_solve o no xt tag cf) (evaluations (f_update cf) * Z.to_nat (f_max cf)).
  Proof.
    intros tag cf. unfold ls_solve.
    assert (Hres : pcalls (reset_for_new_solve o tag) 0) by (destruct tag; cbn; pc).
    assert (Hl : forall up n, (forall obj f0, (forall y, pcalls (obj y) 1) -> pcalls (up obj f0) n) ->
              pcalls (ls_loop o no xt tag cf up) ((1 + n) * Z.to_nat (f_max cf))).
    { intros up n Hup. unfold ls_loop. replace (f_max cf) with (f_max cf - 0) at 3 by lia. apply pc_iterate.
      intros k. apply pc_ls_body. exact Hup. }
    assert (Hbt : pcalls (reset_for_new_solve o tag;;;
        match f_params cf with
        | Some [] => pundef UOutOfBounds
        | ps => ls_loop o no xt tag cf (backtrack_updater o no ps)
        end)%prog ((1 + 10) * Z.to_nat (f_max cf))).
    { apply pc_bind0; [exact Hres|intros ?].
      destruct (f_params cf) as [[|z t]|]; [pc| |]; apply Hl; intros; apply pc_bt_up; assumption. }
    destruct (f_update cf); cbn [evaluations].
    - apply pc_bind0; [exact Hres|intros ?]. apply (Hl _ 0%nat). intros. unfold default_updater. pc.
    - exact Hbt.
    - exact Hbt.
    - destruct (is_levmar tag); [|pc]. apply pc_bind0; [exact Hres|intros ?].
      apply pc_bind0; [pc|intros ?]. apply (Hl _ 1%nat). apply pc_lm1.
    - destruct (is_levmar tag); [|pc]. apply pc_bind0; [exact Hres|intros ?]. apply (Hl _ 1%nat). apply pc_lm2.
    - pc.
  Qed.
  Lemma pc_root_solve : forall cf, pcalls (root_solve o no xt cf) (evaluations (f_update cf) * Z.to_nat (f_max cf)).
  Proof.
    intros cf. unfold root_solve.
    assert (Hl : forall up n, (forall obj f0, (forall y, pcalls (obj y) 1) -> pcalls (up obj f0) n) ->
              pcalls (root_loop o no xt cf up) ((1 + n) * Z.to_nat (f_max cf))).
    { intros up n Hup. unfold root_loop. replace (f_max cf) with (f_max cf - 0) at 3 by lia. apply pc_iterate.
      intros k. apply pc_root_body. exact Hup. }
    destruct (f_update cf); cbn [evaluations]; pc.
    - apply (Hl _ 0%nat). intros. unfold default_updater. pc.
    - destruct (f_params cf) as [[|z t]|]; [pc| |]; apply (Hl _ 10%nat); intros; apply pc_bt_up; assumption.
  Qed.
  Lemma count_exec : forall W rj A (p : P A) n (s : G) (w : W) r s' w' k, pcalls p n ->
    exec (counting rj) p (s, (w, O)) = (r, (s', (w', k))) -> (k <= n)%nat.
  Proof.
    intros W rj A p n s w r s' w' k Hp E. unfold exec in E. cbn [fst snd] in E.
    pose proof (cam_count _ W rj (p s) n w O (Hp s)) as K.
    destruct (prun (counting rj) (p s) (w, O)) as [[r0 s0] [w0 k0]]. cbn in K. inversion E. subst. exact K.
  Qed.
End CallsProg.

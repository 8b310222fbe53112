(** Lemmas behind further property theorems on nonlinear solvers: the termination
    file, failures of the residual, and the solvers inside implicit steps. *)
From Coq Require Import ZArith List Bool Lia.
From Verif Require Import Base ImplicitModel NonlinDiag NonlinModel NonlinWp NonlinDiagProofs NonlinSpec
  NonlinProofs NonlinSolve NonlinLines NonlinClaims NonlinRuns NonlinSeq NonlinFollow NonlinMoreSpec.
Import ListNotations.
Local Open Scope Z_scope.

(** ** Every solve is a strict program *)
Section Strict.
  Context {S V R J H L : Type}.
  Variable o : sops S.
  Variable no : nlops S V R J H.
  Variable xt : exts V R J H L.
  Notation G := (reg S V R J H L).
  Notation P := (prog V R J G).
  Definition sprog {A} (p : P A) : Prop := forall s, strict (p s).
  Lemma sp_lift : forall A (c : cmd G A), sprog (plift c).
  Proof. intros A c s. exact I. Qed.
  Lemma sp_bind : forall A B (m : P A) (k : A -> P B), sprog m -> (forall a, sprog (k a)) -> sprog (pbind m k).
  Proof. intros A B m k Hm Hk s. apply strict_bind; [apply Hm|intros a s'; apply Hk]. Qed.
  Lemma sp_catch : forall A (m : P A) hd h, sprog m -> (forall e, sprog (h e)) -> sprog (pcatch m hd h).
  Proof. intros A m hd h Hm Hh s. apply strict_catch; [apply Hm|intros a s'; apply Hh]. Qed.
  Lemma sp_residual : forall y, sprog (compute_residual (S:=S) (H:=H) (L:=L) y).
  Proof. intros y s e r j. destruct e; cbn; eauto. Qed.
  Lemma sp_rj : sprog (@compute_residual_and_jacobian S V R J H L).
  Proof. intros s e r j. destruct e; cbn; eauto. Qed.
  Ltac sp :=
    repeat first [ apply sp_bind | apply sp_catch | apply sp_residual | apply sp_rj | (intros ? ; progress cbv beta)
                 | exact (sp_lift _ _) | intros ? | exact I ].
  Lemma sp_objective : forall tag y, sprog (objective o no xt tag y).
  Proof. intros [] y; unfold objective, weigh_r, pget; repeat (apply sp_bind; [first [apply sp_residual|apply sp_lift]|intros _]); apply sp_lift. Qed.
  Lemma sp_root_objective : forall y, sprog (root_objective (S:=S) (J:=J) (H:=H) (L:=L) no y).
  Proof. intros y. unfold root_objective, pget. apply sp_bind; [apply sp_residual|intros _; apply sp_lift]. Qed.
  Lemma sp_operators : forall tag, sprog (operators_and_objective o no xt tag).
  Proof.
    intros tag. unfold operators_and_objective. apply sp_bind; [apply sp_rj|intros _].
    destruct tag; unfold weigh_r, weigh_j, pmod, pget;
      repeat (apply sp_bind; [apply sp_lift|intros _]); apply sp_lift.
  Qed.
  Lemma sp_correction : forall tag, sprog (correction o no xt tag).
  Proof.
    intros tag. unfold correction, solve_hessian, negate_c, pmod.
    destruct tag; repeat (apply sp_bind; [apply sp_lift|intros _]); apply sp_lift.
  Qed.
  Definition sobj (obj : V -> P S) : Prop := forall y, sprog (obj y).
  Definition sup (up : updater (S:=S)) : Prop := forall obj f0, sobj obj -> sprog (up obj f0 : P unit).
  Lemma sp_default : sup (default_updater o no).
  Proof. intros obj f0 Hb. apply sp_lift. Qed.
  Lemma sp_bt_loop : forall zeta obj f0 fuel alpha, sobj obj -> sprog (backtrack_loop o no zeta obj f0 fuel alpha).
  Proof.
    intros zeta obj f0 fuel. induction fuel as [|n IH]; intros alpha Hb; cbn [backtrack_loop]; [apply sp_lift|].
    destruct (sleb o (sabs o alpha) (alpha_min o)); [apply sp_lift|].
    apply sp_bind; [apply sp_lift|intros _]. apply sp_bind; [intros s; apply Hb|intros f].
    destruct (sleb o f (smul o zeta f0)); [apply sp_lift|apply IH; exact Hb].
  Qed.
  Lemma sp_backtrack : forall ps, sup (backtrack_updater o no ps).
  Proof.
    intros ps obj f0 Hb. unfold backtrack_updater. destruct ps as [[|z t]|]; [apply sp_lift|apply sp_bt_loop; exact Hb|apply sp_bt_loop; exact Hb].
  Qed.
  Lemma sp_gain : forall obj f0, sobj obj -> sprog (lm_gain_factor o no obj f0).
  Proof.
    intros obj f0 Hb. unfold lm_gain_factor. apply sp_bind; [apply sp_lift|intros _].
    apply sp_bind; [intros s; apply Hb|intros f; apply sp_lift].
  Qed.
  Lemma sp_lm1 : sup (lm1_updater o no).
  Proof.
    intros obj f0 Hb. unfold lm1_updater. apply sp_bind; [apply sp_gain; exact Hb|intros rho].
    destruct (sltb o (s0 o) rho); repeat (apply sp_bind; [apply sp_lift|intros _]); apply sp_lift.
  Qed.
  Lemma sp_lm2 : sup (lm2_updater o no).
  Proof.
    intros obj f0 Hb. unfold lm2_updater. apply sp_bind; [apply sp_gain; exact Hb|intros rho].
    apply sp_bind; [destruct (sltb o rho _); apply sp_lift|intros _].
    apply sp_bind; [destruct (sltb o _ rho); apply sp_lift|intros _].
    destruct (sltb o _ rho); apply sp_lift.
  Qed.
  Lemma sp_iterate : forall (body : Z -> P bool) m fuel k, (forall k, sprog (body k)) -> sprog (iterate body m fuel k).
  Proof.
    intros body m fuel. induction fuel as [|n IH]; intros k Hb; cbn [iterate]; [apply sp_lift|].
    destruct (k =? int32_max); [apply sp_lift|]. destruct (k + 1 <=? m); [|apply sp_lift].
    apply sp_bind; [apply Hb|intros []; [apply sp_lift|apply IH; exact Hb]].
  Qed.
  Lemma sp_root_body : forall cf up k, sup up -> sprog (root_body o no xt cf up k).
  Proof.
    intros cf up k Hu. unfold root_body, newton_step, negate_c, norm_diagnostics, log_iteration, root_must_stop, write_report, pmod.
    apply sp_bind. { apply sp_catch; [apply sp_rj|]. intros e. apply sp_bind; [apply sp_lift|intros _; apply sp_lift]. }
    intros _. apply sp_bind; [apply sp_bind; [apply sp_lift|intros _; apply sp_lift]|intros _].
    apply sp_bind; [apply sp_lift|intros _]. apply sp_bind; [apply sp_lift|intros _].
    apply sp_bind.
    { apply sp_bind; [apply sp_lift|intros b]. apply sp_bind; [destruct (_ && _)%bool; apply sp_lift|intros _; apply sp_lift]. }
    intros []; [apply sp_lift|]. apply sp_catch.
    - apply sp_bind; [apply sp_lift|intros f]. apply sp_bind; [apply Hu; intros y; apply sp_root_objective|intros _; apply sp_lift].
    - intros e. apply sp_bind; [apply sp_lift|intros _; apply sp_lift].
  Qed.
  Lemma sp_ls_body : forall tag cf up k, sup up -> sprog (ls_body o no xt tag cf up k).
  Proof.
    intros tag cf up k Hu. unfold ls_body, norm_diagnostics, log_iteration, ls_must_stop, pmod.
    apply sp_bind.
    { apply sp_catch; [|intros e; apply sp_lift]. apply sp_bind; [apply sp_operators|intros f; apply sp_lift]. }
    intros _. apply sp_bind; [apply sp_correction|intros _].
    apply sp_bind; [apply sp_lift|intros _]. apply sp_bind; [apply sp_lift|intros _]. apply sp_bind; [apply sp_lift|].
    intros []; [apply sp_lift|]. apply sp_catch; [|intros e; apply sp_lift].
    apply sp_bind; [apply sp_lift|intros f]. apply sp_bind; [apply Hu; intros y; apply sp_objective|intros _; apply sp_lift].
  Qed.
  Lemma sp_root_solve : forall cf, sprog (root_solve o no xt cf).
  Proof.
    intros cf. unfold root_solve, root_loop. destruct (f_update cf); try apply sp_lift.
    - apply sp_iterate. intros k. apply sp_root_body. apply sp_default.
    - destruct (f_params cf) as [[|z t]|]; [apply sp_lift| |]; apply sp_iterate; intros k; apply sp_root_body; apply sp_backtrack.
  Qed.
  Lemma sp_ls_solve : forall tag cf, sprog (ls_solve o no xt tag cf).
  Proof.
    intros tag cf. unfold ls_solve, ls_loop, reset_for_new_solve, pmod.
    assert (Hr : sprog (match tag with LevMar => plift (fun s : G => (Ok tt, set_damp (sZ o 1) s)) | _ => pret tt end : P unit))
      by (destruct tag; apply sp_lift).
    destruct (f_update cf); try apply sp_lift; try (destruct (is_levmar tag); [|apply sp_lift]);
      (apply sp_bind; [exact Hr|intros _]).
    - apply sp_iterate. intros k. apply sp_ls_body, sp_default.
    - destruct (f_params cf) as [[|z t]|]; [apply sp_lift| |]; apply sp_iterate; intros k; apply sp_ls_body; apply sp_backtrack.
    - destruct (f_params cf) as [[|z t]|]; [apply sp_lift| |]; apply sp_iterate; intros k; apply sp_ls_body; apply sp_backtrack.
    - apply sp_bind; [apply sp_lift|intros _]. apply sp_iterate. intros k. apply sp_ls_body, sp_lm1.
    - apply sp_iterate. intros k. apply sp_ls_body, sp_lm2.
  Qed.
  (** The solver given to a stepper does what the solver does. *)
  Lemma as_solver_run : forall W (rj : V -> R -> option J -> W -> outcome unit * (R * option J * W)) p ws y y0 ws0 w r s' w',
    sprog p -> exec rj p (set_x y ws, w) = (r, (s', w')) ->
    match r with
    | Ok _ | Throw _ => run_solver rj (as_solver p ws y) y0 ws0 w = (r, (g_x s', s', w'))
    | _ => exists a b, run_solver rj (as_solver p ws y) y0 ws0 w = (r, (a, b, w'))
    end.
  Proof.
    intros W rj p ws y y0 ws0 w r s' w' Hp E. unfold exec in E. cbn [fst snd] in E. unfold as_solver.
    pose proof (to_sol_run _ _ rj (p (set_x y ws)) y0 ws0 w (Hp _)) as K.
    destruct (prun rj (p (set_x y ws)) w) as [[r0 s0] w0]. injection E as <- <- <-.
    destruct r0 as [[]|e|u|]; exact K.
  Qed.
End Strict.

Section File.
  Context {S V R J H L W : Type}.
  Variable o : sops S.
  Variable no : nlops S V R J H.
  Variable xt : exts V R J H L.
  Variable rj : V -> R -> option J -> W -> outcome unit * (R * option J * W).
  Lemma app_last_inv : forall A (a : list A) x, a ++ [x] <> [].
  Proof. intros A [|y a] x; discriminate. Qed.
  (** C49 *)
  Lemma root_file : forall cf s w s' w',
    root_object o s -> root_supported cf -> halving_ends o -> plain_system rj ->
    exec rj (root_solve o no xt cf) (s, w) = (Ok tt, (s', w')) ->
    exists ls, g_log s' = g_log s ++ ls /\ file_tells o cf ls (g_file s) (g_file s').
  Proof.
    intros cf s w s' w' Ho Hs Hh Hp E.
    pose proof (root_solve_ok o no xt (graph rj) _ _ _ _ _ _ _ (any_sys_ok _ Hp) (any_linear_ok _) Hh no_ls
                  cf s w Ho Hs) as K.
    pose proof (tri_exec _ _ _ _ _ _ _ _ _ _ _ _ _ _ K E) as [K1 [ls [K2 K3]]].
    exists ls. split; [exact K2|]. pose proof (root_named _ Hs) as Hn.
    remember (Ok tt) as r eqn:Er. remember (g_file s') as fl eqn:Ef. clear Ef.
    destruct K3 as [is i p Hk Hst Ha Hv Hm|is i p e Hk Hst Ha Hv Hm Hstk He|is p Hk Hmx Hst|is p Hk Hmx Hst
      |is p e Hk Hst He Hf|is p r Hk Hst He Hf Hne|is p r Hk Hst He Hf|is i p r Hk Hst Ha Hv Hm He Hf];
      try discriminate; try (subst r; congruence).
    - right. left. eexists. eexists. split; [apply printed_last|]. split; [apply line_met_iff; assumption|reflexivity].
    - right. right. split; [apply snoc_not_nil|]. split.
      + intros l Hl. rewrite printed_last in Hl. apply in_app_iff in Hl. destruct Hl as [Hl|[Hl|[]]].
        * eapply none_met; eauto.
        * subst l. rewrite line_met_iff; assumption.
      + cbn. eauto.
    - destruct is as [|j is].
      + left. split; reflexivity.
      + right. right. split; [cbn; discriminate|]. split; [eapply none_met; eauto|]. cbn. eauto.
  Qed.
  (** The least-squares solvers write no file. *)
  Lemma ls_no_file : forall wr wj tag cf s w r s' w',
    ls_object o s -> ls_supported tag cf -> halving_ends o -> plain_system rj -> weights_ok xt wr wj no_linesearch ->
    exec rj (ls_solve o no xt tag cf) (s, w) = (r, (s', w')) -> g_file s' = g_file s.
  Proof.
    intros wr wj tag cf s w r s' w' Ho Hs Hh Hp Hw E.
    pose proof (ls_solve_ok o no xt (graph rj) wr wj _ _ _ _ _ _ _ (any_sys_ok _ Hp) Hw (any_linear_ok _) Hh no_ls
                  tag cf s w Ho Hs) as K.
    pose proof (tri_exec _ _ _ _ _ _ _ _ _ _ _ _ _ _ K E) as [K1 [ls [K2 K3]]].
    destruct K3; cbn; try reflexivity.
    - destruct is; reflexivity.
    - destruct (f_max cf <=? int32_max); reflexivity.
    - destruct (f_max cf <=? number is); reflexivity.
  Qed.
  (** C52 *)
  Notation anyr := (fun _ _ => True).
  Lemma failing_ok : fails_with_residual rj -> sys_ok (graph rj) (returns_r rj) (returns_j rj) residual_failures.
  Proof.
    intros Hf. split.
    - intros y r j w r' j' w' E. unfold graph in E. exists r, j, w, j', w'. exact E.
    - intros y r j w r' j' w' E. unfold graph in E. exists r, j, w, r', j', w'. split; [exact E|reflexivity].
    - intros y r j w e r' j' w' E Hn. unfold graph in E. exact (Hf _ _ _ _ _ _ E Hn).
  Qed.
  Lemma residual_not_ls : forall e, residual_failures (Throw e) -> is_linesearch_failure e = false.
  Proof. intros e [e' [He E]]. injection E as <-. destruct He; subst; reflexivity. Qed.
  Lemma root_failures : forall glin gqr gnewt cf s w r s' w',
    root_object o s -> root_supported cf -> f_update cf = UStandard -> f_max cf < int32_max -> halving_ends o ->
    fails_with_residual rj -> linear_ok xt glin gqr gnewt nothing ->
    exec rj (root_solve o no xt cf) (s, w) = (r, (s', w')) ->
    r = Ok tt \/ (r = Throw ENonlinearSolve /\ exists e, residual_exn e /\ g_file s' = Some (RError e)).
  Proof.
    intros glin gqr gnewt cf s w r s' w' Ho Hs Hu Hmx Hh Hp Hl E.
    pose proof (root_solve_ok o no xt (graph rj) _ _ _ _ _ _ _ (failing_ok Hp) Hl Hh residual_not_ls
                  cf s w Ho Hs) as K.
    pose proof (tri_exec _ _ _ _ _ _ _ _ _ _ _ _ _ _ K E) as [K1 [ls [K2 K3]]]. clear K E.
    remember (g_file s') as fl eqn:Ef. clear Ef.
    destruct K3 as [is i p Hk Hst Ha Hv Hm|is i p e Hk Hst Ha Hv Hm Hstk He|is p Hk Hl' Hst|is p Hk Hl' Hst
      |is p e Hk Hst He Hf|is p r Hk Hst He Hf Hne|is p r Hk Hst He Hf|is i p r Hk Hst Ha Hv Hm He Hf]; auto.
    - exfalso. lia.
    - right. split; [reflexivity|]. cbn. eauto.
    - exfalso. destruct Hf as [e [He' ->]]. exact (Hne e eq_refl He').
    - destruct Hf.
    - exfalso. unfold trial_failures in Hf. rewrite Hu in Hf. exact Hf.
  Qed.
  Lemma ls_failures : forall wr wj glin gqr gnewt tag cf s w r s' w',
    ls_object o s -> f_update cf = UStandard -> f_max cf < int32_max -> halving_ends o ->
    fails_with_residual rj -> weights_ok xt wr wj residual_failures -> linear_ok xt glin gqr gnewt nothing ->
    exec rj (ls_solve o no xt tag cf) (s, w) = (r, (s', w')) ->
    r = Ok tt \/ r = Throw ENonlinearSolve.
  Proof.
    intros wr wj glin gqr gnewt tag cf s w r s' w' Ho Hu Hmx Hh Hp Hw Hl E.
    assert (Hs : ls_supported tag cf) by (unfold ls_supported; rewrite Hu; exact I).
    pose proof (ls_solve_ok o no xt (graph rj) wr wj _ _ _ _ _ _ _ (failing_ok Hp) Hw Hl Hh residual_not_ls
                  tag cf s w Ho Hs) as K.
    pose proof (tri_exec _ _ _ _ _ _ _ _ _ _ _ _ _ _ K E) as [K1 [ls [K2 K3]]]. clear K E.
    remember (g_file s') as fl eqn:Ef. clear Ef.
    destruct K3 as [is i p Hk Hst Ha Hv Hm|is i p e Hk Hst Ha Hv Hm Hstk He|is p Hk Hl' Hst|is p Hk Hl' Hst
      |is p e Hk Hst He Hf|is p r Hk Hst He Hf Hne|is p r Hk Hst He Hf|is i p r Hk Hst Ha Hv Hm He Hf]; auto.
    - exfalso. lia.
    - exfalso. destruct Hf as [e [He' ->]]. exact (Hne e eq_refl He').
    - destruct Hf.
    - exfalso. unfold trial_failures in Hf. rewrite Hu in Hf. exact Hf.
  Qed.
End File.

(** The matrix-free Newton solver against Newton with a matrix. *)
From Coq Require Import ZArith List Bool.
From Verif Require Import Base NonlinDiag NonlinModel MatrixFreeModel MatrixFreeSpec.
Import ListNotations.
Local Open Scope Z_scope.

Lemma prun_bind : forall V R J X Y W (rj : V -> R -> option J -> W -> outcome unit * (R * option J * W))
    (t : ptree V R J X) (k : X -> ptree V R J Y) w,
  prun rj (ptbind t k) w = let '(x, w') := prun rj t w in prun rj (k x) w'.
Proof.
  intros V R J X Y W rj t k. induction t as [x|y r j q IH]; intros w; [reflexivity|].
  cbn [ptbind prun]. destruct (rj y r j w) as [e [[r' j'] w']]. apply IH.
Qed.
Lemma exec_bind : forall V R J G A B W (rj : V -> R -> option J -> W -> outcome unit * (R * option J * W))
    (m : prog V R J G A) (k : A -> prog V R J G B) g,
  exec rj (pbind m k) g = bind (exec rj m) (fun a => exec rj (k a)) g.
Proof.
  intros V R J G A B W rj m k [s w]. unfold exec, pbind, bind. cbn [fst snd]. rewrite prun_bind.
  destruct (prun rj (m s) w) as [[[a|e|u|] s'] w']; reflexivity.
Qed.
Lemma exec_catch : forall V R J G A W (rj : V -> R -> option J -> W -> outcome unit * (R * option J * W))
    (m : prog V R J G A) hd h g,
  exec rj (pcatch m hd h) g = catch (exec rj m) hd (fun e => exec rj (h e)) g.
Proof.
  intros V R J G A W rj m hd h [s w]. unfold exec, pcatch, catch. cbn [fst snd]. rewrite prun_bind.
  destruct (prun rj (m s) w) as [[[a|e|u|] s'] w']; try reflexivity. cbn. destruct (hd e); reflexivity.
Qed.

Section Refine.
  Context {S V R J H L W U : Type}.
  Variables (o : sops S) (no : nlops S V R J H) (xt : exts V R J H L).
  Notation nm := (forget_ops no).
  Variable rj : V -> R -> option J -> W -> outcome unit * (R * option J * W).
  Variable res : V -> R -> W -> outcome unit * (R * W).
  Variable appJ : V -> V -> V -> U -> outcome unit * (V * U).
  Variable krylov : R -> V -> L -> ktree V L.
  Variable DF : V -> J.
  Variable ap : J -> V -> V.
  Hypothesis Hres : same_residual rj res DF.
  Hypothesis Happ : jacobian_action no appJ DF ap.
  Hypothesis Hkr : same_corrections o no xt krylov ap.
  Notation G := (mfstate S V R L W U).
  Notation reg' := (reg S V R J H L).
  Notation njac := (no_jac res).

  Definition simc {A} (c : cmd G A) (e : cmd (reg' * W) A) : Prop :=
    forall s w aux u, exists aux' u',
      c (mk_mf (forget s) aux w u) =
      (fst (e (s, w)), mk_mf (forget (fst (snd (e (s, w))))) aux' (snd (snd (e (s, w)))) u').
  Definition simp {A} (p : prog V R unit (reg S V R unit unit L) A) (e : cmd (reg' * W) A) : Prop :=
    forall s w, exec njac p (forget s, w) = (fst (e (s, w)), (forget (fst (snd (e (s, w)))), snd (snd (e (s, w))))).
  Lemma simp_simc : forall A p (e : cmd _ A), simp p e -> simc (on_reg res p) e.
  Proof.
    intros A p e Hp s w aux u. exists aux, u. unfold on_reg. cbn [mf_reg mf_w mf_aux mf_u]. rewrite (Hp s w). reflexivity.
  Qed.
  Lemma simc_ext : forall A (c : cmd G A) e e', (forall g, e g = e' g) -> simc c e -> simc c e'.
  Proof. intros A c e e' Heq Hc s w aux u. rewrite <- Heq. apply Hc. Qed.
  Lemma simp_ext : forall A p (e e' : cmd _ A), (forall g, e g = e' g) -> simp p e -> simp p e'.
  Proof. intros A p e e' Heq Hc s w. rewrite <- Heq. apply Hc. Qed.
  Lemma simc_bind : forall A B (c : cmd G A) (k : A -> cmd G B) e f,
    simc c e -> (forall a, simc (k a) (f a)) -> simc (bind c k) (bind e f).
  Proof.
    intros A B c k e f Hc Hk s w aux u. destruct (Hc s w aux u) as [aux' [u' E]]. unfold bind. rewrite E.
    destruct (e (s, w)) as [[a|x|b|] [s1 w1]]; cbn [fst snd]; try (exists aux', u'; reflexivity). apply Hk.
  Qed.
  Lemma simp_bind : forall A B (c : prog V R unit _ A) (k : A -> prog V R unit _ B) e f,
    simp c e -> (forall a, simp (k a) (f a)) -> simp (pbind c k) (bind e f).
  Proof.
    intros A B c k e f Hc Hk s w. rewrite exec_bind. unfold bind. rewrite (Hc s w).
    destruct (e (s, w)) as [[a|x|b|] [s1 w1]]; cbn [fst snd]; try reflexivity. apply Hk.
  Qed.
  Lemma simp_catch : forall A (c : prog V R unit _ A) hd h e f,
    simp c e -> (forall a, simp (h a) (f a)) -> simp (pcatch c hd h) (catch e hd f).
  Proof.
    intros A c hd h e f Hc Hk s w. rewrite exec_catch. unfold catch. rewrite (Hc s w).
    destruct (e (s, w)) as [[a|x|b|] [s1 w1]]; cbn [fst snd]; try reflexivity. destruct (hd x); [apply Hk|reflexivity].
  Qed.
  Lemma simp_lift : forall A (c : cmd _ A) (c' : cmd reg' A),
    (forall s, c (forget s) = (fst (c' s), forget (snd (c' s)))) -> simp (plift c) (exec rj (plift c')).
  Proof.
    intros A c c' Hc s w. unfold exec, plift. cbn [prun fst snd]. rewrite Hc. destruct (c' s) as [a s1]. reflexivity.
  Qed.
  Ltac seq := eapply simp_ext; [intros g; symmetry; apply exec_bind|]; apply simp_bind.

  Lemma sim_residual : simp (fun s => compute_residual (g_x s) s) (exec rj compute_residual_and_jacobian).
  Proof.
    intros s w. unfold exec, compute_residual, compute_residual_and_jacobian. cbn [prun fst snd forget g_x g_r].
    unfold no_jac. destruct (Hres (g_x s) (g_r s) (g_j s) w) as [e [r' [j' [w' [E1 [E2 _]]]]]].
    rewrite E1, E2. cbn [prun fst snd]. reflexivity.
  Qed.
  (** after a residual evaluation the stored Jacobian is the one at the state *)
  Lemma jac_stored : forall (s : reg') w (s1 : reg') w1, exec rj compute_residual_and_jacobian (s, w) = (Ok tt, (s1, w1)) ->
    g_j s1 = DF (g_x s1).
  Proof.
    intros s w s1 w1 E. unfold exec, compute_residual_and_jacobian in E. cbn [prun fst snd] in E.
    destruct (Hres (g_x s) (g_r s) (g_j s) w) as [e [r' [j' [w' [E1 [E2 E3]]]]]]. rewrite E2 in E. cbn [prun] in E.
    injection E as -> <- <-. rewrite (E3 eq_refl). reflexivity.
  Qed.
  Lemma sim_krylov : forall (t : ktree V L) (s : reg') (w : W) aux u, g_j s = DF (g_x s) -> exists aux' u',
    run_krylov o nm appJ t (mk_mf (forget s) aux w u) =
    (let '(e, (c, l)) := kpure o no (ap (g_j s)) t in (e, mk_mf (forget (set_c c l s)) aux' w u')).
  Proof.
    intros t s w aux u Hj. revert aux u. induction t as [e c l|x out k IH]; intros aux u.
    - exists aux, u. reflexivity.
    - cbn [run_krylov kpure]. unfold bind, apply_and_add. cbn [mf_reg mf_w mf_aux mf_u].
      change (g_x (forget s)) with (g_x s). destruct (Happ (g_x s) x u) as [u' E].
      change (n_vo nm) with (n_vo no). rewrite E. cbn [fst snd]. rewrite <- Hj.
      destruct (IH (upd1 (n_vo no) out (s1 o) (ap (g_j s) x) (s1 o)) (ap (g_j s) x) u') as [aux' [u'' E']].
      exists aux', u''. exact E'.
  Qed.
  Lemma sim_diag : forall b1 b2 (s : reg'), map (norm_diagnostic o nm b1 b2 (forget s)) (dc_data (g_diags s)) =
    map (norm_diagnostic o no b1 b2 s) (dc_data (g_diags s)).
  Proof. intros b1 b2 s. apply map_ext. intros d. reflexivity. Qed.

  (** everything after the linear solve *)
  Lemma sim_rest : forall cf k,
    simp (pbind (negate_c o nm) (fun _ =>
          pbind (norm_diagnostics o nm false (k =? 1)) (fun _ =>
          pbind (log_iteration k) (fun _ =>
          pbind (root_must_stop o cf k) (fun b =>
          if b : bool then pret true else
          pcatch (pbind (plift (fun s => match dc_iat (g_diags s) IResidual with
                                     | Ok d => (Ok (d_abs d), s)
                                     | Throw e => (Throw e, s) | Undef u => (Undef u, s) | NoFuel => (NoFuel, s)
                                     end)) (fun f0 =>
              pbind (default_updater o nm (root_objective nm) f0) (fun _ => pret false)))
             is_linesearch_failure (fun e => pbind (write_report (RError e)) (fun _ => pret true)))))))
      (exec rj (pbind (negate_c o no) (fun _ =>
          pbind (norm_diagnostics o no false (k =? 1)) (fun _ =>
          pbind (log_iteration k) (fun _ =>
          pbind (root_must_stop o cf k) (fun b =>
          if b : bool then pret true else
          pcatch (pbind (plift (fun s => match dc_iat (g_diags s) IResidual with
                                     | Ok d => (Ok (d_abs d), s)
                                     | Throw e => (Throw e, s) | Undef u => (Undef u, s) | NoFuel => (NoFuel, s)
                                     end)) (fun f0 =>
              pbind (default_updater o no (root_objective no) f0) (fun _ => pret false)))
             is_linesearch_failure (fun e => pbind (write_report (RError e)) (fun _ => pret true)))))))).
  Proof.
    intros cf k.
    seq; [apply simp_lift; reflexivity|intros _].
    seq; [apply simp_lift; intros s; unfold fst, snd; rewrite <- sim_diag; reflexivity|intros _].
    seq; [apply simp_lift; intros s; cbn [forget g_diags]; destruct (log_line (g_diags s)); reflexivity|intros _].
    seq.
    - unfold root_must_stop. seq; [apply simp_lift; reflexivity|intros conv].
      seq; [destruct ((f_max cf <=? k) && negb conv)%bool; apply simp_lift; reflexivity|intros _].
      apply simp_lift. reflexivity.
    - intros [|]; [apply simp_lift; reflexivity|].
      eapply simp_ext; [intros g; symmetry; apply exec_catch|]. apply simp_catch.
      + seq; [apply simp_lift; intros s; cbn [forget g_diags]; destruct (dc_iat (g_diags s) IResidual); reflexivity|intros f0].
        seq; [apply simp_lift; reflexivity|intros _]. apply simp_lift. reflexivity.
      + intros e. seq; [apply simp_lift; reflexivity|intros _]. apply simp_lift. reflexivity.
  Qed.

  Definition lin_part : cmd (reg' * W) unit :=
    exec rj (plift (fun s => let '(e, (c, l)) := x_newton xt (g_j s) (g_r s) (g_c s) (g_ext s) in (e, set_c c l s))).
  Definition res_part : cmd (reg' * W) unit :=
    catch (exec rj compute_residual_and_jacobian) is_residual_failure
      (fun e => exec rj (pbind (write_report (RError e)) (fun _ => pthrow ENonlinearSolve))).
  Lemma body_parts : forall cf k g,
    exec rj (root_body o no xt cf (default_updater o no) k) g =
    bind res_part (fun _ => bind lin_part (fun _ => exec rj (pbind (negate_c o no) (fun _ =>
          pbind (norm_diagnostics o no false (k =? 1)) (fun _ =>
          pbind (log_iteration k) (fun _ =>
          pbind (root_must_stop o cf k) (fun b =>
          if b : bool then pret true else
          pcatch (pbind (plift (fun s => match dc_iat (g_diags s) IResidual with
                                     | Ok d => (Ok (d_abs d), s)
                                     | Throw e => (Throw e, s) | Undef u => (Undef u, s) | NoFuel => (NoFuel, s)
                                     end)) (fun f0 =>
              pbind (default_updater o no (root_objective no) f0) (fun _ => pret false)))
             is_linesearch_failure (fun e => pbind (write_report (RError e)) (fun _ => pret true))))))))) g.
  Proof.
    intros cf k g. unfold root_body. rewrite exec_bind. unfold bind at 1 2. rewrite exec_catch. fold res_part.
    destruct (res_part g) as [[a|x|b|] g1]; try reflexivity.
    rewrite exec_bind. unfold newton_step. unfold bind at 1. rewrite exec_bind. fold lin_part. unfold bind at 1 2.
    destruct (lin_part g1) as [[a1|x|b|] g2]; try reflexivity.
  Qed.
  Lemma sim_body : forall cf k,
    simc (mf_body o nm res appJ krylov cf k) (exec rj (root_body o no xt cf (default_updater o no) k)).
  Proof.
    intros cf k s w aux u. rewrite body_parts. unfold mf_body.
    assert (H1 : simp (pcatch (fun s => compute_residual (g_x s) s) is_residual_failure
                    (fun e => pbind (write_report (RError e)) (fun _ => pthrow ENonlinearSolve))) res_part).
    { apply simp_catch; [exact sim_residual|]. intros e. seq; [apply simp_lift; reflexivity|intros _; apply simp_lift; reflexivity]. }
    destruct (simp_simc _ _ _ H1 s w aux u) as [aux1 [u1 E1]].
    unfold bind at 1 3 5 7. rewrite E1. clear E1.
    destruct (res_part (s, w)) as [[a|x|b|] [s1 w1]] eqn:E1;
      cbn [fst snd]; try (exists aux1, u1; reflexivity).
    assert (Hj : g_j s1 = DF (g_x s1)).
    { unfold res_part, catch in E1. destruct (exec rj compute_residual_and_jacobian (s, w)) as [[[]|x|b|] [s2 w2]] eqn:E2; try discriminate.
      - injection E1 as _ <- <-. exact (jac_stored _ _ _ _ E2).
      - destruct (is_residual_failure x); [|discriminate]. rewrite exec_bind in E1. cbn in E1. discriminate. }
    unfold mf_linear_solve. unfold bind. 
    cbn [mf_reg]. change (g_r (forget s1)) with (g_r s1). change (g_c (forget s1)) with (g_c s1).
    change (g_ext (forget s1)) with (g_ext s1).
    destruct (sim_krylov (krylov (g_r s1) (g_c s1) (g_ext s1)) s1 w1 aux1 u1 Hj) as [aux2 [u2 E2]]. rewrite E2. clear E2.
    rewrite <- (Hkr (g_j s1)).
    assert (E3 : lin_part (s1, w1)
      = let '(e, (c, l)) := x_newton xt (g_j s1) (g_r s1) (g_c s1) (g_ext s1) in (e, (set_c c l s1, w1))).
    { unfold lin_part, exec, plift. cbn [prun fst snd]. destruct (x_newton xt (g_j s1) (g_r s1) (g_c s1) (g_ext s1)) as [e [c l]]. reflexivity. }
    rewrite E3. destruct (x_newton xt (g_j s1) (g_r s1) (g_c s1) (g_ext s1)) as [[[]|x|b|] [c l]];
      cbn [fst snd]; try (exists aux2, u2; reflexivity).
    exact (simp_simc _ _ _ (sim_rest cf k) (set_c c l s1) w1 aux2 u2).
  Qed.

  Lemma sim_loop : forall cf fuel k,
    simc (mf_loop o nm res appJ krylov cf fuel k)
         (exec rj (iterate (root_body o no xt cf (default_updater o no)) (f_max cf) fuel k)).
  Proof.
    intros cf fuel. induction fuel as [|n IH]; intros k; cbn [mf_loop iterate].
    - intros s w aux u. exists aux, u. reflexivity.
    - destruct (k =? int32_max); [intros s w aux u; exists aux, u; reflexivity|].
      destruct (k + 1 <=? f_max cf); [|intros s w aux u; exists aux, u; reflexivity].
      eapply simc_ext; [intros g; symmetry; apply exec_bind|]. apply simc_bind; [apply sim_body|].
      intros [|]; [intros s w aux u; exists aux, u; reflexivity|apply IH].
  Qed.

  Theorem matrix_free_refines : forall new_l new_aux cf s w aux u, f_update cf = UStandard ->
    exists aux' u',
    let z := exec rj (root_solve o no xt cf) (set_ext new_l s, w) in
    mf_solve o nm res appJ krylov new_l new_aux cf (mk_mf (forget s) aux w u) =
      (fst z, mk_mf (forget (fst (snd z))) aux' (snd (snd z)) u').
  Proof.
    intros new_l new_aux cf s w aux u Hup. unfold mf_solve, root_solve. rewrite Hup. cbn [mf_reg mf_w mf_u].
    exact (sim_loop cf (loop_fuel (f_max cf)) 0 (set_ext new_l s) w new_aux u).
  Qed.
End Refine.

(** The update setting is not looked at. *)
Lemma update_ignored : forall S V R L W U o no res appJ krylov (new_l : L) new_aux mx st tol u1 u2 p1 p2 (g : mfstate S V R L W U),
  mf_solve o no res appJ krylov new_l new_aux (mk_config mx st tol u1 p1) g =
  mf_solve o no res appJ krylov new_l new_aux (mk_config mx st tol u2 p2) g.
Proof.
  intros. unfold mf_solve. cbn [f_max]. generalize (loop_fuel mx) as fuel. generalize 0 as k. generalize (mk_mf (set_ext new_l (mf_reg g)) new_aux (mf_w g) (mf_u g)) as g0.
  intros g0 k fuel. revert k g0. induction fuel as [|n IH]; intros k g0; [reflexivity|]. cbn [mf_loop f_max].
  destruct (k =? int32_max); [reflexivity|]. destruct (k + 1 <=? mx); [|reflexivity].
  unfold bind. change (mf_body o no res appJ krylov (mk_config mx st tol u1 p1) (k + 1)) with (mf_body o no res appJ krylov (mk_config mx st tol u2 p2) (k + 1)).
  destruct (mf_body o no res appJ krylov (mk_config mx st tol u2 p2) (k + 1) g0) as [[[|]|e|b|] g1]; try reflexivity. apply IH.
Qed.

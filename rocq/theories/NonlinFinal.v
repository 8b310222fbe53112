(** Consequences of the lemmas on the nonlinear solvers, in the form of the property
    theorems. *)
From Coq Require Import ZArith List Bool Lia Reals Lra QArith Qcanon.
From Verif Require Import Base QcInst RInst LawInst ExplicitModel ExplicitExtra NonlinDiag NonlinModel NonlinDiagProofs NonlinSpec
  NonlinClaims NonlinRuns NonlinSeq NonlinFollow NonlinLaws NonlinReal NonlinWitness.
Import ListNotations.
Local Open Scope Z_scope.

Section Real.
  Variable eps : R.
  Context {V Rs J H L W : Type}.
  Notation o := (Rops eps).
  Variable no : nlops R V Rs J H.
  Variable xt : exts V Rs J H L.
  Variable rj : V -> Rs -> option J -> W -> outcome unit * (Rs * option J * W).
  Variable F : V -> Rs.
  Variable DF : V -> J.
  Hypothesis Hc : computes rj F DF.
  Variable wr : Rs -> Rs.
  Variable wj : J -> J.
  Hypothesis Hw : weights_ok xt wr wj nothing.
  Lemma descends_le : forall (f : Rs -> R) xs, descends o F f 1%R xs ->
    consecutive (fun y z => (f (F z) <= f (F y))%R) xs.
  Proof.
    intros f xs Hd n y z Hy Hz. pose proof (Hd n y z Hy Hz) as K. cbn in K. unfold Rleb in K.
    destruct (Rle_dec _ _) as [h|h] in K; [|discriminate]. lra.
  Qed.
  Lemma descends_lt : forall (f : Rs -> R) zeta xs, (zeta < 1)%R -> descends o F f zeta xs ->
    consecutive (fun y z => (0 < f (F y) -> f (F z) < f (F y))%R) xs.
  Proof. intros f zeta xs Hz Hd n y z Hy Hz' Hp. exact (descends_strict _ _ _ _ _ Hz Hd n y z Hy Hz' Hp). Qed.
  Lemma ls_monotone : forall tag cf (s : reg R V Rs J H L) w r s' w',
    ls_object o s -> f_update cf = UBacktrack -> f_params cf = None ->
    exec rj (ls_solve o no xt tag cf) (s, w) = (r, (s', w')) ->
    exists ls xs, g_log s' = g_log s ++ ls /\ visited xs ls (g_x s) (g_x s') /\
      consecutive (fun y z => (ls_objective o no wr tag (F z) <= ls_objective o no wr tag (F y))%R) xs.
  Proof.
    intros tag cf s w r s' w' Ho Hu Hp E.
    assert (Hp' : f_params cf <> Some []) by congruence.
    destruct (ls_descends o no xt rj F DF Hc wr wj Hw (ten_ends _ _ (ten_R eps)) tag cf s w r s' w' Ho (or_introl Hu) Hp' E)
      as [ls [xs [H1 [H2 H3]]]].
    exists ls, xs. split; [exact H1|]. split; [exact H2|]. apply descends_le.
    unfold reduction_factor in H3. rewrite Hp in H3. exact H3.
  Qed.
  Lemma root_monotone : forall cf (s : reg R V Rs J H L) w r s' w',
    root_object o s -> root_supported cf -> f_update cf = UBacktrack -> f_params cf = None ->
    exec rj (root_solve o no xt cf) (s, w) = (r, (s', w')) ->
    exists ls xs, g_log s' = g_log s ++ ls /\ visited xs ls (g_x s) (g_x s') /\
      consecutive (fun y z => (n_rnorm no (F z) <= n_rnorm no (F y))%R) xs.
  Proof.
    intros cf s w r s' w' Ho Hs Hu Hp E.
    destruct (root_descends o no xt rj F DF Hc (ten_ends _ _ (ten_R eps)) cf s w r s' w' Ho Hs Hu E)
      as [ls [xs [H1 [H2 H3]]]].
    exists ls, xs. split; [exact H1|]. split; [exact H2|]. apply descends_le.
    unfold reduction_factor in H3. rewrite Hp in H3. exact H3.
  Qed.
  Lemma ls_strict : forall tag cf (s : reg R V Rs J H L) w r s' w' zeta ps,
    ls_object o s -> f_update cf = UBacktrack -> f_params cf = Some (zeta :: ps) -> (zeta < 1)%R ->
    exec rj (ls_solve o no xt tag cf) (s, w) = (r, (s', w')) ->
    exists ls xs, g_log s' = g_log s ++ ls /\ visited xs ls (g_x s) (g_x s') /\
      consecutive (fun y z => let f x := ls_objective o no wr tag (F x) in (0 < f y -> f z < f y)%R) xs.
  Proof.
    intros tag cf s w r s' w' zeta ps Ho Hu Hp Hz E.
    assert (Hp' : f_params cf <> Some []) by congruence.
    destruct (ls_descends o no xt rj F DF Hc wr wj Hw (ten_ends _ _ (ten_R eps)) tag cf s w r s' w' Ho (or_introl Hu) Hp' E)
      as [ls [xs [H1 [H2 H3]]]].
    exists ls, xs. split; [exact H1|]. split; [exact H2|]. cbv zeta. refine (descends_lt _ zeta xs Hz _).
    unfold reduction_factor in H3. rewrite Hp in H3. exact H3.
  Qed.
  Lemma root_strict : forall cf (s : reg R V Rs J H L) w r s' w' zeta ps,
    root_object o s -> root_supported cf -> f_update cf = UBacktrack -> f_params cf = Some (zeta :: ps) -> (zeta < 1)%R ->
    exec rj (root_solve o no xt cf) (s, w) = (r, (s', w')) ->
    exists ls xs, g_log s' = g_log s ++ ls /\ visited xs ls (g_x s) (g_x s') /\
      consecutive (fun y z => let f x := n_rnorm no (F x) in (0 < f y -> f z < f y)%R) xs.
  Proof.
    intros cf s w r s' w' zeta ps Ho Hs Hu Hp Hz E.
    destruct (root_descends o no xt rj F DF Hc (ten_ends _ _ (ten_R eps)) cf s w r s' w' Ho Hs Hu E)
      as [ls [xs [H1 [H2 H3]]]].
    exists ls, xs. split; [exact H1|]. split; [exact H2|]. cbv zeta. refine (descends_lt _ zeta xs Hz _).
    unfold reduction_factor in H3. rewrite Hp in H3. exact H3.
  Qed.
End Real.

(** ** Number of calls of the user's system *)
Section Calls.
  Context {S V R J H L W : Type}.
  Variable o : sops S.
  Variable no : nlops S V R J H.
  Variable xt : exts V R J H L.
  Variable rj : V -> R -> option J -> W -> outcome unit * (R * option J * W).
  Hypothesis Hten : ten_halvings o.
  Lemma bt_calls : forall tag ps f0 (s : reg S V R J H L) w r s' w' k,
    exec (counting rj) (backtrack_updater o no ps (objective o no xt tag) f0) (s, (w, O)) = (r, (s', (w', k))) -> (k <= 10)%nat.
  Proof.
    intros tag ps f0 s w r s' w' k E. refine (count_exec _ _ _ _ _ _ _ _ _ _ _ _ E).
    apply pc_bt_up; [exact Hten|]. apply pc_objective.
  Qed.
  Lemma bt_root_calls : forall ps f0 (s : reg S V R J H L) w r s' w' k,
    exec (counting rj) (backtrack_updater o no ps (root_objective no) f0) (s, (w, O)) = (r, (s', (w', k))) -> (k <= 10)%nat.
  Proof.
    intros ps f0 s w r s' w' k E. refine (count_exec _ _ _ _ _ _ _ _ _ _ _ _ E).
    apply pc_bt_up; [exact Hten|]. apply pc_root_objective.
  Qed.
  Lemma ls_calls : forall tag cf (s : reg S V R J H L) w r s' w' k,
    exec (counting rj) (ls_solve o no xt tag cf) (s, (w, O)) = (r, (s', (w', k))) ->
    (k <= evaluations (f_update cf) * Z.to_nat (f_max cf))%nat.
  Proof. intros tag cf s w r s' w' k E. exact (count_exec _ _ _ _ _ _ _ _ _ _ _ (pc_ls_solve o no xt Hten _ _) E). Qed.
  Lemma root_calls : forall cf (s : reg S V R J H L) w r s' w' k,
    exec (counting rj) (root_solve o no xt cf) (s, (w, O)) = (r, (s', (w', k))) ->
    (k <= evaluations (f_update cf) * Z.to_nat (f_max cf))%nat.
  Proof. intros cf s w r s' w' k E. exact (count_exec _ _ _ _ _ _ _ _ _ _ _ (pc_root_solve o no xt Hten _) E). Qed.
End Calls.

(** ** C49: an unconverged least-squares solve leaves no file *)
Definition no_report (r : outcome unit * (reg Qc Qc Qc Qc Qc Qc * unit)) : Prop :=
  fst r = Ok tt /\ this (g_x (fst (snd r))) = this (q (-1)) /\ g_file (fst (snd r)) = None /\
  forallb (fun l => match value_of CorrectionAbs l with Some v => negb (sltb QcS v (q 0)) | None => false end) (g_log (fst (snd r))) = true.
Lemma c49_run : no_report (exec (sys1 Fq DFq) (ls_solve QcS (n1 QcS) (x1 QcS) GaussNewton (cfq UStandard 1)) (reg1 QcS ls_diags (q 0), tt)).
Proof. vm_compute. repeat split. Qed.
Lemma no_report_inv : forall r, no_report r -> exists s' w', r = (Ok tt, (s', w')) /\ g_x s' = q (-1) /\
  g_file s' = None /\ forall l, In l (g_log s') -> ~ line_met QcS (cfq UStandard 1) l.
Proof.
  intros [e [s' w']] [H1 [H2 [H3 H4]]]. cbn [fst snd] in *. exists s', w'. split; [rewrite H1; reflexivity|].
  split; [apply Qc_is_canon; rewrite H2; reflexivity|]. split; [exact H3|].
  intros l Hl [v [Hv Hb]]. rewrite forallb_forall in H4. specialize (H4 l Hl).
  change (f_tol (cfq UStandard 1)) with (q 0) in Hb. rewrite Hv, Hb in H4. discriminate.
Qed.
Lemma c49_witness : exists s' w',
  exec (sys1 Fq DFq) (ls_solve QcS (n1 QcS) (x1 QcS) GaussNewton (cfq UStandard 1)) (reg1 QcS ls_diags (q 0), tt) = (Ok tt, (s', w')) /\
  g_x s' = q (-1) /\ g_file s' = None /\ forall l, In l (g_log s') -> ~ line_met QcS (cfq UStandard 1) l.
Proof. exact (no_report_inv _ c49_run). Qed.

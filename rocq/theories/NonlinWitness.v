(** One-dimensional problems that refute properties of the nonlinear solvers. *)
From Coq Require Import ZArith List Bool Lia QArith Qcanon Floats.SpecFloat.
From Verif Require Import Base QcInst FloatInst LawInst ExplicitExtra ImplicitModel NonlinDiag NonlinModel NonlinWp NonlinDiagProofs NonlinSpec
  NonlinProofs NonlinSolve NonlinClaims NonlinRuns NonlinSeq NonlinFollow NonlinReal.
Import ListNotations.
Local Open Scope Z_scope.

(** ** Scalars as vectors and matrices; division as linear solver *)
Section OneD.
  Context {S : Type} (o : sops S).
  Definition n1 : nlops S S S S S :=
    mk_nlops (self_v o) (sabs o) (smul o) (sabs o) (smul o) (smul o) (smul o)
             (fun h mu => sadd o h (smul o mu h)) (fun h c => smul o c h).
  (** computeThin stores the matrix *)
  Definition x1 : exts S S S S S :=
    mk_exts (fun j r c l => (Ok tt, (sdiv o r j, l))) (fun h g c l => (Ok tt, (sdiv o g h, l)))
            (fun j l => (Ok tt, j)) (fun r v l => (Ok tt, (r, l))) (fun q c l => (Ok tt, (sdiv o q l, l)))
            (fun r v l => (Ok tt, (r, l))) (fun j v l => (Ok tt, (j, l))).
  Definition sys1 (F DF : S -> S) : S -> S -> option S -> unit -> outcome unit * (S * option S * unit) :=
    fun y r j w => (Ok tt, (F y, match j with Some _ => Some (DF y) | None => None end, w)).
  (** new solver objects, with state [x] *)
  Definition reg1 (diags : list diag) (x : S) : reg S S S S S S :=
    set_x x (new_reg o (s0 o) (s0 o) (s0 o) (s0 o) (s0 o) diags).
  Lemma sys1_computes : forall F DF, computes (sys1 F DF) F DF.
  Proof. intros F DF y r j w. eexists. exists w. split; [reflexivity|]. destruct j; reflexivity. Qed.
  Lemma x1_weights : forall f, weights_ok x1 (fun r => r) (fun j => j) f.
  Proof. intros f. split; cbn; congruence. Qed.
  Lemma x1_linear : linear_computes (fun h g => sdiv o g h) (fun j r => sdiv o r j) (fun j r => sdiv o r j) x1.
  Proof. split; cbn; congruence. Qed.
  Lemma reg1_ls : forall x, ls_object o (reg1 ls_diags x).
  Proof. intros x. repeat split. Qed.
  Lemma reg1_root : forall x, root_object o (reg1 root_diags x).
  Proof. intros x. repeat split. Qed.
End OneD.

(** ** C25, C26: F(x) = x^2 + x + 1 from x = 0 *)
Definition Fq (x : Qc) : Qc := (x * x + x + q 1)%Qc.
Definition DFq (x : Qc) : Qc := (q 2 * x + q 1)%Qc.
Definition cfq (u : update) (n : Z) : config Qc := mk_config n WhenAbsCorrection (q 0) u None.
Notation run_q u := (exec (sys1 Fq DFq) (ls_solve QcS (n1 QcS) (x1 QcS) GaussNewton (cfq u 2)) (reg1 QcS ls_diags (q 0), tt)) (only parsing).
Definition shown (r : outcome unit * (reg Qc Qc Qc Qc Qc Qc * unit)) :=
  (fst r, g_x (fst (snd r)), map l_state (g_log (fst (snd r)))).
Definition shownb (r : outcome unit * (reg Qc Qc Qc Qc Qc Qc * unit)) :=
  (fst r, this (g_x (fst (snd r))), map (fun l => this (l_state l)) (g_log (fst (snd r)))).
Lemma qcs_this : forall a b : list Qc, map this a = map this b -> a = b.
Proof.
  induction a as [|x a IH]; intros [|y b] H; try discriminate; [reflexivity|]. cbn in H.
  f_equal; [apply Qc_is_canon; rewrite (f_equal (hd 0%Q) H : this x = this y); reflexivity|apply IH; exact (f_equal (@tl _) H)].
Qed.
Lemma shown_eq : forall r e x l, shownb r = (e, this x, map this l) -> shown r = (e, x, l).
Proof.
  intros r e x l H. unfold shown, shownb in *.
  pose proof (f_equal (fun z => fst (fst z)) H) as H1. pose proof (f_equal (fun z => snd (fst z)) H) as H2.
  pose proof (f_equal snd H) as H3. cbn [fst snd] in H1, H2, H3. f_equal; [f_equal|].
  - exact H1.
  - apply Qc_is_canon. rewrite H2. reflexivity.
  - apply qcs_this. rewrite map_map. exact H3.
Qed.
Lemma shown_inv : forall r e x l, shown r = (e, x, l) ->
  exists s' w', r = (e, (s', w')) /\ map l_state (g_log s') = l /\ g_x s' = x.
Proof.
  intros [r [s' w']] e x l H. unfold shown in H. cbn [fst snd] in H. exists s', w'.
  pose proof (f_equal (fun z => fst (fst z)) H) as H1. pose proof (f_equal (fun z => snd (fst z)) H) as H2.
  pose proof (f_equal snd H) as H3. cbn [fst snd] in H1, H2, H3. subst. auto.
Qed.
Lemma run_q_backtrack : shown (run_q UBacktrack) = (Ok tt, q 0, [q 0; q (-1)]).
Proof. apply shown_eq. vm_compute. reflexivity. Qed.
Lemma run_q_armijo : shown (run_q UArmijo) = (Ok tt, q 0, [q 0; q (-1)]).
Proof. apply shown_eq. vm_compute. reflexivity. Qed.
Lemma Fq_values : Fq (q 0) = q 1 /\ Fq (q (-1)) = q 1.
Proof. split; apply Qc_is_canon; vm_compute; reflexivity. Qed.

(** f at -1 is f at 0, while the slope there is 1 *)
Definition objq (x : Qc) : Qc := ls_objective QcS (n1 QcS) (fun r => r) GaussNewton (Fq x).
Lemma objq_same : objq (q (-1)) = objq (q 0).
Proof. apply Qc_is_canon; vm_compute; reflexivity. Qed.
Lemma armijo_fails :
  sleb QcS (ssub QcS (objq (q (-1))) (objq (q 0)))
           (smul QcS (sdiv QcS (s1 QcS) (sZ QcS 10000)) (smul QcS (DFq (q 0) * Fq (q 0))%Qc (q (-1) - q 0)%Qc)) = false.
Proof. vm_compute. reflexivity. Qed.
Lemma c25_witness : exists s' w',
  exec (sys1 Fq DFq) (ls_solve QcS (n1 QcS) (x1 QcS) GaussNewton (cfq UBacktrack 2)) (reg1 QcS ls_diags (q 0), tt) = (Ok tt, (s', w')) /\
  map l_state (g_log s') = [q 0; q (-1)] /\ g_x s' = q 0 /\ objq (q (-1)) = objq (q 0).
Proof.
  destruct (shown_inv _ _ _ _ run_q_backtrack) as [s' [w' [H1 [H2 H3]]]]. exists s', w'.
  split; [exact H1|]. split; [exact H2|]. split; [exact H3|exact objq_same].
Qed.
Lemma c26_witness : exists s' w',
  exec (sys1 Fq DFq) (ls_solve QcS (n1 QcS) (x1 QcS) GaussNewton (cfq UArmijo 2)) (reg1 QcS ls_diags (q 0), tt) = (Ok tt, (s', w')) /\
  map l_state (g_log s') = [q 0; q (-1)] /\ g_x s' = q 0 /\
  sleb QcS (ssub QcS (objq (q (-1))) (objq (q 0)))
           (smul QcS (sdiv QcS (s1 QcS) (sZ QcS 10000)) (smul QcS (DFq (q 0) * Fq (q 0))%Qc (q (-1) - q 0)%Qc)) = false.
Proof.
  destruct (shown_inv _ _ _ _ run_q_armijo) as [s' [w' [H1 [H2 H3]]]]. exists s', w'.
  split; [exact H1|]. split; [exact H2|]. split; [exact H3|exact armijo_fails].
Qed.
Lemma armijo_root_throws : forall S V R J H L W (o : sops S) (no : nlops S V R J H) (xt : exts V R J H L)
  (rj : V -> R -> option J -> W -> outcome unit * (R * option J * W)) cf s w,
  f_update cf = UArmijo -> exec rj (root_solve o no xt cf) (s, w) = (Throw ERuntime, (s, w)).
Proof. intros. unfold root_solve. rewrite H0. reflexivity. Qed.

(** ** C29: F(x) = x at x = 1 with damping 1 *)
Definition lm_start : reg Qc Qc Qc Qc Qc Qc := set_damp (q 1) (reg1 QcS ls_diags (q 1)).
Notation run_gain := (exec (sys1 (fun x => x) (fun _ => q 1)) (lm_gain_iteration QcS (n1 QcS) (x1 QcS)) (lm_start, tt)) (only parsing).
Definition half_sq (x : Qc) : Qc := (x * x * (q 1 / q 2))%Qc.
Definition gain_is (r : outcome Qc * (reg Qc Qc Qc Qc Qc Qc * unit)) (v c : Qc) : Prop :=
  match r with (Ok a, (s', _)) => (this a, this (g_c s')) = (this v, this c) | _ => False end.
Lemma run_gain_value : gain_is run_gain (q 3) (- (q 1 / q 2))%Qc.
Proof. vm_compute. reflexivity. Qed.
Lemma gain_inv : forall (r : outcome Qc * (reg Qc Qc Qc Qc Qc Qc * unit)) v c,
  gain_is r v c -> exists s' w', r = (Ok v, (s', w')) /\ g_c s' = c.
Proof.
  intros [[a|e|u|] [s' w']] v c H; try contradiction. exists s', w'.
  pose proof (f_equal fst H) as H1. pose proof (f_equal snd H) as H2. cbn [fst snd] in H1, H2.
  split; [repeat f_equal|]; apply Qc_is_canon; [rewrite H1|rewrite H2]; reflexivity.
Qed.
Lemma c29_witness : exists s' w',
  exec (sys1 (fun x => x) (fun _ => q 1)) (lm_gain_iteration QcS (n1 QcS) (x1 QcS)) (lm_start, tt) = (Ok (q 3), (s', w')) /\
  g_c s' = (- (q 1 / q 2))%Qc /\
  ((half_sq (q 1 + g_c s') - half_sq (q 1)) / (half_sq (q 1 * g_c s' + q 1) - half_sq (q 1)))%Qc = q 1.
Proof.
  destruct (gain_inv _ _ _ run_gain_value) as [s' [w' [H1 H2]]]. exists s', w'.
  split; [exact H1|]. split; [exact H2|]. rewrite H2. apply Qc_is_canon. vm_compute. reflexivity.
Qed.

(** ** Absolute tolerance 0 is never met: with maxIterations = INT_MAX the counter
    overflows. *)
Lemma halving_Qc : halving_ends QcS.
Proof. exists 10%nat. split; [lia|vm_compute; reflexivity]. Qed.
Lemma Qcabs_not_neg : forall x, sltb QcS (sabs QcS x) (q 0) = false.
Proof.
  intros x. cbn [sltb sabs QcS]. unfold Qcltb. apply negb_false_iff. apply Qle_bool_iff. cbn.
  apply Qle_trans with (Qabs.Qabs x); [apply Qabs.Qabs_nonneg|]. rewrite ?Qred_correct. apply Qle_refl.
Qed.
Lemma int_max_overflows_cf : forall cf F DF x,
  f_update cf = UStandard -> f_stop cf = WhenAbsCorrection -> f_tol cf = q 0 -> f_max cf = int32_max ->
  exists s' w', exec (sys1 F DF) (root_solve QcS (n1 QcS) (x1 QcS) cf) (reg1 QcS root_diags x, tt)
    = (Undef UIntOverflow, (s', w')).
Proof.
  intros cf F DF x Hu Hp Ht Hm0.
  assert (Hsup : root_supported cf) by (unfold root_supported; rewrite Hu, Hp; split; exact I).
  destruct (exec (sys1 F DF) (root_solve QcS (n1 QcS) (x1 QcS) cf) (reg1 QcS root_diags x, tt)) as [r [s' w']] eqn:E.
  pose proof (tri_exec _ _ _ _ _ _ _ _ _ _ _ _ _ _
    (root_solve_ok _ _ _ _ _ _ _ _ _ _ _ (computes_ok _ _ _ (sys1_computes F DF)) (x1_linear QcS)
       halving_Qc none_linesearch _ _ tt (reg1_root QcS x) Hsup) E) as K. cbv beta in K.
  destruct K as [_ [ls [_ K]]]. exists s', w'.
  destruct K as [is i p Hn Hs Ha Hv Hm|is i p e Hn Hs Ha Hv Hm Hst|is p Hn Hl Hs|is p Hn Hl Hs
    |is p e Hn Hs He []|is p e Hn Hs He []|is p e Hn Hs He []|is i p e Hn Hs Ha Hv Hm He Htr].
  - exfalso. unfold met in Hm. rewrite Hp, Ht in Hm. cbn [reading m_corr root_meas n_norm n1] in Hm.
    rewrite Qcabs_not_neg in Hm. discriminate.
  - exfalso. unfold line_search_stuck in Hst. rewrite Hu in Hst. exact Hst.
  - exfalso. rewrite Hm0 in Hl. exact (Z.lt_irrefl _ Hl).
  - reflexivity.
  - exfalso. unfold trial_failures in Htr. rewrite Hu in Htr. exact Htr.
Qed.

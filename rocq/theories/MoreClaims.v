(** Corollaries that fix settings: the default configuration, the public functions, sizes. *)
From Coq Require Import Reals ZArith List Bool Lia Lra.
From Verif Require Import Base RInst AdvanceModel AdvanceSpec TargetProofs NonlinDiag NonlinModel NonlinSpec NonlinClaims NonlinReal
  LspgModel ProblemObjects ProblemObjectsSpec ProblemObjectsProofs MoreSpec.
Import ListNotations.
Local Open Scope R_scope.

(** ** Default settings of the nonlinear solvers *)
Section Default.
  Variable eps : R.
  Context {V Rs J H L W : Type}.
  Notation o := (Rops eps).
  Variables (no : nlops R V Rs J H) (xt : exts V Rs J H L)
    (rj : V -> Rs -> option J -> W -> outcome unit * (Rs * option J * W)).
  Lemma default_met : forall l : line R V, line_met o (default_config o) l <-> exists v, value_of CorrectionAbs l = Some v /\ v < 0.000001.
  Proof.
    intros l. unfold line_met. cbn [default_config f_stop named f_tol].
    replace (sdiv o (s1 o) (sZ o 1000000)) with 0.000001 by (rewrite sZ_R; change (0.000001 = 1 / 1000000); lra).
    split; intros (v & E & K); exists v; (split; [exact E|]); apply Rltb_true in K || apply Rltb_true; exact K.
  Qed.
  Lemma default_ok : forall gu (x0 : V) x ls, well_run o (default_config o) gu x0 (Ok tt) x ls -> (forall v, ~ gu v) -> default_rule x ls.
  Proof.
    intros gu x0 x ls K Hg. destruct K as [K1 K2 K3 K4 K5 K6]. cbn [default_config f_max] in K2, K6. rewrite Z.max_r in K2, K6 by lia. split; [lia|]. split.
    - intros a l b E Hb B. apply default_met in B. exact (K5 a l b E Hb B).
    - destruct (K6 eq_refl) as [(a & l & E & Ex & [M|[_ M]])|[N M]].
      + left. exists a, l. split; [exact E|]. split; [exact Ex|]. apply default_met. exact M.
      + destruct (Hg _ M).
      + right. split; [lia|]. intros l Hl B. apply (M l Hl). apply default_met. exact B.
  Qed.
  Lemma default_least_squares : forall wr wj tag (s : reg R V Rs J H L) w s' w',
    ls_object o s -> plain_system rj -> weights_ok xt wr wj no_linesearch ->
    exec rj (ls_solve o no xt tag (default_config o)) (s, w) = (Ok tt, (s', w')) ->
    exists ls, g_log s' = g_log s ++ ls /\ default_rule (g_x s') ls.
  Proof.
    intros wr wj tag s w s' w' Ho Hp Hw E.
    destruct (ls_well_run o no xt rj wr wj tag (default_config o) s w (Ok tt) s' w' Ho I (ten_ends _ _ (ten_R eps)) Hp Hw E) as [_ (ls & K1 & K2)].
    exists ls. split; [exact K1|]. apply (default_ok _ _ _ _ K2). intros v (i & _ & F). exact F.
  Qed.
  Lemma default_newton : forall (s : reg R V Rs J H L) w s' w',
    root_object o s -> plain_system rj ->
    exec rj (root_solve o no xt (default_config o)) (s, w) = (Ok tt, (s', w')) ->
    exists ls, g_log s' = g_log s ++ ls /\ default_rule (g_x s') ls.
  Proof.
    intros s w s' w' Ho Hp E.
    destruct (root_well_run o no xt rj (default_config o) s w (Ok tt) s' w' Ho (conj I I) (ten_ends _ _ (ten_R eps)) Hp E) as [_ (ls & K1 & K2)].
    exists ls. split; [exact K1|]. apply (default_ok _ _ _ _ K2). intros v (i & _ & F). exact F.
  Qed.
End Default.

(** ** The public functions that advance to a target time *)
Section Public.
  Context {T St W : Type} (o : sops T) (obs : Z -> T -> St -> W -> outcome unit * W)
    (step : St -> T -> Z -> T -> W -> outcome unit * (St * W)).
  Lemma point_without_recovery : forall pol fuel start final s w r s' w' tr,
    advance_to_target_point o obs pol step fuel start final (s, w, []) = (r, (s', w', tr)) -> r <> NoFuel ->
    target_run o (mk_user obs (pol3 pol) noop_guess step) false start final s w r s' w' tr.
  Proof. intros. eapply to_target_sound; eassumption. Qed.
  Lemma point_with_recovery : forall pol fuel start final s w r s' w' tr,
    with_step_recovery_args o obs pol step fuel start final (s, w, []) = (r, (s', w', tr)) -> r <> NoFuel ->
    target_run o (mk_user obs pol noop_guess step) true start final s w r s' w' tr.
  Proof. intros. eapply to_target_sound; eassumption. Qed.
End Public.

(** ** The FOM states manager *)
Lemma fom_at_short {Y} : forall (g : tag) (data : list Y), (length data < asserted_size g)%nat -> fom_at g data = Undef UOutOfBounds.
Proof.
  intros g data Hl. unfold fom_at. replace (nth_error data (read_index g)) with (@None Y); [reflexivity|].
  symmetry. apply nth_error_None. destruct g; cbn in *; lia.
Qed.

(** ** LSPG problems that were moved from *)
Section Moved.
  Local Open Scope nat_scope.
  Lemma uses_app {A} (f : use -> A -> outcome unit * A) : forall l l' h,
    uses f (l ++ l') h = (fst (uses f l h) ++ fst (uses f l' (snd (uses f l h))), snd (uses f l' (snd (uses f l h)))).
  Proof.
    induction l as [|u l IH]; intros l' h; [cbn; destruct (uses f l' h); reflexivity|]. cbn [app uses].
    destruct (f u h) as [r h1]. rewrite IH. destruct (uses f l h1). reflexivity.
  Qed.
  Lemma lp_reached : forall l h s, linv h s -> Forall not_copied l -> correct_use l s -> linv (snd (uses lp_use l h)) (fold_left (fun s u => after u s) l s).
  Proof.
    induction l as [|u l IH]; intros h s HI HF HC; [exact HI|].
    inversion HF as [|? ? Hu HF']; subst. destruct HC as [HA HC]. cbn [uses fold_left].
    destruct (lp_keeps u h s Hu HI HA) as [E HI']. destruct (lp_use u h) as [r h1]. cbn [fst snd] in *.
    pose proof (IH h1 _ HI' HF' HC) as K. destruct (uses lp_use l h1). exact K.
  Qed.
  Lemma correct_app : forall l l' s, correct_use (l ++ l') s -> correct_use l s /\ correct_use l' (fold_left (fun s u => after u s) l s).
  Proof. induction l as [|u l IH]; intros l' s K; [split; [exact I|exact K]|]. cbn in *. destruct K as [K1 K2]. destruct (IH _ _ K2). auto. Qed.
  (** The object moved from refers to what now belongs to the other one, and is left
      dangling when that is destroyed. *)
  Lemma lp_moved_from : forall l a b, Forall not_copied l -> correct_use (l ++ [UMove a b; UDestroy b]) nothing ->
    fst (uses lp_use (l ++ [UMove a b; UStep a; UDestroy b; UStep a]) lnothing) =
    fst (uses lp_use l lnothing) ++ [Ok tt; Ok tt; Ok tt; Undef UDangling].
  Proof.
    intros l a b HF HC. destruct (correct_app _ _ _ HC) as [HC1 HC2]. rewrite uses_app. cbn [fst]. f_equal.
    assert (HI : linv (snd (uses lp_use l lnothing)) (fold_left (fun s u => after u s) l nothing)).
    { apply lp_reached; [|exact HF|exact HC1]. repeat split; intros *; try discriminate. }
    destruct HC2 as [HA _]. cbn [allowed] in HA. destruct HA as [Ha Hb].
    set (h := snd (uses lp_use l lnothing)) in *. destruct HI as (HU & _ & HE & _). destruct (HU a Ha) as (c & E & Lc). pose proof (HE b Hb) as Eb.
    assert (N : a <> b) by (intros ->; congruence).
    cbn [uses lp_use]. rewrite E. unfold lp_step. cbn [lh_obj lh_cell]. unfold upd_heap.
    assert (Nab : (a =? b) = false) by (apply Nat.eqb_neq; exact N).
    assert (Nba : (b =? a) = false) by (apply Nat.eqb_neq; intros K; exact (N (eq_sym K))).
    repeat (first [rewrite Nat.eqb_refl | rewrite Nab | rewrite Nba | rewrite Lc]; cbn [lq_ref lq_own lh_obj lh_cell fst snd uses]).
    unfold free_cell. cbn [lh_cell]. rewrite ?Nat.eqb_refl. reflexivity.
  Qed.
End Moved.

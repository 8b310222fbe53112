(** C76: perturbations of explicit integrations. *)
From Coq Require Import ZArith List Reals Lra Field.
From Verif Require Import Base RInst Laws LawInst ExplicitModel ExplicitSpec ExplicitProofs ExplicitOrder ImplicitModel ImplicitSpec
  RomExactProofs StabilitySpec.
Import ListNotations.
Local Open Scope R_scope.

(** ** The exponential *)
Lemma exp_partial_sum (x : R) (n : nat) : 0 <= x -> sum_f_R0 (fun i => / INR (fact i) * x ^ i) n <= exp x.
Proof.
  intros Hx. unfold exp. destruct (exist_exp x) as [l Hl]. cbn.
  apply sum_incr.
  - intros e He. destruct (Hl e He) as [N HN]. exists N. exact HN.
  - intros i. apply Rmult_le_pos; [|apply pow_le; exact Hx].
    left. apply Rinv_0_lt_compat. apply lt_0_INR. apply lt_O_fact.
Qed.
Lemma exp_4 x : 0 <= x -> 1 + x + x * x / 2 + x * x * x / 6 + x * x * x * x / 24 <= exp x.
Proof.
  intros Hx. eapply Rle_trans; [|apply (exp_partial_sum x 4 Hx)]. cbn. lra.
Qed.
Lemma exp_3 x : 0 <= x -> 1 + x + x * x / 2 + x * x * x / 6 <= exp x.
Proof.
  intros Hx. pose proof (exp_4 x Hx). assert (0 <= x * x * x * x) by (repeat apply Rmult_le_pos; assumption). lra.
Qed.
Lemma exp_1 x : 0 <= x -> 1 + x <= exp x.
Proof.
  intros Hx. pose proof (exp_3 x Hx). assert (0 <= x * x) by nra. assert (0 <= x * x * x) by (repeat apply Rmult_le_pos; assumption). lra.
Qed.
Lemma exp_ge_1 x : 0 <= x -> 1 <= exp x.
Proof. intros Hx. pose proof (exp_1 x Hx). lra. Qed.

Section Norm.
  Context {V : Type} (eps0 : R) (vo : vops R V) (norm : V -> R).
  Notation o := (Rops eps0).
  Hypotheses (HV : vspace o vo) (HN : normed vo norm).
  Notation dist := (dist eps0 vo norm).
  Let HF := R_field eps0.
  Ltac vec := unfold vminus, neg1; vreduce (Rops eps0) vo HF HV; cbn; try lra.
  Lemma dist_pos x y : 0 <= dist x y.
  Proof. apply (n_pos _ _ HN). Qed.
  Lemma dist_tri x y z : dist x z <= dist x y + dist y z.
  Proof.
    unfold StabilitySpec.dist. replace (vminus o vo x z) with (vadd vo (vminus o vo x y) (vminus o vo y z)); [apply (n_tri _ _ HN)|vec].
  Qed.
  Lemma dist_step h x y k l : dist (vadd vo x (vscale vo h k)) (vadd vo y (vscale vo h l)) <= dist x y + Rabs h * dist k l.
  Proof.
    unfold StabilitySpec.dist.
    replace (vminus o vo (vadd vo x (vscale vo h k)) (vadd vo y (vscale vo h l)))
      with (vadd vo (vminus o vo x y) (vscale vo h (vminus o vo k l))) by vec.
    eapply Rle_trans; [apply (n_tri _ _ HN)|]. rewrite (n_scale _ _ HN). lra.
  Qed.
  Lemma dist_scale a x y : dist (vscale vo a x) (vscale vo a y) = Rabs a * dist x y.
  Proof.
    unfold StabilitySpec.dist. rewrite <- (n_scale _ _ HN). f_equal. vec.
  Qed.
  Lemma dist_add x y k l : dist (vadd vo x k) (vadd vo y l) <= dist x y + dist k l.
  Proof.
    unfold StabilitySpec.dist. replace (vminus o vo (vadd vo x k) (vadd vo y l)) with (vadd vo (vminus o vo x y) (vminus o vo k l)) by vec.
    apply (n_tri _ _ HN).
  Qed.

  (** ** One step of a Runge-Kutta scheme *)
  Variables (L : R) (f : V -> R -> V).
  Hypothesis HL : lipschitz eps0 vo norm L f.
  Inductive near : list V -> list V -> list R -> Prop :=
  | near_nil : near [] [] []
  | near_cons k k' e ks ks' es : dist k k' <= e -> near ks ks' es -> near (k :: ks) (k' :: ks') (e :: es).
  Lemma near_app a a' e b b' e' : near a a' e -> near b b' e' -> near (a ++ b) (a' ++ b') (e ++ e').
  Proof. induction 1; cbn; [auto|]. intros. constructor; auto. Qed.
  Fixpoint rsum (h : R) (a e : list R) : R :=
    match a, e with aj :: a', ej :: e' => Rabs (h * aj) * ej + rsum h a' e' | _, _ => 0 end.
  Lemma ycomb_near h : forall a ks ks' es, near ks ks' es -> forall y z,
    dist (ycomb o vo h y a ks) (ycomb o vo h z a ks') <= dist y z + rsum h a es.
  Proof.
    induction a as [|aj a IH]; intros ks ks' es H y z; [cbn; lra|].
    destruct H as [|k k' e ks ks' es H1 H]; [cbn; lra|]. cbn [ycomb rsum]. eapply Rle_trans; [apply (IH _ _ _ H)|].
    pose proof (dist_step (h * aj) y z k k'). change (smul o h aj) with (h * aj).
    pose proof (Rabs_pos (h * aj)). nra.
  Qed.
  Fixpoint gains (rows : list (R * list R)) (h e : R) (es : list R) : list R :=
    match rows with
    | [] => []
    | (_, a) :: rows' => let g := L * (e + rsum h a es) in g :: gains rows' h e (es ++ [g])
    end.
  Lemma stages_near t h y z : forall rows ks ks' es, near ks ks' es ->
    near (map st_k (erk_stages o vo f rows y t h ks)) (map st_k (erk_stages o vo f rows z t h ks')) (gains rows h (dist y z) es).
  Proof.
    induction rows as [|[c a] rows IH]; intros ks ks' es H; cbn; [constructor|].
    assert (B : dist (f (ycomb o vo h y a ks) (sadd o t (smul o c h))) (f (ycomb o vo h z a ks') (sadd o t (smul o c h)))
                <= L * (dist y z + rsum h a es)).
    { destruct HL as [L0 HL']. eapply Rle_trans; [apply HL'|]. apply Rmult_le_compat_l; [exact L0|]. apply ycomb_near. exact H. }
    constructor; [exact B|]. apply IH. apply near_app; [exact H|]. constructor; [exact B|constructor].
  Qed.
  Lemma erk_near tab t h y z :
    dist (erk_next o vo f tab y t h) (erk_next o vo f tab z t h) <=
    dist y z + rsum h (tb_b tab) (gains (tb_stages tab) h (dist y z) []).
  Proof. apply ycomb_near. apply stages_near. constructor. Qed.
  Lemma erk_growth name tab t h y z : tab_of o name = Some tab -> 0 <= h ->
    dist (erk_next o vo f tab y t h) (erk_next o vo f tab z t h) <= exp (L * h) * dist y z.
  Proof.
    intros HT Hh. eapply Rle_trans; [apply erk_near|]. set (e := dist y z).
    assert (He : 0 <= e) by apply dist_pos. destruct HL as [L0 _].
    assert (Ha : 0 <= L * h) by (apply Rmult_le_pos; assumption).
    destruct name; try discriminate HT; injection HT as <-; cbn -[exp].
    - rewrite Rabs_pos_eq by lra. pose proof (exp_1 _ Ha). nra.
    - unfold s_of_pos; cbn -[exp]. rewrite !Rabs_pos_eq by lra. pose proof (exp_4 _ Ha) as H4.
      eapply Rle_trans; [|apply Rmult_le_compat_r; [exact He|exact H4]]. right. field.
    - rewrite !Rabs_pos_eq by lra. pose proof (exp_3 _ Ha) as H3.
      eapply Rle_trans; [|apply Rmult_le_compat_r; [exact He|exact H3]]. right. field.
  Qed.
End Norm.

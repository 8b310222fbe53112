(** The nonlinear solvers with the modified Gram-Schmidt QR solver, and what the QR
    object does to its input and when it is used again. *)
From Coq Require Import Reals ZArith List Bool Lia Lra QArith Qcanon.
From Verif Require Import Base RInst QcInst Laws LawInst ExplicitModel ExplicitExtra NonlinDiag NonlinModel NonlinSpec NonlinLaws NonlinExact
  NonlinWp NonlinRest Tuples QrModel QrSpec QrProofs QrSolve QrExts.
Import ListNotations.
Local Open Scope R_scope.

(** More than n vectors of n entries are dependent. *)
Section Dimension.
  Variable eps : R.
  Notation o := (Rops eps).
  Definition nontrivial (cs : list R) : Prop := exists c, In c cs /\ c <> 0.
  Lemma comb_fst : forall n cs (A : list (tup R (Datatypes.S n))),
    fst (lincomb (tvec o (Datatypes.S n)) cs A) = sum_products o cs (map fst A) /\
    snd (lincomb (tvec o (Datatypes.S n)) cs A) = lincomb (tvec o n) cs (map snd A).
  Proof.
    intros n. induction cs as [|c cs IH]; intros [|a A]; cbn [lincomb sum_products map]; try (split; reflexivity).
    destruct (IH A) as [I1 I2]. cbn [vadd vscale tvec tmap2 tmap fst snd] in *. rewrite I1, I2. split; reflexivity.
  Qed.
  Lemma pivot : forall n (A : list (tup R (Datatypes.S n))), (forall a, In a A -> fst a = 0) \/ exists pre a post, A = pre ++ a :: post /\ fst a <> 0.
  Proof.
    intros n. induction A as [|a A IH]; [left; intros x []|].
    destruct (Req_EM_T (fst a) 0) as [h|h].
    - destruct IH as [IH|[pre [x [post [-> Hx]]]]].
      + left. intros x [<-|Hx]; auto.
      + right. exists (a :: pre), x, post. auto.
    - right. exists [], a, A. auto.
  Qed.
  Lemma sp_zero : forall cs l, (forall x, In x l -> x = 0) -> sum_products o cs l = 0.
  Proof.
    induction cs as [|c cs IH]; intros [|x l] H; cbn [sum_products]; try reflexivity.
    rewrite IH by (intros; apply H; right; assumption). rewrite (H x) by (left; reflexivity).
    change (c * 0 + 0 = 0). ring.
  Qed.
  (** subtract a multiple of [a], so that the first entry becomes 0 *)
  Definition elim {n} (a b : tup R (Datatypes.S n)) : tup R (Datatypes.S n) :=
    vadd (tvec o (Datatypes.S n)) b (vscale (tvec o (Datatypes.S n)) (- (fst b / fst a)) a).
  Lemma elim_comb : forall n (a : tup R (Datatypes.S n)), let HI := tuple_inner eps (Datatypes.S n) in forall cs B, exists c,
    lincomb (tvec o (Datatypes.S n)) cs (map (elim a) B) = vadd (tvec o (Datatypes.S n)) (lincomb (tvec o (Datatypes.S n)) cs B) (vscale (tvec o (Datatypes.S n)) c a).
  Proof.
    intros n a HI. induction cs as [|c cs IH]; intros [|b B]; cbn [lincomb map];
      try (exists 0; apply (dot_ext _ _ HI); intros z; rewrite ?(in_add _ _ HI), ?(in_scale _ _ HI), ?(dot_0_l _ _ HI); ring).
    destruct (IH B) as [d ->]. exists (d - c * (fst b / fst a)). apply (dot_ext _ _ HI). intros z. unfold elim.
    repeat (rewrite (in_add _ _ HI) || rewrite (in_scale _ _ HI)). ring.
  Qed.
  Lemma comb_mid : forall V (vo : vops R V) (dot : V -> V -> R), inner eps vo dot -> forall c1 c c2 pre a post, length c1 = length pre ->
    lincomb vo (c1 ++ c :: c2) (pre ++ a :: post) = vadd vo (lincomb vo (c1 ++ c2) (pre ++ post)) (vscale vo c a).
  Proof.
    intros V vo dot HI. induction c1 as [|x c1 IH]; intros c c2 [|p pre] a post Hl; try discriminate; cbn [app lincomb].
    - apply (dot_ext _ _ HI); intros z; rewrite ?(in_add _ _ HI), ?(in_scale _ _ HI). ring.
    - injection Hl as Hl. rewrite (IH _ _ _ _ _ Hl). apply (dot_ext _ _ HI); intros z; rewrite ?(in_add _ _ HI), ?(in_scale _ _ HI). ring.
  Qed.
  Lemma dependent : forall n (A : list (tup R n)), (n < length A)%nat ->
    exists cs, length cs = length A /\ nontrivial cs /\ lincomb (tvec o n) cs A = vzero (tvec o n).
  Proof.
    induction n as [|n IH]; intros A Hl.
    - destruct A as [|a A]; [cbn in Hl; lia|]. exists (1 :: repeat 0 (length A)). split; [cbn; rewrite repeat_length; reflexivity|]. split.
      + exists 1. split; [left; reflexivity|lra].
      + destruct (lincomb _ _ _). reflexivity.
    - destruct (pivot n A) as [Hz|[pre [a [post [-> Ha]]]]].
      + destruct (IH (map snd A)) as [cs [E1 [E2 E3]]]; [rewrite map_length; exact (Nat.lt_succ_l _ _ Hl)|]. rewrite map_length in E1. exists cs. split; [exact E1|]. split; [exact E2|].
        destruct (comb_fst n cs A) as [C1 C2]. apply tup_eq.
        * rewrite C1. apply sp_zero. intros x Hx. apply in_map_iff in Hx. destruct Hx as [y [<- Hy]]. apply Hz. exact Hy.
        * rewrite C2, E3. reflexivity.
      + set (B := pre ++ post). assert (LB : length (pre ++ a :: post) = Datatypes.S (length B)) by (subst B; rewrite !app_length; cbn; lia).
        destruct (IH (map snd (map (elim a) B))) as [cs [E1 [E2 E3]]]; [rewrite !map_length; rewrite LB in Hl; exact (proj2 (Nat.succ_lt_mono _ _) Hl)|]. rewrite !map_length in E1.
        assert (E4 : length cs = (length pre + length post)%nat) by (rewrite E1; apply app_length).
        assert (E5 : length B = (length pre + length post)%nat) by apply app_length.
        destruct (elim_comb n a cs B) as [c Ec].
        assert (E0 : lincomb (tvec o (Datatypes.S n)) cs (map (elim a) B) = vzero (tvec o (Datatypes.S n))).
        { destruct (comb_fst n cs (map (elim a) B)) as [C1 C2]. apply tup_eq; [|rewrite C2, E3; reflexivity].
          rewrite C1. apply sp_zero. intros x Hx. apply in_map_iff in Hx. destruct Hx as [y [<- Hy]].
          apply in_map_iff in Hy. destruct Hy as [b [<- _]]. unfold elim. cbn.
          change (fst b + - (fst b / fst a) * fst a = 0). field. exact Ha. }
        exists (firstn (length pre) cs ++ c :: skipn (length pre) cs). split.
        * rewrite LB, app_length. cbn [length]. rewrite firstn_length, skipn_length, E4, E5. lia.
        * split.
          -- destruct E2 as [d [Hd Hd0]]. exists d. split; [|exact Hd0]. rewrite <- (firstn_skipn (length pre) cs) in Hd.
             apply in_app_iff in Hd. apply in_app_iff. destruct Hd; [left|right; right]; assumption.
          -- rewrite (comb_mid _ _ _ (tuple_inner eps (Datatypes.S n))).
             ++ rewrite firstn_skipn. fold B. rewrite <- Ec. exact E0.
             ++ rewrite firstn_length, E4. lia.
  Qed.
  (** A square matrix of full rank is invertible. *)
  Lemma square_onto : forall n (A : mat (S:=R) n n), full_rank (tuple_ops o sqrt n n) (tvec o n) (tapply o) A ->
    forall r, exists d, tapply o A d = r.
  Proof.
    intros n A Hf r. pose proof (tuple_inner eps n) as HI.
    destruct (dependent n (r :: tlist A)) as [cs [E1 [[x [Hx Hx0]] E3]]]; [cbn; rewrite tlist_len; lia|].
    destruct cs as [|c cs]; [discriminate|]. cbn [length] in E1. rewrite tlist_len in E1. injection E1 as E1. cbn [lincomb] in E3.
    rewrite <- (tlist_of 0 n cs E1) in E3. rewrite comb_apply in E3. set (v := of_list 0 n cs) in *.
    assert (Hc : c <> 0).
    { intros ->. assert (Hz : tapply o A v = vzero (tvec o n)).
      { rewrite <- E3. apply (dot_ext _ _ HI). intros z. rewrite (in_add _ _ HI), (in_scale _ _ HI). ring. }
      apply Hf in Hz. destruct Hx as [<-|Hx]; [lra|]. rewrite <- (tlist_of 0 n cs E1) in Hx. fold v in Hx. rewrite Hz in Hx.
      apply Hx0. cbn in Hx. clear -Hx. induction n as [|n IH]; [contradiction|]. destruct Hx as [<-|Hx]; [reflexivity|apply IH; exact Hx]. }
    exists (vscale (tvec o n) (- / c) v). rewrite (lin_scale _ _ _ (tapply_lin o (R_field eps) n n A)).
    apply (dot_ext _ _ HI). intros z. pose proof (f_equal (fun y => tdot o y z) E3) as K. cbv beta in K.
    rewrite (in_add _ _ HI), (in_scale _ _ HI), (dot_0_l _ _ HI) in K. rewrite (in_scale _ _ HI).
    replace (tdot o (tapply o A v) z) with (- c * tdot o r z) by lra. field. exact Hc.
  Qed.
End Dimension.

Section End.
  Variable eps : R.
  Notation o := (Rops eps).
  Variables m n : nat.
  Notation no := (tuple_ops o sqrt m n).
  Variables (wr : tup R m -> tup R m) (wj : mat (S:=R) m n -> mat (S:=R) m n).
  Variable W : Type.
  Variable rj : tup R n -> tup R m -> option (mat (S:=R) m n) -> W -> outcome unit * (tup R m * option (mat (S:=R) m n) * W).
  Variable A : mat (S:=R) m n.
  Variable b : tup R m.
  Notation F := (affine (tvec o m) (tapply o) A b).
  Hypothesis Hc : computes rj F (fun _ => A).
  Hypothesis Hf : full_rank no (tvec o m) (tapply o) A.
  Lemma gn_mgs : forall tag cf (s : reg R (tup R n) (tup R m) (mat (S:=R) m n) (mat (S:=R) n n) (object eps m n)) (w : W) r s' w',
    ls_object o s -> tag = GaussNewton \/ tag = GaussNewtonQr -> f_update cf = UStandard ->
    f_stop cf = WhenAbsCorrection \/ f_stop cf = WhenRelCorrection \/ f_stop cf = WhenAbsGradient \/ f_stop cf = WhenRelGradient ->
    0 < f_tol cf -> (2 <= f_max cf < int32_max)%Z ->
    exec rj (ls_solve o no (mgs_exts eps m n wr wj false) tag cf) (s, w) = (r, (s', w')) ->
    exists ls, g_log s' = g_log s ++ ls /\ r = Ok tt /\
      ((length ls = 1%nat /\ g_x s' = g_x s) \/
       (length ls = 2%nat /\ forall y, n_rnorm no (F (g_x s')) <= n_rnorm no (F y))) /\
      exists a l, ls = a ++ [l] /\ l_state l = g_x s' /\ line_met o cf l.
  Proof.
    intros tag cf s w r s' w' Ho Htag Hu Hst Ht Hmax E.
    refine (gn_affine no (tvec o m) (tapply o) (tapply o) (tuple_laws eps m n) _ rj A b Hc (mgs_linear eps m n wr wj) Hf wr wj (mgs_weights eps m n wr wj false)
      tag cf s w r s' w' _ Ho Htag Hu Hst Ht Hmax E).
    assert (K : forall r0, exists d, qr_exact no (tapply o) A r0 d).
    { intros r0. eexists. apply solution_qr. apply diag_of_indep. apply (proj1 (full_rank_indep eps m n A)). exact Hf. }
    intros r0. destruct (K r0) as [d Hd]. exists d. destruct Htag as [-> | ->]; [|exact Hd].
    exact (qr_normal no (tvec o m) (tapply o) (tapply o) (tuple_laws eps m n) A r0 d Hd).
  Qed.
End End.
Section EndNewton.
  Variable eps : R.
  Notation o := (Rops eps).
  Variable n : nat.
  Notation no := (tuple_ops o sqrt n n).
  Variables (wr : tup R n -> tup R n) (wj : mat (S:=R) n n -> mat (S:=R) n n).
  Variable W : Type.
  Variable rj : tup R n -> tup R n -> option (mat (S:=R) n n) -> W -> outcome unit * (tup R n * option (mat (S:=R) n n) * W).
  Variable A : mat (S:=R) n n.
  Variable b : tup R n.
  Notation F := (affine (tvec o n) (tapply o) A b).
  Hypothesis Hc : computes rj F (fun _ => A).
  Hypothesis Hf : full_rank no (tvec o n) (tapply o) A.
  Lemma newton_mgs : forall cf (s : reg R (tup R n) (tup R n) (mat (S:=R) n n) (mat (S:=R) n n) (object eps n n)) (w : W) r s' w',
    root_object o s -> root_supported cf -> f_update cf = UStandard -> 0 < f_tol cf -> (2 <= f_max cf < int32_max)%Z ->
    exec rj (root_solve o no (mgs_exts eps n n wr wj false) cf) (s, w) = (r, (s', w')) ->
    exists ls, g_log s' = g_log s ++ ls /\ r = Ok tt /\
      ((length ls = 1%nat /\ g_x s' = g_x s) \/ (length ls = 2%nat /\ F (g_x s') = vzero (tvec o n))) /\
      exists a l, ls = a ++ [l] /\ l_state l = g_x s' /\ line_met o cf l.
  Proof.
    intros cf s w r s' w' Ho Hs Hu Ht Hmax E.
    exact (newton_affine no (tvec o n) (tapply o) (tapply o) (tuple_laws eps n n) _ rj A b Hc (mgs_linear eps n n wr wj) Hf
      cf s w r s' w' (square_onto eps n A Hf) Ho Hs Hu Ht Hmax E).
  Qed.
End EndNewton.

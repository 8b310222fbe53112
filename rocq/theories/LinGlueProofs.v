(** Proofs about [LinGlue.v]. *)
From Coq Require Import Reals ZArith List Arith Lia Lra.
From Verif Require Import Base RInst Laws LawInst NonlinDiag NonlinModel NonlinSpec NonlinLaws Tuples QrModel QrSpec QrProofs QrSolve QrExts
  LinsolveModel LinsolveSpec LinsolveProofs LinGlue.
Import ListNotations.
Local Open Scope R_scope.

Section Convert.
  Variable eps : R.
  Notation o := (Rops eps).
  Lemma ssum_shift : forall n k (f : nat -> R), ssum o n (Datatypes.S k) f = ssum o n k (fun j => f (Datatypes.S j)).
  Proof. induction n as [|n IH]; intros k f; cbn; [reflexivity|]. rewrite IH. reflexivity. Qed.
  Lemma nth_map2 : forall n (f : R -> R -> R) (v w : tup R n) i, (i < n)%nat ->
    nth i (tlist (tmap2 f v w)) 0 = f (nth i (tlist v) 0) (nth i (tlist w) 0).
  Proof.
    induction n as [|n IH]; intros f v w i Hi; [lia|]. destruct i as [|i]; [reflexivity|]. cbn. apply IH. lia.
  Qed.
  Lemma nth_map : forall n (f : R -> R) (v : tup R n) i, (i < n)%nat -> nth i (tlist (tmap f v)) 0 = f (nth i (tlist v) 0).
  Proof. induction n as [|n IH]; intros f v i Hi; [lia|]. destruct i as [|i]; [reflexivity|]. cbn. apply IH. lia. Qed.
  Lemma nth_const : forall n i, nth i (tlist (tconst 0 n)) 0 = 0.
  Proof. induction n as [|n IH]; intros [|i]; cbn; auto. Qed.
  Lemma tup_nth : forall n (v w : tup R n), (forall i, (i < n)%nat -> nth i (tlist v) 0 = nth i (tlist w) 0) -> v = w.
  Proof.
    induction n as [|n IH]; intros v w E; [destruct v, w; reflexivity|]. apply tup_eq.
    - exact (E 0%nat ltac:(lia)).
    - apply IH. intros i Hi. exact (E (Datatypes.S i) ltac:(lia)).
  Qed.
  Lemma entries : forall m n (a : mat (S:=R) m n) (v : tup R n) i, (i < m)%nat ->
    nth i (tlist (tapply o a v)) 0 = ssum o n 0 (fun j => smul o (ent (as_mtx a) i j) (nth j (tlist v) 0)).
  Proof.
    intros m. induction n as [|n IH]; intros a v i Hi.
    - cbn. apply nth_const.
    - cbn [tapply ssum]. rewrite ssum_shift. cbn [vadd vscale tvec]. rewrite nth_map2 by exact Hi.
      rewrite nth_map by exact Hi. rewrite IH by exact Hi. cbn. f_equal. ring.
  Qed.
  Lemma of_vct_nth : forall n (y : vct R) i, (i < n)%nat -> nth i (tlist (of_vct n y)) 0 = at_ y i.
  Proof.
    intros n y i Hi. unfold of_vct. rewrite tlist_of by (rewrite map_length, seq_length; reflexivity).
    rewrite (nth_indep _ 0 (at_ y 0%nat)) by (rewrite map_length, seq_length; exact Hi).
    rewrite map_nth, seq_nth by exact Hi. reflexivity.
  Qed.
  Lemma solves_apply : forall n (a : mat (S:=R) n n) (y : vct R) (b : tup R n),
    solves o n (ent (as_mtx a)) (at_ y) (at_ (as_vct b)) <-> tapply o a (of_vct n y) = b.
  Proof.
    intros n a y b. split.
    - intros Hs. apply tup_nth. intros i Hi. rewrite entries by exact Hi. transitivity (at_ (as_vct b) i); [|reflexivity].
      rewrite <- (Hs i Hi). apply ssum_ext. intros j Hj. rewrite of_vct_nth by lia. reflexivity.
    - intros E i Hi. cbn [as_vct at_]. rewrite <- E. rewrite entries by exact Hi. apply ssum_ext. intros j Hj.
      rewrite of_vct_nth by lia. reflexivity.
  Qed.
  Lemma as_of : forall n (v : tup R n), of_vct n (as_vct v) = v.
  Proof. intros n v. apply tup_nth. intros i Hi. rewrite of_vct_nth by exact Hi. reflexivity. Qed.
  Lemma unique_nonsingular : forall n (a : mat (S:=R) n n) e, (forall e', tapply o a e' = tapply o a e -> e' = e) ->
    nonsingular o n (ent (as_mtx a)).
  Proof.
    intros n a e Hu y Hy i Hi. set (v := of_vct n (mk_vct n y)).
    assert (Hv : tapply o a v = vzero (tvec o n)).
    { apply (proj1 (solves_apply n a (mk_vct n y) (vzero (tvec o n)))). intros k Hk. cbn [at_ as_vct].
      rewrite (Hy k Hk). symmetry. apply nth_const. }
    pose proof (tvec_space o (R_field eps) n) as HV.
    assert (K : vadd (tvec o n) e v = e).
    { apply Hu. rewrite (lin_add _ _ _ (tapply_lin o (R_field eps) n n a)), Hv. rewrite (va_comm _ _ HV). apply (va_0_l _ _ HV). }
    pose proof (f_equal (fun x => nth i (tlist x) 0) K) as K'. cbn [vadd tvec] in K'. rewrite nth_map2 in K' by exact Hi.
    unfold v in K'. rewrite of_vct_nth in K' by exact Hi. cbn in K' |- *. lra.
  Qed.
  Lemma nonsingular_rank : forall n (a : mat (S:=R) n n), nonsingular o n (ent (as_mtx a)) <->
    (forall v, tapply o a v = vzero (tvec o n) -> v = vzero (tvec o n)).
  Proof.
    intros n a. split.
    - intros Hn v Hv. apply tup_nth. intros i Hi. cbn [vzero tvec]. change (s0 o) with 0. rewrite nth_const.
      apply (Hn (at_ (as_vct v))); [|exact Hi]. intros k Hk.
      transitivity (nth k (tlist (vzero (tvec o n))) 0); [|apply nth_const]. rewrite <- Hv. rewrite entries by exact Hk. reflexivity.
    - intros Hr. apply (unique_nonsingular n a (vzero (tvec o n))). intros e' E. apply Hr. rewrite E.
      pose proof (lin_scale _ _ _ (tapply_lin o (R_field eps) n n a) 0 (vzero (tvec o n))) as Z.
      pose proof (vs_0 _ _ (tvec_space o (R_field eps) n)) as Z0. change (s0 o) with 0 in Z0. rewrite !Z0 in Z. exact Z.
  Qed.
End Convert.

Section Serve.
  Variable eps : R.
  Notation o := (Rops eps).
  Variable n : nat.
  Variable X : Type.
  Variable asked : (nat -> nat -> R) -> Prop.
  Variable fit : X -> Prop.
  Variable slv : solver X.
  Hypothesis HS : serves eps n asked fit slv.
  Notation call := (asks_solver HS).
  Lemma call_done : forall a b c x, exists y x', slv (proj1_sig x) (as_mtx a) (as_vct b) (as_vct c) = Done (proj1_sig x', y) /\ size y = n /\
    call a b c x = (Ok tt, (of_vct n y, x')).
  Proof.
    intros a b c x. destruct (proj2 HS (proj1_sig x) (as_mtx a) (as_vct b) (as_vct c) (proj2_sig x) (all_sized eps n X asked fit slv HS a b c)) as (x1 & y1 & E1 & _ & E2 & _).
    unfold asks_solver.
    set (Hr := fun x' y' => stays_fit _ _ _ _ _ _ _ _ _ _ _ x' y' _ _). clearbody Hr. revert Hr. rewrite E1. intros Hr.
    exists y1. eexists. split; [|split; [exact E2|reflexivity]]. reflexivity.
  Qed.
  Lemma call_ok : forall a b c x r d x', call a b c x = (r, (d, x')) -> r = Ok tt /\
    (asked (ent (as_mtx a)) -> nonsingular o n (ent (as_mtx a)) -> tapply o a d = b).
  Proof.
    intros a b c x r d x' E. destruct (call_done a b c x) as (y & x1 & E1 & E2 & E3). rewrite E3 in E. injection E as <- <- <-.
    split; [reflexivity|]. intros Ha Hn.
    destruct (proj2 HS (proj1_sig x) (as_mtx a) (as_vct b) (as_vct c) (proj2_sig x) (all_sized eps n X asked fit slv HS a b c)) as (x2 & y2 & E4 & _ & _ & K).
    rewrite E1 in E4. injection E4 as _ <-. apply solves_apply. exact (K Hn Ha).
  Qed.
End Serve.

Section Linear.
  Variable eps : R.
  Notation o := (Rops eps).
  Variable n : nat.
  Variable X : Type.
  Variable asked : (nat -> nat -> R) -> Prop.
  Variable fit : X -> Prop.
  Variable slv : solver X.
  Hypothesis HS : serves eps n asked fit slv.
  Definition where_asked {Y Z} (P : mat (S:=R) n n -> Y -> Z -> Prop) (h : mat (S:=R) n n) (g : Y) (d : Z) : Prop :=
    asked (ent (as_mtx h)) -> P h g d.
  Lemma ls_linear : forall m L (xt : exts (tup R n) (tup R m) (mat (S:=R) m n) (mat (S:=R) n n) L) glin gqr gnewt flin,
    linear_ok xt glin gqr gnewt flin ->
    linear_ok (ls_exts HS xt) (where_asked (if_solvable (normal_exact (tapply o)))) gqr gnewt flin.
  Proof.
    intros m L xt glin gqr gnewt flin HK. split.
    - intros h g c [x l] d l' E Ha [e [He Hu]]. cbn [ls_exts used_for x_normal fst snd] in E.
      destruct (asks_solver HS h g c x) as [r [d' x']] eqn:C. cbn [swap] in E. injection E as -> -> _.
      apply (proj2 (call_ok _ _ _ _ _ _ HS _ _ _ _ _ _ _ C) Ha). apply (unique_nonsingular eps n h e). intros e' E'.
      apply Hu. unfold normal_exact in *. congruence.
    - intros j r v c [x l] [x1 l1] q [x2 l2] d [x3 l3] E1 E2 E3. cbn in E1, E2, E3.
      destruct (x_thin xt j l) as [e1 l1'] eqn:T1. injection E1 as -> <- ->.
      destruct (x_qtr xt r v l1) as [e2 [q' l2']] eqn:T2. cbn in E2. injection E2 as -> -> <- ->.
      destruct (x_rsolve xt q c l2) as [e3 [d' l3']] eqn:T3. cbn in E3. injection E3 as -> -> <- ->.
      exact (lk_qr HK _ _ _ _ _ _ _ _ _ _ T1 T2 T3).
    - intros j r c [x l] d l' E. cbn in E. destruct (x_newton xt j r c l) as [e [d' l1]] eqn:T. cbn in E. injection E as -> -> _.
      exact (lk_newt HK _ _ _ _ _ _ T).
    - intros h g c [x l] e z E Hne. cbn [ls_exts used_for x_normal fst snd] in E.
      destruct (asks_solver HS h g c x) as [r [d' x']] eqn:C. cbn [swap] in E. injection E as -> _.
      destruct (call_ok _ _ _ _ _ _ HS _ _ _ _ _ _ _ C) as [-> _]. congruence.
    - intros j [x l] e z E Hne. cbn in E. destruct (x_thin xt j l) as [e1 l1] eqn:T. injection E as -> _. exact (lk_f2 HK _ _ _ _ T Hne).
    - intros j [x0 l0] r v [x l] e z E1 E Hne. cbn in E1, E. destruct (x_thin xt j l0) as [e1 l1] eqn:T1. injection E1 as -> <- ->.
      destruct (x_qtr xt r v l) as [e2 [q2 l2]] eqn:T2. cbn in E. injection E as -> _. exact (lk_f3 HK _ _ _ _ _ _ _ T1 T2 Hne).
    - intros j [x0 l0] r v [x1 l1] q c [x l] e z E1 E2 E Hne. cbn in E1, E2, E. destruct (x_thin xt j l0) as [e1 l1'] eqn:T1. injection E1 as -> <- ->.
      destruct (x_qtr xt r v l1) as [e2 [q2 l2]] eqn:T2. cbn in E2. injection E2 as -> -> <- ->.
      destruct (x_rsolve xt q c l) as [e3 [q3 l3]] eqn:T3. cbn in E. injection E as -> _. exact (lk_f4 HK _ _ _ _ _ _ _ _ _ _ T1 T2 T3 Hne).
    - intros j r c [x l] e z E Hne. cbn in E. destruct (x_newton xt j r c l) as [e1 [d1 l1]] eqn:T. cbn in E. injection E as -> _.
      exact (lk_f5 HK _ _ _ _ _ _ T Hne).
  Qed.
  Lemma root_linear : forall L (xt : exts (tup R n) (tup R n) (mat (S:=R) n n) (mat (S:=R) n n) L) glin gqr gnewt flin,
    linear_ok xt glin gqr gnewt flin ->
    linear_ok (root_exts HS xt) glin gqr (where_asked (if_solvable (newton_exact (tapply o)))) flin.
  Proof.
    intros L xt glin gqr gnewt flin HK. split.
    - intros h g c [x l] d l' E. cbn in E. destruct (x_normal xt h g c l) as [e [d' l1]] eqn:T. cbn in E. injection E as -> -> _.
      exact (lk_lin HK _ _ _ _ _ _ T).
    - intros j r v c [x l] [x1 l1] q [x2 l2] d [x3 l3] E1 E2 E3. cbn in E1, E2, E3.
      destruct (x_thin xt j l) as [e1 l1'] eqn:T1. injection E1 as -> <- ->.
      destruct (x_qtr xt r v l1) as [e2 [q' l2']] eqn:T2. cbn in E2. injection E2 as -> -> <- ->.
      destruct (x_rsolve xt q c l2) as [e3 [d' l3']] eqn:T3. cbn in E3. injection E3 as -> -> <- ->.
      exact (lk_qr HK _ _ _ _ _ _ _ _ _ _ T1 T2 T3).
    - intros h g c [x l] d l' E Ha [e [He Hu]]. cbn [root_exts used_for x_newton fst snd] in E.
      destruct (asks_solver HS h g c x) as [r [d' x']] eqn:C. cbn [swap] in E. injection E as -> -> _.
      apply (proj2 (call_ok _ _ _ _ _ _ HS _ _ _ _ _ _ _ C) Ha). apply (unique_nonsingular eps n h e). intros e' E'.
      apply Hu. unfold newton_exact in *. congruence.
    - intros j r c [x l] e z E Hne. cbn in E. destruct (x_normal xt j r c l) as [e1 [d1 l1]] eqn:T. cbn in E. injection E as -> _.
      exact (lk_f1 HK _ _ _ _ _ _ T Hne).
    - intros j [x l] e z E Hne. cbn in E. destruct (x_thin xt j l) as [e1 l1] eqn:T. injection E as -> _. exact (lk_f2 HK _ _ _ _ T Hne).
    - intros j [x0 l0] r v [x l] e z E1 E Hne. cbn in E1, E. destruct (x_thin xt j l0) as [e1 l1] eqn:T1. injection E1 as -> <- ->.
      destruct (x_qtr xt r v l) as [e2 [q2 l2]] eqn:T2. cbn in E. injection E as -> _. exact (lk_f3 HK _ _ _ _ _ _ _ T1 T2 Hne).
    - intros j [x0 l0] r v [x1 l1] q c [x l] e z E1 E2 E Hne. cbn in E1, E2, E. destruct (x_thin xt j l0) as [e1 l1'] eqn:T1. injection E1 as -> <- ->.
      destruct (x_qtr xt r v l1) as [e2 [q2 l2]] eqn:T2. cbn in E2. injection E2 as -> -> <- ->.
      destruct (x_rsolve xt q c l) as [e3 [q3 l3]] eqn:T3. cbn in E. injection E as -> _. exact (lk_f4 HK _ _ _ _ _ _ _ _ _ _ T1 T2 T3 Hne).
    - intros h g c [x l] e z E Hne. cbn [root_exts used_for x_newton fst snd] in E.
      destruct (asks_solver HS h g c x) as [r [d' x']] eqn:C. cbn [swap] in E. injection E as -> _.
      destruct (call_ok _ _ _ _ _ _ HS _ _ _ _ _ _ _ C) as [-> _]. congruence.
  Qed.
  Lemma ls_weights : forall m L (xt : exts (tup R n) (tup R m) (mat (S:=R) m n) (mat (S:=R) n n) L) wr wj fsys,
    weights_ok xt wr wj fsys -> weights_ok (ls_exts HS xt) wr wj fsys.
  Proof.
    intros m L xt wr wj fsys HW. split.
    - intros r v [x l] v' l' E. cbn in E. destruct (x_wr xt r v l) as [e [d l1]] eqn:T. cbn in E. injection E as -> -> _. exact (wk_r HW _ _ _ _ _ T).
    - intros r v [x l] v' l' E. cbn in E. destruct (x_wj xt r v l) as [e [d l1]] eqn:T. cbn in E. injection E as -> -> _. exact (wk_j HW _ _ _ _ _ T).
    - intros r v [x l] e z E Hne. cbn in E. destruct (x_wr xt r v l) as [e1 [d l1]] eqn:T. cbn in E. injection E as -> _. exact (wk_fr HW _ _ _ _ _ T Hne).
    - intros r v [x l] e z E Hne. cbn in E. destruct (x_wj xt r v l) as [e1 [d l1]] eqn:T. cbn in E. injection E as -> _. exact (wk_fj HW _ _ _ _ _ T Hne).
  Qed.
End Linear.

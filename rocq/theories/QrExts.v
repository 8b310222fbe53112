(** The modified Gram-Schmidt factorisation as the linear solver of the nonlinear solvers. *)
From Coq Require Import Reals ZArith List Bool Lia Lra.
From Verif Require Import Base RInst Laws LawInst NonlinDiag NonlinModel NonlinSpec NonlinLaws NonlinExact Tuples QrModel QrSpec QrProofs QrSolve.
Import ListNotations.
Local Open Scope R_scope.

Section Ext.
  Variable eps : R.
  Notation o := (Rops eps).
  Variables m n : nat.
  Notation V := (tup R n).
  Notation Rs := (tup R m).
  Notation J := (mat (S:=R) m n).
  Notation H := (mat (S:=R) n n).
  Notation no := (tuple_ops o sqrt m n).
  Notation thin k := (compute_thin o (tvec o k) (ddot eps k) (dnorm eps k)).
  (** A QR object for matrices of n columns: new, or used before. *)
  Definition object : Type := { s : mgs R Rs | usable o s /\ length (mg_A s) = n }.
  Lemma load_ok : forall (j : J) (l : object),
    usable o (mk_mgs (tlist j) (mg_Q (proj1_sig l)) (mg_R (proj1_sig l))) /\
    length (mg_A (mk_mgs (tlist j) (mg_Q (proj1_sig l)) (mg_R (proj1_sig l)))) = n.
  Proof.
    intros j [[A Q U] [Hu Hn]]. cbn [proj1_sig mg_A mg_Q mg_R] in *. split; [|apply tlist_len].
    destruct Hu as [Hu|[q [junk [E1 [E2 [E3 E4]]]]]].
    - left. cbn [mg_A] in *. unfold new_mgs in *. congruence.
    - right. exists q, junk. cbn [mg_A mg_Q mg_R] in *. rewrite tlist_len. rewrite Hn in *. auto.
  Qed.
  Definition load (j : J) (l : object) : object := exist _ _ (load_ok j l).
  Lemma thin_keeps : forall l : object, usable o (snd (thin m (proj1_sig l))) /\ length (mg_A (snd (thin m (proj1_sig l)))) = n.
  Proof.
    intros [s [Hu Hn]]. cbn [proj1_sig]. rewrite (thin_ok o (tvec o m) (ddot eps m) (dnorm eps m) s Hu).
    pose proof (gs_length o (tvec o m) (ddot eps m) (dnorm eps m) (length (mg_A s)) (mg_A s) eq_refl) as L.
    destruct (gs _ _ _ _ _ _) as [[Q U] B]. cbn [snd mg_A]. destruct L as [L1 [L2 [L3 L4]]]. split; [|congruence].
    right. exists Q, U. cbn [mg_Q mg_A mg_R]. rewrite L3. auto.
  Qed.
  Definition factor (l : object) : object := exist _ _ (thin_keeps l).
  Definition new_object : object.
  Proof. exists (new_mgs (tlist (tconst (vzero (tvec o m)) n))). split; [left; reflexivity|cbn; apply tlist_len]. Defined.

  Definition diag_dec : forall U : list (list R), {diag_ok U} + {~ diag_ok U}.
  Proof.
    induction U as [|row U IH]; [left; intros r []|].
    destruct (Req_EM_T (nth 0 row 0) 0) as [h|h].
    - right. intros K. exact (K row (or_introl eq_refl) h).
    - destruct IH as [IH|IH]; [left|right].
      + intros r [<-|Hr]; [exact h|exact (IH r Hr)].
      + intros K. apply IH. intros r Hr. apply K. right. exact Hr.
  Defined.
  Definition tup_dec : forall k (v w : tup R k), {v = w} + {v <> w}.
  Proof.
    induction k as [|k IH]; intros v w; [left; destruct v, w; reflexivity|].
    destruct v as [a v], w as [b w]. destruct (Req_EM_T a b) as [->|h]; [|right; congruence].
    destruct (IH v w) as [->|h]; [left; reflexivity|right; congruence].
  Defined.
  (** solve with a new QR object *)
  Definition direct {k} (a : mat (S:=R) k n) (r : tup R k) : V :=
    match thin k (new_mgs (tlist a)) with
    | (_, mk_mgs _ (Some Q) U) => of_list 0 n (do_lin_solve o U (apply_qt (ddot eps k) Q r))
    | _ => tconst 0 n
    end.
  Variables (wr : Rs -> Rs) (wj : J -> J).
  (** [strict]: throws if the matrix is singular *)
  Definition mgs_exts (strict : bool) : exts V Rs J H object :=
    mk_exts
      (fun j r c l => if strict then if tup_dec m (tapply o j (direct j r)) r then (Ok tt, (direct j r, l)) else (Throw (EUser 0), (c, l))
                      else (Ok tt, (direct j r, l)))
      (fun h g c l => if strict then if tup_dec n (tapply o h (direct h g)) g then (Ok tt, (direct h g, l)) else (Throw (EUser 0), (c, l))
                      else (Ok tt, (direct h g, l)))
      (fun j l => let r := fst (thin m (proj1_sig (load j l))) in
                  let l' := factor (load j l) in
                  (if strict then if diag_dec (snd (factors eps m (tlist j))) then r else Throw (EUser 0) else r, l'))
      (fun r v l => match mg_Q (proj1_sig l) with
                    | Some Q => (Ok tt, (of_list 0 n (apply_qt (ddot eps m) Q r), l))
                    | None => (Undef UNullDeref, (v, l))
                    end)
      (fun q c l => (Ok tt, (of_list 0 n (do_lin_solve o (mg_R (proj1_sig l)) (tlist q)), l)))
      (fun r w l => (Ok tt, (wr r, l)))
      (fun j w l => (Ok tt, (wj j, l))).
  Lemma direct_eq : forall k (a : mat (S:=R) k n) r,
    direct a r = solution eps n (fst (factors eps k (tlist a))) (snd (factors eps k (tlist a))) r.
  Proof.
    intros k a r. unfold direct. rewrite (thin_ok o (tvec o k) (ddot eps k) (dnorm eps k) (new_mgs (tlist a)) (or_introl eq_refl)).
    cbn [mg_A new_mgs]. unfold factors. destruct (gs _ _ _ _ _ _) as [[Q U] B]. reflexivity.
  Qed.
  Lemma direct_exact : forall k (a : mat (S:=R) k n) e,
    (forall e', tapply o a e' = tapply o a e -> e' = e) -> tapply o a (direct a (tapply o a e)) = tapply o a e.
  Proof.
    intros k a e Hu. rewrite direct_eq. apply solution_exact. apply diag_of_indep.
    apply (proj1 (full_rank_indep eps k n a)). intros v Hv.
    pose proof (tvec_space o (R_field eps) n) as HV. pose proof (tvec_space o (R_field eps) k) as HV'.
    assert (K : vadd (tvec o n) e v = e).
    { apply Hu. rewrite (lin_add _ _ _ (tapply_lin o (R_field eps) k n a)), Hv. rewrite (va_comm _ _ HV'). apply (va_0_l _ _ HV'). }
    cbn. pose proof (tuple_inner eps n) as HI. apply (dot_ext _ _ HI). intros z.
    pose proof (f_equal (fun x => tdot o x z) K) as K'. cbv beta in K'. rewrite (in_add _ _ HI) in K'. rewrite (dot_0_l _ _ HI). lra.
  Qed.
  Lemma thin_stored : forall (j : J) (l : object),
    thin m (proj1_sig (load j l)) =
    (Ok tt, snd (thin m (proj1_sig (load j l)))) /\
    mg_Q (proj1_sig (factor (load j l))) = Some (fst (factors eps m (tlist j))) /\
    mg_R (proj1_sig (factor (load j l))) = pad o 0 (snd (factors eps m (tlist j))).
  Proof.
    intros j l. cbn [factor proj1_sig]. rewrite (thin_ok o (tvec o m) (ddot eps m) (dnorm eps m) _ (proj1 (proj2_sig (load j l)))).
    unfold factors. cbn [load proj1_sig mg_A]. destruct (gs _ _ _ _ _ _) as [[Q U] B]. repeat split.
  Qed.
  Lemma qr_chain : forall b (j : J) r v c l l1 q l2 d l3,
    x_thin (mgs_exts b) j l = (Ok tt, l1) -> x_qtr (mgs_exts b) r v l1 = (Ok tt, (q, l2)) ->
    x_rsolve (mgs_exts b) q c l2 = (Ok tt, (d, l3)) ->
    d = solution eps n (fst (factors eps m (tlist j))) (snd (factors eps m (tlist j))) r /\
    (b = true -> diag_ok (snd (factors eps m (tlist j)))).
  Proof.
    intros b j r v c l l1 q l2 d l3 E1 E2 E3. cbn [x_thin x_qtr x_rsolve mgs_exts] in *.
    destruct (thin_stored j l) as [T1 [T2 T3]]. 
    assert (L1 : l1 = factor (load j l)) by congruence. subst l1. rewrite T2 in E2. injection E2 as E2 <-. injection E3 as E3 _.
    subst q. cbn [factor load proj1_sig] in T3. rewrite T3 in E3. rewrite tlist_of in E3.
    - split; [symmetry; exact E3|]. intros ->. destruct (diag_dec _) as [h|h] in E1; [exact h|discriminate].
    - unfold apply_qt. rewrite map_length. unfold factors.
      pose proof (gs_length o (tvec o m) (ddot eps m) (dnorm eps m) (length (tlist j)) (tlist j) eq_refl) as L.
      rewrite tlist_len in *. destruct (gs _ _ _ _ _ _) as [[Q U] B]. cbn in *. tauto.
  Qed.
  Lemma qr_unique_rank : forall (j : J) r e, qr_exact no (tapply o) j r e -> (forall e', qr_exact no (tapply o) j r e' -> e' = e) ->
    full_rank no (tvec o m) (tapply o) j.
  Proof.
    intros j r e [Q [U [Qt [E1 [E2 [E3 E4]]]]]] Hu v Hv.
    pose proof (tuple_inner eps n) as HI. pose proof (tuple_inner eps m) as HJ.
    assert (Ej : tapply o j (vadd (tvec o n) e v) = tapply o j e).
    { rewrite (lin_add _ _ _ (tapply_lin o (R_field eps) m n j)), Hv, (va_comm _ _ (tvec_space o (R_field eps) m)).
      apply (va_0_l _ _ (tvec_space o (R_field eps) m)). }
    assert (EU : U (vadd (tvec o n) e v) = U e).
    { apply (veq_sub _ _ HI). apply (in_zero _ _ HI). set (x := U (vadd (tvec o n) e v)). set (y := U e).
      assert (Exy : Q x = Q y) by (subst x y; rewrite <- !E1; exact Ej).
      cbn [n_dot n_rdot tuple_ops] in E2.
      rewrite ?(in_add _ _ HI), ?(in_scale _ _ HI), ?(dot_add_r _ _ HI), ?(dot_scale_r _ _ HI). rewrite <- !E2, Exy. ring. }
    assert (K : vadd (tvec o n) e v = e).
    { apply Hu. exists Q, U, Qt. split; [exact E1|]. split; [exact E2|]. split; [exact E3|]. rewrite EU. exact E4. }
    cbn. apply (dot_ext _ _ HI). intros z.
    pose proof (f_equal (fun x => tdot o x z) K) as K'. cbv beta in K'. rewrite (in_add _ _ HI) in K'. rewrite (dot_0_l _ _ HI). lra.
  Qed.
  (** Solves every system with exactly one solution, and never fails. *)
  Theorem mgs_linear : linear_ok (mgs_exts false) (if_solvable (normal_exact (tapply o))) (if_solvable (qr_exact no (tapply o)))
    (if_solvable (newton_exact (tapply o))) nothing.
  Proof.
    split.
    - intros h g c l d l' E. cbn in E. injection E as <- _. intros [e [He Hu]]. unfold normal_exact in *. subst g. apply direct_exact. exact Hu.
    - intros j r v c l l1 q l2 d l3 E1 E2 E3 [e [He Hu]]. destruct (qr_chain false _ _ _ _ _ _ _ _ _ _ E1 E2 E3) as [-> _].
      apply solution_qr. apply diag_of_indep. apply (proj1 (full_rank_indep eps m n j)). exact (qr_unique_rank j r e He Hu).
    - intros j r c l d l' E. cbn in E. injection E as <- _. intros [e [He Hu]]. unfold newton_exact in *. subst r. apply direct_exact. exact Hu.
    - intros h g c l e z E Hn. cbn in E. congruence.
    - intros j l e z E Hn. cbn [x_thin mgs_exts] in E. destruct (thin_stored j l) as [T _]. rewrite T in E. cbn in E. congruence.
    - intros j l0 r v l e z E1 E Hn. cbn [x_thin x_qtr mgs_exts] in *. destruct (thin_stored j l0) as [_ [T _]].
      assert (L1 : l = factor (load j l0)) by congruence. subst l. rewrite T in E. congruence.
    - intros j l0 r v l1 q c l e z _ _ E Hn. cbn in E. congruence.
    - intros j r c l e z E Hn. cbn in E. congruence.
  Qed.
  (** What it finds is a solution, else it throws. *)
  Theorem mgs_linear_strict : linear_ok (mgs_exts true) (normal_exact (tapply o)) (qr_exact no (tapply o)) (newton_exact (tapply o)) anything.
  Proof.
    split; try (intros; exact I).
    - intros h g c l d l' E. cbn [x_normal mgs_exts] in E. destruct (tup_dec n _ _) as [h0|h0] in E; [|discriminate]. injection E as <- _. exact h0.
    - intros j r v c l l1 q l2 d l3 E1 E2 E3. destruct (qr_chain true _ _ _ _ _ _ _ _ _ _ E1 E2 E3) as [-> Hd]. apply solution_qr. apply Hd. reflexivity.
    - intros j r c l d l' E. cbn [x_newton mgs_exts] in E. destruct (tup_dec m _ _) as [h0|h0] in E; [|discriminate]. injection E as <- _. exact h0.
  Qed.
  Lemma qr_solves : forall (j : J) r v c l l1 q l2 d l3, full_rank no (tvec o m) (tapply o) j ->
    x_thin (mgs_exts false) j l = (Ok tt, l1) -> x_qtr (mgs_exts false) r v l1 = (Ok tt, (q, l2)) ->
    x_rsolve (mgs_exts false) q c l2 = (Ok tt, (d, l3)) -> qr_exact no (tapply o) j r d.
  Proof.
    intros j r v c l l1 q l2 d l3 Hf E1 E2 E3. destruct (qr_chain false _ _ _ _ _ _ _ _ _ _ E1 E2 E3) as [-> _].
    apply solution_qr. apply diag_of_indep. apply (proj1 (full_rank_indep eps m n j)). exact Hf.
  Qed.
  Lemma mgs_weights : forall b, weights_ok (mgs_exts b) wr wj nothing.
  Proof. intros b. split; intros; cbn in *; congruence. Qed.
End Ext.

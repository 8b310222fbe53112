(** Least squares and Gauss-Newton with the QR objects for Eigen matrices. *)
From Coq Require Import Reals ZArith List Bool Lia Lra.
From Verif Require Import Base RInst Laws LawInst NonlinDiag NonlinModel NonlinSpec NonlinLaws NonlinExact NonlinRest Tuples
  QrModel QrSpec QrProofs QrSolve QrExts QrEnd HouseModel HouseSpec HouseProofs HouseSolve.
Import ListNotations.
Local Open Scope R_scope.

Section Rank.
  Variable eps : R.
  Notation o := (Rops eps).
  Lemma rank_le : forall m n (j : mat (S:=R) m n), full_rank (tuple_ops o sqrt m n) (tvec o m) (tapply o) j -> (n <= m)%nat.
  Proof.
    intros m n j Hf. destruct (le_lt_dec n m) as [h|h]; [exact h|exfalso].
    destruct (dependent eps m (tlist j)) as [cs [E1 [[x [Hx Hx0]] E3]]]; [rewrite tlist_len; exact h|].
    apply Hx0. exact (proj1 (full_rank_indep eps m n j) Hf cs E1 E3 x Hx).
  Qed.
  Lemma dense_shape : forall m n (j : mat (S:=R) m n), well_shaped (dense j) /\ dm_rows (dense j) = m /\ dm_ncols (dense j) = n.
  Proof.
    intros m n j. split; [|split; [reflexivity|unfold dm_ncols; cbn; rewrite map_length; apply tlist_len]].
    intros c Hc. cbn in *. apply in_map_iff in Hc. destruct Hc as [v [<- _]]. apply tlist_len.
  Qed.
  Lemma prods_eq {V} (vo : vops R V) : forall C A Q k, length A = length C ->
    (forall i a c, nth_error A i = Some a -> nth_error C i = Some c -> a = lincomb vo (firstn (Datatypes.S (k + i)) c) Q) -> A = prods vo k C Q.
  Proof.
    induction C as [|c C IH]; intros [|a A] Q k HL H; try discriminate; [reflexivity|]. cbn [prods]. f_equal.
    - rewrite (H 0%nat a c eq_refl eq_refl), Nat.add_0_r. reflexivity.
    - apply IH; [injection HL as HL; exact HL|]. intros i a' c' Ha Hc. rewrite (H (Datatypes.S i) a' c' Ha Hc). do 3 f_equal. lia.
  Qed.
  Lemma zeros_tup : forall n (v : tup R n), tlist v = repeat 0 n <-> v = vzero (tvec o n).
  Proof.
    induction n as [|n IH]; intros v; [destruct v; split; reflexivity|]. destruct v as [a v]. cbn. split.
    - intros E. injection E as -> E. f_equal. apply (proj1 (IH v)). exact E.
    - intros E. injection E as -> E. f_equal. apply (proj2 (IH v)). exact E.
  Qed.
End Rank.

Section Ls.
  Variable eps : R.
  Notation o := (Rops eps).
  Variable hh : dmat R -> dmat R * dmat R.
  Hypothesis HH : householder eps hh.
  Section One.
    Variables m n : nat.
    Variable j : mat (S:=R) m n.
    Notation no := (tuple_ops o sqrt m n).
    Hypothesis Hf : full_rank no (tvec o m) (tapply o) j.
    Lemma house_factors : exists (Q : mat (S:=R) m n) C,
      snd (hh (dense j)) = mk_dmat m C /\ length C = n /\ (forall c, In c C -> length c = m) /\ (n <= m)%nat /\
      thin_part o m n (fst (hh (dense j))) = dense Q /\ orthonormal (ddot eps m) (tlist Q) /\ diag_ok (urows n C) /\
      tlist j = prods (tvec o m) 0 C (tlist Q) /\
      (forall v, tapply o j v = lincomb (tvec o m) (trimul (eps:=eps) (urows n C) (tlist v)) (tlist Q)).
    Proof.
      destruct (dense_shape m n j) as (S1 & S2 & S3). destruct (hh_shape HH (dense j) S1) as (T1 & T2 & T3 & T4 & T5 & T6).
      rewrite S2 in *. rewrite S3 in *. destruct (hh_factors HH m n j Hf) as (Q & Q1 & Q2 & Q3).
      pose proof (rank_le eps m n j Hf) as Hle. exists Q, (dm_cols (snd (hh (dense j)))).
      assert (P : tlist j = prods (tvec o m) 0 (dm_cols (snd (hh (dense j)))) (tlist Q)).
      { apply prods_eq; [rewrite tlist_len; symmetry; exact T5|]. intros i a c Ha Hc. exact (Q3 i a c Ha Hc). }
      assert (AP : forall v, tapply o j v = lincomb (tvec o m) (trimul (eps:=eps) (urows n (dm_cols (snd (hh (dense j))))) (tlist v)) (tlist Q)).
      { intros v. rewrite <- comb_apply, P. apply (prods_comb (eps:=eps) (tvec o m) (ddot eps m) (tuple_inner eps m)); rewrite ?tlist_len; auto.
        intros c Hc. specialize (T6 c Hc). rewrite T4 in T6. lia. }
      split; [destruct (snd (hh (dense j))) as [r c]; cbn in *; subst r; reflexivity|].
      split; [exact T5|]. split; [intros c Hc; specialize (T6 c Hc); congruence|]. split; [exact Hle|].
      split; [|split; [exact Q2|]; split; [|split; [exact P|exact AP]]].
      - unfold thin_part. apply (f_equal (mk_dmat m)). unfold dm_ncols in T2. rewrite T2. replace (n - m)%nat with 0%nat by lia. cbn [repeat]. rewrite app_nil_r. exact Q1.
      - apply (injective_diag (eps:=eps) _ n); [apply urows_tri; exact T5|]. intros y Hy E.
        rewrite <- (tlist_of 0 n y Hy) in E |- *. apply (zeros_tup eps). apply Hf. rewrite AP, E.
        assert (Z : forall k (A : list (tup R m)), lincomb (tvec o m) (repeat 0 k) A = vzero (tvec o m)).
        { pose proof (tuple_inner eps m) as HI. induction k as [|k IH]; intros [|a A]; try reflexivity. cbn [repeat lincomb]. rewrite IH.
          apply (dot_ext _ _ HI). intros z. rewrite (in_add _ _ HI), (in_scale _ _ HI). rewrite (dot_0_l _ _ HI). ring. }
        apply Z.
    Qed.
    (** What the object answers after the factorisation of j. *)
    Lemma house_answers : exists (Q : mat (S:=R) m n) C,
      length C = n /\ (forall c, In c C -> length c = m) /\ (n <= m)%nat /\
      orthonormal (ddot eps m) (tlist Q) /\ diag_ok (urows n C) /\
      tlist j = prods (tvec o m) 0 C (tlist Q) /\
      (forall v, tapply o j v = lincomb (tvec o m) (trimul (eps:=eps) (urows n C) (tlist v)) (tlist Q)) /\
      forall st h, valid (st, h) -> exists g, compute_house o hh (dense j) (st, h) = (Ok tt, g) /\ valid g /\
        q_factor g = (Ok (dense Q), g) /\
        (forall (r : tup R m) vout, length vout = n -> apply_qt_house o (tlist r) vout g = (Ok (apply_qt (ddot eps m) (tlist Q) r), g)) /\
        (forall rhs y, length rhs = n -> length y = n ->
           solve_house o rhs y g = (Ok (do_lin_solve o (pad o 0 (urows n C)) rhs), g) /\
           apply_rt_house o rhs y g = (Ok (map (fun c => sum_products o c rhs) (map (fun k => firstn (Datatypes.S k) (nth k C [])) (seq 0 n))), g)).
    Proof.
      destruct house_factors as (Q & C & M & L & W & Hle & T & Or & D & P & AP). exists Q, C. do 7 (split; [assumption|]).
      destruct (dense_shape m n j) as (S1 & S2 & S3).
      assert (PE : forall (x y : list R) (g : hst (S:=R)), x = y -> (Ok x, g) = (Ok y, g)) by congruence.
      intros st h V. destruct (compute_ok o hh (dense j) st h V) as (st' & p & E & N & _). rewrite S2, S3, T in N.
      eexists. split; [exact E|]. split; [unfold valid; cbn; apply nth_error_Some; congruence|].
      assert (QF : q_factor (st', mk_house (Some p) (Some (hh (dense j)))) = (Ok (dense Q), (st', mk_house (Some p) (Some (hh (dense j)))))).
      { apply q_factor_at. exact N. }
      assert (B : block o n (snd (hh (dense j))) = Some (map (fun k => map (fun c => nth k c 0) C) (seq 0 n))).
      { rewrite M. unfold block, dm_ncols. cbn [dm_rows dm_cols]. rewrite L. rewrite (proj2 (Nat.leb_le n m) Hle), Nat.leb_refl. cbn [andb].
        replace (firstn n C) with C by (rewrite <- L; symmetry; apply firstn_all). reflexivity. }
      split; [exact QF|]. split.
      - intros r vout Hv. unfold apply_qt_house. rewrite QF. destruct (dense_shape m n Q) as (_ & D2 & D3). rewrite D2, D3, tlist_len, Hv, !Nat.eqb_refl.
        cbn [andb]. do 2 f_equal. cbn [dense dm_cols]. rewrite map_map. unfold apply_qt. apply map_ext. intros q. apply sp_tdot.
      - intros rhs y Hr Hy. split.
        + unfold solve_house. cbn [h_fct]. destruct (hh (dense j)) as [F M'] eqn:EH. cbn [snd] in B. rewrite Hy, B, Hr, Nat.eqb_refl. rewrite block_solve. reflexivity.
        + unfold apply_rt_house. cbn [h_fct]. destruct (hh (dense j)) as [F M'] eqn:EH. cbn [snd] in B. rewrite Hy, B, Hr, Nat.eqb_refl. apply PE.
          rewrite map_map. apply map_ext_in. intros k Hk. apply in_seq in Hk. unfold rt_entry. f_equal.
          rewrite <- firstn_map, map_map.
          assert (Hin : In (nth k C []) C) by (apply nth_In; lia). pose proof (W _ Hin) as Lk.
          transitivity (firstn (Datatypes.S k) (map (fun i => nth i (nth k C []) 0) (seq 0 n))).
          * f_equal. apply map_ext_in. intros i Hi. 
            rewrite (nth_indep _ (s0 o) (nth i [] 0)) by (rewrite map_length; lia). rewrite (map_nth (fun c => nth i c 0)). reflexivity.
          * assert (G : forall (l : list R) s, map (fun i => nth i l 0) (seq s (length l - s)) = skipn s l).
            { intros l. assert (G0 : forall k s, (s + k = length l)%nat -> map (fun i => nth i l 0) (seq s k) = skipn s l).
              { induction k0 as [|k0 IH]; intros s Hs; [rewrite skipn_all2 by lia; reflexivity|]. cbn [seq map]. rewrite IH by lia.
                rewrite nth_skipn, <- tl_skipn. assert (length (skipn s l) = Datatypes.S k0) by (rewrite skipn_length; lia).
                destruct (skipn s l); [discriminate|reflexivity]. }
              intros s. destruct (le_lt_dec s (length l)) as [h0|h0]; [apply G0; lia|]. replace (length l - s)%nat with 0%nat by lia.
              rewrite skipn_all2 by lia. reflexivity. }
            rewrite firstn_map. replace (firstn (Datatypes.S k) (seq 0 n)) with (firstn (Datatypes.S k) (seq 0 m)).
            { rewrite <- firstn_map. f_equal. specialize (G (nth k C []) 0%nat). cbn [skipn] in G. rewrite Nat.sub_0_r, Lk in G. exact G. }
            replace m with (n + (m - n))%nat by lia. rewrite seq_app, firstn_app, seq_length. replace (Datatypes.S k - n)%nat with 0%nat by lia.
            cbn [firstn]. apply app_nil_r.
    Qed.
    (** Q^T r, then the triangular solve: the least-squares solution. *)
    Lemma house_solution : exists d : tup R m -> tup R n, (forall r, qr_exact no (tapply o) j r (d r)) /\
      (forall e, tapply o j (d (tapply o j e)) = tapply o j e) /\
      forall st h r vout y, valid (st, h) -> length vout = n -> length y = n ->
      exists g q, compute_house o hh (dense j) (st, h) = (Ok tt, g) /\ valid g /\ apply_qt_house o (tlist r) vout g = (Ok q, g) /\
        length q = n /\ solve_house o q y g = (Ok (tlist (d r)), g).
    Proof.
      destruct house_answers as (Q & C & L & W & Hle & Or & D & P & AP & K).
      assert (LQ : length (tlist Q) = n) by apply tlist_len. pose proof (urows_tri n C L) as Tr.
      exists (fun r => solution eps n (tlist Q) (urows n C) r). split; [|split].
      - intros r. apply (any_solution_qr eps m n j (tlist Q) (urows n C)); assumption.
      - intros e. apply (any_solution_exact eps m n j (tlist Q) (urows n C)); assumption.
      - intros st h r vout y V Hv Hy. destruct (K st h V) as (g & E & Vg & _ & Kq & Ks).
        exists g, (apply_qt (ddot eps m) (tlist Q) r). split; [exact E|]. split; [exact Vg|]. split; [exact (Kq r vout Hv)|].
        assert (Lq : length (apply_qt (ddot eps m) (tlist Q) r) = n) by (unfold apply_qt; rewrite map_length; exact LQ).
        split; [exact Lq|]. rewrite (proj1 (Ks _ y Lq Hy)).
        unfold solution. rewrite tlist_of; [reflexivity|].
        exact (proj2 (any_solution_eq eps m n (tlist Q) (urows n C) LQ Tr D r)).
    Qed.
    (** As seen by the user: A d is the point of the range of A closest to r. *)
    Lemma house_least_squares : forall st h (r : tup R m) vout y, valid (st, h) -> length vout = n -> length y = n ->
      exists g q d, compute_house o hh (dense j) (st, h) = (Ok tt, g) /\ apply_qt_house o (tlist r) vout g = (Ok q, g) /\
        solve_house o q y g = (Ok (tlist d), g) /\
        forall z, n_rnorm no (vadd (tvec o m) (tapply o j d) (vscale (tvec o m) (-1) r)) <=
                  n_rnorm no (vadd (tvec o m) (tapply o j z) (vscale (tvec o m) (-1) r)).
    Proof.
      destruct house_solution as (d & Hq & _ & K). intros st h r vout y V Hv Hy.
      destruct (K st h r vout y V Hv Hy) as (g & q & E1 & _ & E2 & _ & E3). exists g, q, (d r). do 3 (split; [assumption|]).
      pose proof (tuple_laws eps m n) as HL. pose proof (tuple_inner eps m) as HR.
      pose proof (minimiser no (tvec o m) (tapply o) (tapply o) HL j r (d r)
        (qr_normal no (tvec o m) (tapply o) (tapply o) HL j r (d r) (Hq r))) as Hm.
      assert (NN : forall z, n_rnorm no (model_residual (tvec o m) (tapply o) j r (vscale (tvec o n) (-1) z)) =
                             n_rnorm no (vadd (tvec o m) (tapply o j z) (vscale (tvec o m) (-1) r))).
      { intros z. unfold model_residual. rewrite (lin_scale _ _ _ (tapply_lin o (R_field eps) m n j)).
        rewrite !(nl_rnorm _ _ _ _ _ HL). cbn [n_rdot tuple_ops]. f_equal.
        rewrite ?(in_add _ _ HR), ?(in_scale _ _ HR), ?(dot_add_r _ _ HR), ?(dot_scale_r _ _ HR). rewrite (in_sym _ _ HR r (tapply o j z)). ring. }
      intros z. rewrite <- !NN. exact (Hm (vscale (tvec o n) (-1) z)).
    Qed.
    (** Q has orthonormal columns; R^T (Q^T r) = A^T r. *)
    Lemma house_transpose : forall st h (r : tup R m) vout y, valid (st, h) -> length vout = n -> length y = n ->
      exists g (Q : mat (S:=R) m n) q, compute_house o hh (dense j) (st, h) = (Ok tt, g) /\
        q_factor g = (Ok (dense Q), g) /\ orthonormal (ddot eps m) (tlist Q) /\
        apply_qt_house o (tlist r) vout g = (Ok q, g) /\ q = map (fun c => ddot eps m c r) (tlist Q) /\
        apply_rt_house o q y g = (Ok (map (fun c => ddot eps m c r) (tlist j)), g).
    Proof.
      intros st h r vout y V Hv Hy. destruct house_answers as (Q & C & L & W & Hle & Or & D & P & AP & K).
      destruct (K st h V) as (g & E & Vg & KQ & Kq & Ks). exists g, Q, (apply_qt (ddot eps m) (tlist Q) r).
      split; [exact E|]. split; [exact KQ|]. split; [exact Or|]. split; [exact (Kq r vout Hv)|]. split; [reflexivity|].
      assert (Lq : length (apply_qt (ddot eps m) (tlist Q) r) = n) by (unfold apply_qt; rewrite map_length; apply tlist_len).
      rewrite (proj2 (Ks _ y Lq Hy)). apply (f_equal (fun x => (Ok x, g))). rewrite P.
      pose proof (tuple_inner eps m) as HI.
      assert (SC : forall a b, sum_products o a b = sum_products o b a).
      { induction a as [|x a IH]; intros [|z b]; try reflexivity. cbn [sum_products]. rewrite IH.
        change (smul o) with Rmult. rewrite (Rmult_comm x z). reflexivity. }
      assert (G : forall l k, length l = (n - k)%nat -> (forall i, (i < length l)%nat -> nth i l [] = nth (k + i) C []) ->
        map (fun c => sum_products o c (apply_qt (ddot eps m) (tlist Q) r)) (map (fun i => firstn (Datatypes.S i) (nth i C [])) (seq k (length l))) =
        map (fun c => ddot eps m c r) (prods (tvec o m) k l (tlist Q))).
      { induction l as [|c l IH]; intros k Hl Hn; [reflexivity|]. cbn [length seq map prods]. f_equal.
        - rewrite SC, (sp_qt (eps:=eps) (tvec o m) (ddot eps m) HI). refine (eq_trans (in_sym _ _ HI _ _) _).
          pose proof (Hn 0%nat) as H0. cbn [nth length] in H0. rewrite Nat.add_0_r in H0. rewrite <- H0 by lia. reflexivity.
        - apply IH; [cbn in Hl; lia|]. intros i Hi. specialize (Hn (Datatypes.S i)). cbn [nth length] in Hn. rewrite Hn by lia. f_equal. lia. }
      specialize (G C 0%nat). rewrite Nat.sub_0_r in G. specialize (G L). rewrite L in G. apply G. intros i _. reflexivity.
    Qed.
  End One.
End Ls.

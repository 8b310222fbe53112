(** A factorisation that meets [householder], and what copies of a QR object do. *)
From Coq Require Import Reals ZArith List Bool Lia Lra.
From Verif Require Import Base RInst Laws LawInst NonlinDiag NonlinModel NonlinSpec NonlinLaws NonlinExact NonlinRest Tuples
  QrModel QrSpec QrProofs QrSolve QrExts QrEnd HouseModel HouseSpec HouseProofs HouseSolve HouseEnd.
Import ListNotations.
Local Open Scope R_scope.

Section Inst.
  Variable eps : R.
  Notation o := (Rops eps).
  (** Gram-Schmidt, with the factors stored the way Eigen stores them. *)
  Definition hh_gs (a : dmat R) : dmat R * dmat R :=
    let r := dm_rows a in
    let s := snd (compute_thin o (tvec o r) (ddot eps r) (dnorm eps r) (new_mgs (map (of_list 0 r) (dm_cols a)))) in
    (mk_dmat r (firstn r (match mg_Q s with Some Q => map tlist Q | None => [] end ++ repeat (repeat 0 r) r)),
     mk_dmat r (map (fun j => firstn r (column (mg_R s) j ++ repeat 0 r)) (seq 0 (dm_ncols a)))).
  Lemma comb_firstn : forall V (vo : vops R V) (dot : V -> V -> R), inner eps vo dot -> forall k cs (Q : list V),
    (forall i, (k <= i)%nat -> nth i cs 0 = 0) -> lincomb vo (firstn k cs) Q = lincomb vo cs Q.
  Proof.
    intros V vo dot HI. induction k as [|k IH]; intros [|c cs] [|q Q] Hz; try reflexivity.
    - cbn [firstn lincomb]. pose proof (Hz 0%nat (le_n 0)) as H0. cbn [nth] in H0. subst c.
      assert (Z : forall cs (Q : list V), (forall i, nth i cs 0 = 0) -> lincomb vo cs Q = vzero vo).
      { induction cs0 as [|c cs0 IHc]; intros [|q0 Q0] H; try reflexivity. cbn [lincomb].
        pose proof (H 0%nat) as H0. cbn [nth] in H0. subst c. rewrite IHc by (intros i; exact (H (Datatypes.S i))).
        apply (dot_ext _ _ HI). intros z. rewrite (in_add _ _ HI), (in_scale _ _ HI), (dot_0_l _ _ HI). ring. }
      rewrite Z by (intros i; exact (Hz (Datatypes.S i) (Nat.le_0_l _))).
      apply (dot_ext _ _ HI). intros z. rewrite (in_add _ _ HI), (in_scale _ _ HI), (dot_0_l _ _ HI). ring.
    - cbn [firstn lincomb]. f_equal. apply IH. intros i Hi. exact (Hz (Datatypes.S i) (le_n_S _ _ Hi)).
  Qed.
  Theorem hh_gs_ok : householder eps hh_gs.
  Proof.
    split.
    - intros a Ha. unfold hh_gs. set (s := snd _). unfold dm_ncols. cbn [fst snd dm_rows dm_cols].
      assert (Wq : forall c, In c (match mg_Q s with Some Q => map tlist Q | None => [] end) -> length c = dm_rows a).
      { destruct (mg_Q s) as [Q|]; [|intros c []]. intros c Hc. apply in_map_iff in Hc. destruct Hc as [v [<- _]]. apply tlist_len. }
      repeat split.
      + rewrite firstn_length, app_length, repeat_length. lia.
      + intros c Hc. cbn [dm_cols dm_rows] in *.
        assert (Hc' : In c (match mg_Q s with Some Q => map tlist Q | None => [] end ++ repeat (repeat 0 (dm_rows a)) (dm_rows a))).
        { revert Hc. generalize (match mg_Q s with Some Q => map tlist Q | None => [] end ++ repeat (repeat 0 (dm_rows a)) (dm_rows a)) as l.
          intros l Hc. rewrite <- (firstn_skipn (dm_rows a) l). apply in_or_app. left. exact Hc. }
        apply in_app_or in Hc'. destruct Hc' as [Hc'|Hc']; [exact (Wq c Hc')|]. apply repeat_spec in Hc'. subst c. apply repeat_length.
      + rewrite map_length, seq_length. reflexivity.
      + intros c Hc. cbn [dm_cols dm_rows] in *. apply in_map_iff in Hc. destruct Hc as [k [<- _]]. rewrite firstn_length, app_length, repeat_length. lia.
    - intros m n j Hf. pose proof (rank_le eps m n j Hf) as Hle. pose proof (tuple_inner eps m) as HI.
      assert (EA : map (of_list 0 m) (dm_cols (dense j)) = tlist j).
      { cbn [dense dm_cols]. rewrite map_map. transitivity (map (fun x => x) (tlist j)); [|apply map_id]. apply map_ext. intros v. apply of_tlist. }
      destruct (mgs_qr (tvec o m) (ddot eps m) HI (dnorm eps m) (fun v => eq_refl) (new_mgs (tlist j)) (or_introl eq_refl)
        (proj1 (full_rank_indep eps m n j) Hf)) as (B & Q & U & E & K & _). cbn [mg_A new_mgs] in K.
      assert (LQ : length Q = n) by (rewrite (qr_cols _ _ _ _ _ K); apply tlist_len).
      assert (LU : length U = n) by (rewrite (qr_rows _ _ _ _ _ K); apply tlist_len).
      unfold hh_gs. replace (dm_rows (dense j)) with m by reflexivity. rewrite EA, E. cbn [snd fst mg_Q mg_R dm_cols].
      exists (of_list (vzero (tvec o m)) n Q). rewrite (tlist_of _ n Q LQ). split; [|split; [exact (qr_orthonormal _ _ _ _ _ K)|]].
      + rewrite firstn_firstn, (Nat.min_l n m Hle). rewrite firstn_app, map_length, LQ, Nat.sub_diag. cbn [firstn]. rewrite app_nil_r.
        rewrite <- LQ, <- (map_length tlist Q). apply firstn_all.
      + intros k a c Ha Hc. assert (Hk : (k < n)%nat).
        { rewrite <- (tlist_len n j). apply nth_error_Some. congruence. }
        rewrite (proj2 (proj2 (dense_shape eps m n j))) in Hc || rewrite (proj2 (proj2 (dense_shape m n j))) in Hc.
        pose proof (map_nth_error (fun j0 => firstn m (column U j0 ++ repeat 0 m)) k (seq 0 n) (d := k)) as N.
        rewrite N in Hc by (rewrite (nth_error_nth' _ 0%nat) by (rewrite seq_length; exact Hk); rewrite seq_nth by exact Hk; reflexivity).
        injection Hc as <-. rewrite firstn_firstn, (Nat.min_l (Datatypes.S k) m) by lia.
        assert (LC : length (column U k) = n) by (unfold column; rewrite map_length; exact LU).
        rewrite firstn_app, LC. replace (Datatypes.S k - n)%nat with 0%nat by lia. rewrite firstn_O, app_nil_r.
        rewrite (comb_firstn _ _ _ HI); [exact (qr_product _ _ _ _ _ K k a Ha)|].
        intros i Hi. destruct (le_lt_dec (length U) i) as [h|h].
        * apply nth_overflow. unfold column. rewrite map_length. exact h.
        * unfold column. rewrite (nth_indep _ 0 ((fun row => nth k row 0) [])) by (rewrite map_length; exact h).
          rewrite (map_nth (fun row => nth k row 0)). exact (qr_upper _ _ _ _ _ K i k Hi).
  Qed.
End Inst.
Section Copy.
  Variable eps : R.
  Notation o := (Rops eps).
  Variable hh : dmat R -> dmat R * dmat R.
  Hypothesis HH : householder eps hh.
  Notation no := (tuple_ops o sqrt 2 1).
  Definition col (x y : R) : mat (S:=R) 2 1 := ((x, (y, tt)), tt).
  Lemma col_rank : forall x y, x <> 0 \/ y <> 0 -> full_rank no (tvec o 2) (tapply o) (col x y).
  Proof.
    intros x y Hxy [v []] E. cbn in E. injection E as E1 E2. change (v * x + 0 = 0) in E1. change (v * y + 0 = 0) in E2.
    cbn. f_equal. change (v = 0). destruct Hxy as [Hx|Hy].
    - apply (Rmult_eq_reg_r x); [lra|exact Hx].
    - apply (Rmult_eq_reg_r y); [lra|exact Hy].
  Qed.
  Lemma copy_zero : exists st1 h1 st2 h2, compute_house o hh (dense (col 1 0)) ([], new_house) = (Ok tt, (st1, h1)) /\
    compute_house o hh (dense (col 0 1)) (st1, h1) = (Ok tt, (st2, h2)) /\
    fst (apply_qt_house o [1; 0] [0] (st2, h1)) = Ok [0] /\ fst (solve_house o [0] [0] (st2, h1)) = Ok [0] /\
    fst (apply_qt_house o [1; 0] [0] (st1, h1)) <> Ok [0].
  Proof.
    assert (F1 : full_rank no (tvec o 2) (tapply o) (col 1 0)) by (apply col_rank; left; lra).
    assert (F2 : full_rank no (tvec o 2) (tapply o) (col 0 1)) by (apply col_rank; right; lra).
    destruct (house_answers eps hh HH 2 1 (col 1 0) F1) as (Q1 & C1 & L1 & W1 & _ & O1 & _ & P1 & _ & K1).
    destruct (K1 [] new_house I) as ([st1 h1] & E1 & V1 & _ & A1 & S1).
    destruct (house_answers eps hh HH 2 1 (col 0 1) F2) as (Q2 & C2 & L2 & _ & _ & O2 & _ & P2 & _ & K2).
    destruct (K2 st1 h1 V1) as ([st2' h2'] & E2' & V2 & Q2' & A2 & S2).
    destruct (copy_same_size o hh (dense (col 1 0)) (dense (col 0 1)) [] new_house st1 h1 I E1 (or_introl eq_refl)) as (st2 & h2 & E2 & QF & Eh).
    rewrite E2 in E2'. injection E2' as <- <-.
    exists st1, h1, st2, h2. split; [exact E1|]. split; [exact E2|].
    destruct Q1 as [[p1 [p2 []]] []], Q2 as [[q1 [q2 []]] []].
    destruct C1 as [|c1 [|]]; try discriminate. destruct C2 as [|c2 [|]]; try discriminate.
    assert (q1 = 0).
    { cbn in P2. destruct c2 as [|x c2]; [cbn in P2; injection P2 as P2; lra|]. cbn in P2. injection P2 as P2 P3.
      change (0 = x * q1 + 0) in P2. change (1 = x * q2 + 0) in P3.
      destruct (Req_dec x 0) as [->|hx]; [lra|]. apply (Rmult_eq_reg_l x); [lra|exact hx]. }
    assert (p1 <> 0).
    { intros ->. cbn in P1. destruct c1 as [|x c1]; [cbn in P1; injection P1 as P1; lra|]. cbn in P1. injection P1 as P1 _.
      change (1 = x * 0 + 0) in P1. lra. }
    subst q1.
    split; [|split].
    - assert (X : fst (apply_qt_house o [1; 0] [0] (st2, h1)) = fst (apply_qt_house o [1; 0] [0] (st2, h2))).
      { subst h2. unfold apply_qt_house. cbn [q_factor h_Q]. destruct (h_Q h1) as [p|]; [|reflexivity]. destruct (nth_error st2 p); [|reflexivity]. destruct (_ && _); reflexivity. }
      rewrite X. pose proof (A2 (1, (0, tt)) [0] eq_refl) as Y. cbn [tlist] in Y.
      refine (eq_trans (f_equal fst Y) _). cbn [fst]. unfold apply_qt. cbn [tlist map]. do 2 f_equal.
      change (0 * 1 + (q2 * 0 + 0) = 0). ring.
    - rewrite (proj1 (copy_keeps_r o hh (dense (col 0 1)) st1 h1 _ st2 h2 [0] [0] E2)).
      pose proof (proj1 (S1 [0] [0] eq_refl eq_refl)) as Y. refine (eq_trans (f_equal fst Y) _). cbn [fst]. f_equal.
      cbn. f_equal. unfold Rdiv. ring.
    - pose proof (A1 (1, (0, tt)) [0] eq_refl) as Y. cbn [tlist] in Y. intros E. pose proof (eq_trans (eq_sym E) (f_equal fst Y)) as Z. cbn [fst] in Z. injection Z as Z.
      change (0 = p1 * 1 + (p2 * 0 + 0)) in Z. lra.
  Qed.
  Lemma copy_refuted : ~ (forall (a b : dmat R) st h st1 h1 st2 h2, well_shaped a -> well_shaped b -> valid (st, h) ->
    compute_house o hh a (st, h) = (Ok tt, (st1, h1)) -> compute_house o hh b (st1, h1) = (Ok tt, (st2, h2)) ->
    same_answers o (st2, h1) (st1, h1)).
  Proof.
    intros K. destruct copy_zero as (st1 & h1 & st2 & h2 & E1 & E2 & A1 & _ & A2).
    destruct (K _ _ _ _ _ _ _ _ (proj1 (dense_shape 2 1 (col 1 0))) (proj1 (dense_shape 2 1 (col 0 1))) (I : valid ([], new_house)) E1 E2) as (_ & Q & _).
    apply A2. rewrite <- Q. exact A1.
  Qed.
  Lemma copy_solution_refuted : ~ (forall m n (j b : mat (S:=R) m n) (r : tup R m) st h st1 h1 st2 h2 q d,
    let nn := tuple_ops o sqrt m n in
    full_rank nn (tvec o m) (tapply o) j -> full_rank nn (tvec o m) (tapply o) b -> valid (st, h) ->
    compute_house o hh (dense j) (st, h) = (Ok tt, (st1, h1)) -> compute_house o hh (dense b) (st1, h1) = (Ok tt, (st2, h2)) ->
    fst (apply_qt_house o (tlist r) (repeat 0 n) (st2, h1)) = Ok q ->
    fst (solve_house o q (repeat 0 n) (st2, h1)) = Ok (tlist d) ->
    forall z, n_rnorm nn (vadd (tvec o m) (tapply o j d) (vscale (tvec o m) (-1) r)) <=
              n_rnorm nn (vadd (tvec o m) (tapply o j z) (vscale (tvec o m) (-1) r))).
  Proof.
    intros K. destruct copy_zero as (st1 & h1 & st2 & h2 & E1 & E2 & A1 & A2 & _).
    specialize (K 2%nat 1%nat (col 1 0) (col 0 1) (1, (0, tt)) [] new_house st1 h1 st2 h2 [0] (0, tt)
      (col_rank 1 0 (or_introl R1_neq_R0)) (col_rank 0 1 (or_intror R1_neq_R0)) I E1 E2 A1 A2 (1, tt)).
    rewrite !(nl_rnorm _ _ _ _ _ (tuple_laws eps 2 1)) in K. apply sqrt_le_0 in K; cbn in *; lra.
  Qed.
End Copy.

(** The nonlinear solvers with the QR objects for Eigen matrices. *)
From Coq Require Import Reals ZArith List Bool Lia Lra.
From Verif Require Import Base RInst Laws LawInst NonlinDiag NonlinModel NonlinSpec NonlinLaws NonlinExact NonlinRest Tuples
  QrModel QrSpec QrProofs QrSolve QrExts QrEnd HouseModel HouseSpec HouseProofs HouseSolve HouseEnd.
Import ListNotations.
Local Open Scope R_scope.

Section Ext.
  Variable eps : R.
  Notation o := (Rops eps).
  Variable hh : dmat R -> dmat R * dmat R.
  Variables m n : nat.
  Notation V := (tup R n).
  Notation Rs := (tup R m).
  Notation J := (mat (S:=R) m n).
  Notation H := (mat (S:=R) n n).
  Notation no := (tuple_ops o sqrt m n).
  (** A QR object, new or used before. *)
  Definition hobject : Type := { g : hst (S:=R) | valid g }.
  Definition new_hobject : hobject := exist _ ([], new_house) I.
  Lemma compute_keeps : forall a (l : hobject), valid (snd (compute_house o hh a (proj1_sig l))).
  Proof.
    intros a [[st h] Hv]. cbn [proj1_sig]. destruct (compute_ok o hh a st h Hv) as (st' & p & E & N & _). rewrite E. cbn.
    apply nth_error_Some. congruence.
  Qed.
  Definition hfactor (a : dmat R) (l : hobject) : hobject := exist _ _ (compute_keeps a l).
  (** solve with a new QR object *)
  Definition hdirect {k} (a : mat (S:=R) k n) (r : tup R k) : V :=
    match apply_qt_house o (tlist r) (repeat 0 n) (proj1_sig (hfactor (dense a) new_hobject)) with
    | (Ok q, g) => match solve_house o q (repeat 0 n) g with (Ok d, _) => of_list 0 n d | _ => tconst 0 n end
    | _ => tconst 0 n
    end.
  Variables (wr : Rs -> Rs) (wj : J -> J).
  Definition house_exts : exts V Rs J H hobject :=
    mk_exts
      (fun j r c l => (Ok tt, (hdirect j r, l)))
      (fun h g c l => (Ok tt, (hdirect h g, l)))
      (fun j l => (fst (compute_house o hh (dense j) (proj1_sig l)), hfactor (dense j) l))
      (fun r v l => match fst (apply_qt_house o (tlist r) (tlist v) (proj1_sig l)) with
                    | Ok q => (Ok tt, (of_list 0 n q, l))
                    | Throw e => (Throw e, (v, l)) | Undef u => (Undef u, (v, l)) | NoFuel => (NoFuel, (v, l))
                    end)
      (fun q c l => match fst (solve_house o (tlist q) (tlist c) (proj1_sig l)) with
                    | Ok d => (Ok tt, (of_list 0 n d, l))
                    | Throw e => (Throw e, (c, l)) | Undef u => (Undef u, (c, l)) | NoFuel => (NoFuel, (c, l))
                    end)
      (fun r w l => (Ok tt, (wr r, l)))
      (fun j w l => (Ok tt, (wj j, l))).
  Hypothesis HH : householder eps hh.
  Lemma hdirect_exact : forall k (a : mat (S:=R) k n) e,
    (forall e', tapply o a e' = tapply o a e -> e' = e) -> tapply o a (hdirect a (tapply o a e)) = tapply o a e.
  Proof.
    intros k a e Hu. assert (Hf : full_rank (tuple_ops o sqrt k n) (tvec o k) (tapply o) a).
    { intros v Hv. pose proof (tvec_space o (R_field eps) n) as HV. pose proof (tvec_space o (R_field eps) k) as HV'.
      assert (K : vadd (tvec o n) e v = e).
      { apply Hu. rewrite (lin_add _ _ _ (tapply_lin o (R_field eps) k n a)), Hv. rewrite (va_comm _ _ HV'). apply (va_0_l _ _ HV'). }
      cbn. pose proof (tuple_inner eps n) as HI. apply (dot_ext _ _ HI). intros z.
      pose proof (f_equal (fun x => tdot o x z) K) as K'. cbv beta in K'. rewrite (in_add _ _ HI) in K'. rewrite (dot_0_l _ _ HI). lra. }
    destruct (house_solution eps hh HH k n a Hf) as (d & _ & Hx & K).
    destruct (K [] new_house (tapply o a e) (repeat 0 n) (repeat 0 n) I (repeat_length _ _) (repeat_length _ _)) as (g & q & E1 & _ & E2 & _ & E3).
    unfold hdirect. cbn [hfactor new_hobject proj1_sig]. rewrite E1. cbn [snd]. rewrite E2, E3, of_tlist. apply Hx.
  Qed.
  Lemma thin_done : forall (j : J) (l : hobject),
    exists st p, compute_house o hh (dense j) (proj1_sig l) = (Ok tt, (st, mk_house (Some p) (Some (hh (dense j))))) /\
      nth_error st p = Some (thin_part o m n (fst (hh (dense j)))).
  Proof.
    intros j [[st h] Hv]. cbn [proj1_sig]. destruct (compute_ok o hh (dense j) st h Hv) as (st' & p & E & N & _).
    destruct (dense_shape m n j) as (_ & S2 & S3). rewrite S2, S3 in N. eauto.
  Qed.
  Hypothesis Hle : (n <= m)%nat.
  Lemma qtr_done : forall (j : J) l l1 r v, x_thin house_exts j l = (Ok tt, l1) -> exists q, x_qtr house_exts r v l1 = (Ok tt, (q, l1)).
  Proof.
    intros j l l1 r v E1. cbn [x_thin x_qtr house_exts] in *. injection E1 as _ <-.
    destruct (thin_done j l) as (st & p & E & N). cbn [hfactor proj1_sig]. rewrite E. cbn [snd].
    unfold apply_qt_house. rewrite (q_factor_at st p _ _ N). cbn [fst].
    rewrite thin_ncols, !tlist_len, Nat.eqb_refl. cbn [thin_part dm_rows]. rewrite Nat.eqb_refl. cbn [andb fst]. eauto.
  Qed.
  Lemma rsolve_done : forall (j : J) l l1 q c, x_thin house_exts j l = (Ok tt, l1) -> exists d, x_rsolve house_exts q c l1 = (Ok tt, (d, l1)).
  Proof.
    intros j l l1 q c E1. cbn [x_thin x_rsolve house_exts] in *. injection E1 as _ <-.
    destruct (thin_done j l) as (st & p & E & N). cbn [hfactor proj1_sig]. rewrite E. cbn [snd].
    unfold solve_house. cbn [h_fct]. destruct (dense_shape m n j) as (S1 & S2 & S3).
    destruct (hh_shape HH (dense j) S1) as (_ & _ & _ & T4 & T5 & _). destruct (hh (dense j)) as [F M]. cbn [snd] in *.
    unfold block. rewrite T4, T5, S2, S3, !tlist_len. rewrite (proj2 (Nat.leb_le n m) Hle), Nat.leb_refl. cbn [andb]. rewrite Nat.eqb_refl. cbn [fst]. eauto.
  Qed.
  Lemma house_chain : forall (j : J) r v c l l1 q l2 d l3, full_rank no (tvec o m) (tapply o) j ->
    x_thin house_exts j l = (Ok tt, l1) -> x_qtr house_exts r v l1 = (Ok tt, (q, l2)) ->
    x_rsolve house_exts q c l2 = (Ok tt, (d, l3)) -> qr_exact no (tapply o) j r d.
  Proof.
    intros j r v c l l1 q l2 d l3 Hf E1 E2 E3. destruct (house_solution eps hh HH m n j Hf) as (s & Hq & _ & K).
    destruct l as [[st h] Hv]. destruct (K st h r (tlist v) (tlist c) Hv (tlist_len _ v) (tlist_len _ c)) as (g & q' & F1 & _ & F2 & F3 & F4).
    cbn [x_thin x_qtr x_rsolve house_exts proj1_sig] in *. injection E1 as _ <-. cbn [hfactor proj1_sig] in E2. rewrite F1 in E2. cbn [snd] in E2.
    rewrite F2 in E2. cbn [fst] in E2. injection E2 as <- <-. cbn [hfactor proj1_sig] in E3. rewrite F1 in E3. cbn [snd] in E3.
    rewrite (tlist_of 0 n q' F3), F4 in E3. cbn [fst] in E3. injection E3 as <- _. rewrite of_tlist. apply Hq.
  Qed.
  Theorem house_linear : linear_ok house_exts (if_solvable (normal_exact (tapply o))) (if_solvable (qr_exact no (tapply o)))
    (if_solvable (newton_exact (tapply o))) nothing.
  Proof.
    split.
    - intros h g c l d l' E. cbn in E. injection E as <- _. intros [e [He Hu]]. unfold normal_exact in *. subst g. apply hdirect_exact. exact Hu.
    - intros j r v c l l1 q l2 d l3 E1 E2 E3 [e [He Hu]].
      exact (house_chain j r v c l l1 q l2 d l3 (qr_unique_rank eps m n j r e He Hu) E1 E2 E3).
    - intros j r c l d l' E. cbn in E. injection E as <- _. intros [e [He Hu]]. unfold newton_exact in *. subst r. apply hdirect_exact. exact Hu.
    - intros h g c l e z E Hn. cbn in E. congruence.
    - intros j l e z E Hn. cbn [x_thin house_exts] in E. destruct (thin_done j l) as (st & p & T & _). rewrite T in E. cbn [fst] in E. congruence.
    - intros j l0 r v l e z E1 E Hn. destruct (qtr_done j l0 l r v E1) as [q Eq]. congruence.
    - intros j l0 r v l1 q c l e z E1 E2 E Hn. destruct (qtr_done j l0 l1 r v E1) as [q' Eq].
      assert (l = l1) by congruence. subst l. destruct (rsolve_done j l0 l1 q c E1) as [d Ed]. congruence.
    - intros j r c l e z E Hn. cbn in E. congruence.
  Qed.
  Lemma house_weights : weights_ok house_exts wr wj nothing.
  Proof. split; intros; cbn in *; congruence. Qed.
End Ext.
Section End.
  Variable eps : R.
  Notation o := (Rops eps).
  Variable hh : dmat R -> dmat R * dmat R.
  Hypothesis HH : householder eps hh.
  Variables m n : nat.
  Notation no := (tuple_ops o sqrt m n).
  Variables (wr : tup R m -> tup R m) (wj : mat (S:=R) m n -> mat (S:=R) m n).
  Variable W : Type.
  Variable rj : tup R n -> tup R m -> option (mat (S:=R) m n) -> W -> outcome unit * (tup R m * option (mat (S:=R) m n) * W).
  Variable A : mat (S:=R) m n.
  Variable b : tup R m.
  Notation F := (affine (tvec o m) (tapply o) A b).
  Hypothesis Hc : computes rj F (fun _ => A).
  Hypothesis Hf : full_rank no (tvec o m) (tapply o) A.
  Lemma gn_house : forall cf (s : reg R (tup R n) (tup R m) (mat (S:=R) m n) (mat (S:=R) n n) hobject) (w : W) r s' w',
    ls_object o s -> f_update cf = UStandard ->
    f_stop cf = WhenAbsCorrection \/ f_stop cf = WhenRelCorrection \/ f_stop cf = WhenAbsGradient \/ f_stop cf = WhenRelGradient ->
    0 < f_tol cf -> (2 <= f_max cf < int32_max)%Z ->
    exec rj (ls_solve o no (house_exts eps hh m n wr wj) GaussNewtonQr cf) (s, w) = (r, (s', w')) ->
    exists ls, g_log s' = g_log s ++ ls /\ r = Ok tt /\
      ((length ls = 1%nat /\ g_x s' = g_x s) \/
       (length ls = 2%nat /\ forall y, n_rnorm no (F (g_x s')) <= n_rnorm no (F y))) /\
      exists a l, ls = a ++ [l] /\ l_state l = g_x s' /\ line_met o cf l.
  Proof.
    intros cf s w r s' w' Ho Hu Hst Ht Hmax E.
    refine (gn_affine no (tvec o m) (tapply o) (tapply o) (tuple_laws eps m n) _ rj A b Hc (house_linear eps hh m n wr wj HH (rank_le eps m n A Hf)) Hf wr wj
      (house_weights eps hh m n wr wj) GaussNewtonQr cf s w r s' w' _ Ho (or_intror eq_refl) Hu Hst Ht Hmax E).
    intros r0. destruct (house_solution eps hh HH m n A Hf) as (d & Hq & _). exists (d r0). apply Hq.
  Qed.
End End.

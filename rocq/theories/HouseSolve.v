(** Least squares by the QR objects for Eigen matrices. *)
From Coq Require Import Reals ZArith List Bool Lia Lra.
From Verif Require Import Base RInst Laws LawInst NonlinDiag NonlinModel NonlinSpec NonlinLaws NonlinExact Tuples
  QrModel QrSpec QrProofs QrSolve QrEnd HouseModel HouseSpec HouseProofs.
Import ListNotations.
Local Open Scope R_scope.

(** ** The upper triangle of a list of columns, by rows from the diagonal on *)
Fixpoint urows (n : nat) (C : list (list R)) : list (list R) :=
  match n with
  | O => []
  | Datatypes.S n' => map (hd 0) C :: urows n' (map (@tl R) (tl C))
  end.
Lemma urows_tri : forall n C, length C = n -> tri n (urows n C).
Proof.
  induction n as [|n IH]; intros C H; [exact I|]. cbn [urows tri]. split; [rewrite map_length; exact H|].
  apply IH. destruct C; [discriminate|]. cbn in *. rewrite map_length. lia.
Qed.
Fixpoint reads (i : nat) (M U : list (list R)) : Prop :=
  match M, U with
  | row :: M', u :: U' => skipn i row = u /\ reads (Datatypes.S i) M' U'
  | [], [] => True
  | _, _ => False
  end.
Lemma back_subst_reads eps : forall M U i b, reads i M U ->
  back_subst (Rops eps) i M b = back_subst (Rops eps) i (pad (Rops eps) i U) b.
Proof.
  induction M as [|row M IH]; intros [|u U] i b H; try contradiction; [reflexivity|]. destruct H as [H1 H2].
  cbn [pad back_subst]. destruct b as [|x b]; [reflexivity|]. rewrite (IH U (Datatypes.S i) b H2).
  rewrite H1. rewrite skipn_app, repeat_length, Nat.sub_diag. rewrite skipn_all2 by (rewrite repeat_length; lia). reflexivity.
Qed.
Lemma skipn_map {A B} (f : A -> B) : forall n l, skipn n (map f l) = map f (skipn n l).
Proof. induction n as [|n IH]; intros [|x l]; cbn; auto. Qed.
Lemma nth_skipn : forall n (c : list R), nth n c 0 = hd 0 (skipn n c).
Proof. induction n as [|n IH]; intros [|x c]; cbn; auto. Qed.
Lemma tl_skipn {A} : forall n (c : list A), tl (skipn n c) = skipn (Datatypes.S n) c.
Proof. induction n as [|n IH]; intros [|x c]; auto. cbn [skipn]. rewrite IH. destruct c; reflexivity. Qed.
Lemma block_reads : forall n i C,
  reads i (map (fun k => map (fun c => nth k c 0) C) (seq i n)) (urows n (map (skipn i) (skipn i C))).
Proof.
  induction n as [|n IH]; intros i C; [exact I|]. cbn [seq map urows reads]. split.
  - rewrite skipn_map, map_map. apply map_ext. intros c. apply nth_skipn.
  - replace (map (@tl R) (tl (map (skipn i) (skipn i C)))) with (map (skipn (Datatypes.S i)) (skipn (Datatypes.S i) C)); [apply IH|].
    rewrite <- tl_skipn. destruct (skipn i C) as [|c l]; [reflexivity|]. cbn [tl map]. rewrite map_map. apply map_ext. intros x. symmetry. apply tl_skipn.
Qed.
Lemma skipn_0_map {A} : forall C : list (list A), map (skipn 0) C = C.
Proof. induction C as [|c C IH]; [reflexivity|]. cbn in *. rewrite IH. reflexivity. Qed.
Lemma block_solve eps n C b :
  back_subst (Rops eps) 0 (map (fun k => map (fun c => nth k c 0) C) (seq 0 n)) b = do_lin_solve (Rops eps) (pad (Rops eps) 0 (urows n C)) b.
Proof. unfold do_lin_solve. apply back_subst_reads. pose proof (block_reads n 0 C) as H. cbn [skipn] in H. rewrite skipn_0_map in H. exact H. Qed.

(** ** A matrix given by Q and the upper triangle of C *)
Section Prods.
  Context {eps : R} {V : Type} (vo : vops R V) (dot : V -> V -> R).
  Hypothesis HI : inner eps vo dot.
  Notation o := (Rops eps).
  Notation sp := (sum_products o).
  Ltac dots := rewrite ?(in_add _ _ HI), ?(in_scale _ _ HI), ?(dot_add_r _ _ HI), ?(dot_scale_r _ _ HI), ?(dot_0_l _ _ HI), ?(dot_0_r _ _ HI).
  Fixpoint prods (k : nat) (C : list (list R)) (Q : list V) : list V :=
    match C with
    | [] => []
    | c :: C' => lincomb vo (firstn (Datatypes.S k) c) Q :: prods (Datatypes.S k) C' Q
    end.
  Lemma prods_peel : forall C k q Q y, (forall c, In c C -> c <> []) ->
    forall z, dot z (lincomb vo y (prods (Datatypes.S k) C (q :: Q))) =
      sp (map (hd 0) C) y * dot z q + dot z (lincomb vo y (prods k (map (@tl R) C) Q)).
  Proof.
    induction C as [|c C IH]; intros k q Q y Hne z.
    - destruct y; cbn; dots; ring.
    - destruct y as [|a y]; [cbn; dots; ring|]. destruct c as [|h t]; [exfalso; apply (Hne []); [left; reflexivity|reflexivity]|].
      cbn [prods map hd tl sum_products]. cbn [lincomb]. dots. rewrite IH by (intros c Hc; apply Hne; right; exact Hc).
      cbn [firstn lincomb]. dots. change (smul o) with Rmult. change (sadd o) with Rplus. cbn [firstn]. ring.
  Qed.
  Lemma prods_comb : forall n C Q y, length C = n -> length Q = n -> length y = n -> (forall c, In c C -> (n <= length c)%nat) ->
    lincomb vo y (prods 0 C Q) = lincomb vo (trimul (eps:=eps) (urows n C) y) Q.
  Proof.
    induction n as [|n IH]; intros C Q y HC HQ Hy Hl; destruct C as [|c C]; try discriminate; destruct Q as [|q Q]; try discriminate;
      destruct y as [|a y]; try discriminate; [reflexivity|].
    injection HC as HC. injection HQ as HQ. injection Hy as Hy.
    assert (Hne : forall x, In x C -> x <> []). { intros x Hx E. subst x. specialize (Hl [] (or_intror Hx)). cbn in Hl. lia. }
    assert (Hc : c <> []). { intros E. subst c. specialize (Hl [] (or_introl eq_refl)). cbn in Hl. lia. }
    destruct c as [|h t]; [contradiction|].
    apply (dot_ext vo dot HI). intros z. rewrite !(in_sym _ _ HI _ z).
    cbn [prods urows map hd tl trimul lincomb firstn]. cbn [sum_products]. dots. rewrite (prods_peel C 0 q Q y Hne z).
    rewrite (IH (map (@tl R) C) Q y); [|rewrite map_length; exact HC|exact HQ|exact Hy|].
    - change (smul o) with Rmult. change (sadd o) with Rplus. destruct Q; cbn; dots; ring.
    - intros x Hx. apply in_map_iff in Hx. destruct Hx as [w [<- Hw]]. specialize (Hl w (or_intror Hw)). destruct w; cbn in *; lia.
  Qed.
  (** injective upper triangles have no zero on the diagonal *)
  Definition injective (n : nat) (U : list (list R)) : Prop :=
    forall y, length y = n -> trimul (eps:=eps) U y = repeat 0 n -> y = repeat 0 n.
  Lemma sp_zeros : forall n l, sp l (repeat 0 n) = 0.
  Proof. induction n as [|n IH]; intros [|x l]; cbn; try reflexivity. rewrite IH. ring. Qed.
  Lemma trimul_zeros : forall U n, tri n U -> trimul (eps:=eps) U (repeat 0 n) = repeat 0 n.
  Proof.
    induction U as [|row U IH]; intros [|n] H; try contradiction; [reflexivity|]. destruct H as [_ H]. cbn [repeat trimul].
    rewrite (IH n H). f_equal. exact (sp_zeros (Datatypes.S n) row).
  Qed.
  Lemma injective_diag : forall U n, tri n U -> injective n U -> diag_ok U.
  Proof.
    induction U as [|row U IH]; intros [|n] Ht Hi; try contradiction; [intros r []|]. destruct Ht as [Hr Ht].
    destruct row as [|d rest]; [discriminate|].
    assert (Hd : d <> 0).
    { intros ->. specialize (Hi (1 :: repeat 0 n)). cbn [length] in Hi. rewrite repeat_length in Hi. specialize (Hi eq_refl).
      cbn [trimul repeat] in Hi. rewrite trimul_zeros in Hi by exact Ht. cbn [sum_products] in Hi. rewrite sp_zeros in Hi.
      change (smul o) with Rmult in Hi. change (sadd o) with Rplus in Hi. replace (0 * 1 + 0) with 0 in Hi by ring. specialize (Hi eq_refl). injection Hi. lra. }
    intros r [<-|Hr']; [exact Hd|]. apply (IH n Ht); [|exact Hr'].
    intros y Hy E. specialize (Hi (- (sp rest y / d) :: y)). cbn [length] in Hi. rewrite Hy in Hi. specialize (Hi eq_refl).
    cbn [trimul] in Hi. rewrite E in Hi. cbn [sum_products repeat] in Hi. change (smul o) with Rmult in Hi. change (sadd o) with Rplus in Hi.
    replace (d * - (sp rest y / d) + sp rest y) with 0 in Hi by (field; exact Hd). specialize (Hi eq_refl). injection Hi as _ Hi. exact Hi.
  Qed.
End Prods.

(** ** Least squares from any factors *)
Section AnyFactors.
  Variable eps : R.
  Notation o := (Rops eps).
  Variables m n : nat.
  Variable j : mat (S:=R) m n.
  Variable Q : list (tup R m).
  Variable U : list (list R).
  Hypothesis F1 : length Q = n.
  Hypothesis F2 : tri n U.
  Hypothesis Hd : diag_ok U.
  Hypothesis Ho : orthonormal (ddot eps m) Q.
  Hypothesis Ha : forall v, tapply o j v = lincomb (tvec o m) (trimul (eps:=eps) U (tlist v)) Q.
  Lemma trilen : forall U' k y, tri k U' -> length y = k -> length (trimul (eps:=eps) U' y) = k.
  Proof.
    induction U' as [|row U' IH]; intros k y Ht Hy; destruct k; try contradiction; destruct y; try discriminate; [reflexivity|].
    destruct Ht as [_ Ht]. injection Hy as Hy. cbn. f_equal. apply IH; assumption.
  Qed.
  Lemma any_solution_eq : forall r, trimul (eps:=eps) U (tlist (solution eps n Q U r)) = apply_qt (ddot eps m) Q r /\
    length (do_lin_solve o (pad o 0 U) (apply_qt (ddot eps m) Q r)) = n.
  Proof.
    intros r. destruct (back_subst_ok (eps:=eps) U 0 n (apply_qt (ddot eps m) Q r) F2) as [E1 E2].
    - unfold apply_qt. rewrite map_length. exact F1.
    - exact Hd.
    - unfold solution, do_lin_solve. rewrite tlist_of by exact E1. auto.
  Qed.
  Lemma any_solution_qr : forall r, qr_exact (tuple_ops o sqrt m n) (tapply o) j r (solution eps n Q U r).
  Proof.
    intros r. destruct (any_solution_eq r) as [E1 _].
    exists (fun v => lincomb (tvec o m) (tlist v) Q), (fun v => of_list 0 n (trimul (eps:=eps) U (tlist v))),
      (fun s => of_list 0 n (apply_qt (ddot eps m) Q s)). repeat split.
    - intros v. rewrite Ha, tlist_of; [reflexivity|]. apply trilen; [exact F2|apply tlist_len].
    - intros v w. cbn [n_rdot n_dot tuple_ops]. change (@tdot R o m) with (ddot eps m).
      rewrite (q_dot (eps:=eps) (tvec o m) (ddot eps m) (tuple_inner eps m) Q _ _ Ho); [apply sp_tdot|]. rewrite tlist_len, F1. reflexivity.
    - intros s v. cbn [n_rdot n_dot tuple_ops]. rewrite <- sp_tdot, tlist_of; [|unfold apply_qt; rewrite map_length; exact F1].
      apply (sp_qt (eps:=eps) (tvec o m) (ddot eps m) (tuple_inner eps m)).
    - rewrite E1. reflexivity.
  Qed.
  Lemma any_solution_exact : forall e, tapply o j (solution eps n Q U (tapply o j e)) = tapply o j e.
  Proof.
    intros e. destruct (any_solution_eq (tapply o j e)) as [E1 _].
    rewrite Ha at 1. rewrite E1, (Ha e).
    rewrite (qt_q (eps:=eps) (tvec o m) (ddot eps m) (tuple_inner eps m) Q _ Ho); [reflexivity|].
    rewrite (trilen U n _ F2); [symmetry; exact F1|apply tlist_len].
  Qed.
End AnyFactors.

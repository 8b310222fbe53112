(** Least-squares and linear solves by a QR factorisation: Q^T r, then back substitution. *)
From Coq Require Import Reals ZArith List Bool Lia Lra.
From Verif Require Import Base RInst Laws LawInst NonlinDiag NonlinModel NonlinSpec NonlinLaws NonlinExact Tuples QrModel QrSpec QrProofs.
Import ListNotations.
Local Open Scope R_scope.

Section Lists.
  Context {eps : R} {V : Type} (vo : vops R V) (dot : V -> V -> R).
  Hypothesis HI : inner eps vo dot.
  Notation o := (Rops eps).
  Variable norm : V -> R.
  Hypothesis Hnorm : forall v, norm v = sqrt (dot v v).
  Notation proj := (proj o vo dot).
  Notation unit_of := (unit_of o vo norm).
  Notation gs := (gs o vo dot norm).
  Notation pad := (pad o).
  Notation sp := (sum_products o).
  Ltac dots := rewrite ?(in_add _ _ HI), ?(in_scale _ _ HI), ?(dot_add_r _ _ HI), ?(dot_scale_r _ _ HI), ?(dot_0_l _ _ HI), ?(dot_0_r _ _ HI).
  Ltac vdots := apply (dot_ext vo dot HI); intros; dots.
  (** U y, for the rows of U from the diagonal on *)
  Fixpoint trimul (U : list (list R)) (y : list R) : list R :=
    match U, y with
    | row :: U', a :: y' => sp row (a :: y') :: trimul U' y'
    | _, _ => []
    end.
  Definition diag_ok (U : list (list R)) : Prop := forall row, In row U -> nth 0 row 0 <> 0.
  Lemma back_subst_ok : forall U i m b, tri m U -> length b = m -> diag_ok U ->
    length (back_subst o i (pad i U) b) = m /\ trimul U (back_subst o i (pad i U) b) = b.
  Proof.
    induction U as [|row U IH]; intros i m b Ht Hb Hd.
    - destruct m; [|contradiction]. destruct b; [|discriminate]. split; reflexivity.
    - destruct m as [|m]; [contradiction|]. destruct Ht as [Hr Ht]. destruct b as [|x b]; [discriminate|]. injection Hb as Hb.
      destruct (IH (Datatypes.S i) m b Ht Hb) as [E1 E2]; [intros r Hr'; apply Hd; right; exact Hr'|].
      cbn [QrProofs.pad back_subst].
      replace (skipn i (repeat (s0 o) i ++ row)) with row.
      2:{ rewrite skipn_app, repeat_length, Nat.sub_diag. rewrite skipn_all2; [reflexivity|rewrite repeat_length; lia]. }
      destruct row as [|d rest]; [discriminate|]. cbn [length]. split; [f_equal; exact E1|].
      cbn [trimul sum_products]. f_equal; [|exact E2].
      assert (Hdd : d <> 0) by (apply (Hd (d :: rest)); left; reflexivity).
      change (d * ((x - sp rest (back_subst o (Datatypes.S i) (pad (Datatypes.S i) U) b)) / d) + sp rest (back_subst o (Datatypes.S i) (pad (Datatypes.S i) U) b) = x).
      field. exact Hdd.
  Qed.
  Lemma sp_dots : forall q A y, sp (map (dot q) A) y = dot q (lincomb vo y A).
  Proof.
    intros q. induction A as [|a A IH]; intros y; [destruct y; cbn; dots; reflexivity|].
    destruct y as [|c y]; cbn [map sum_products lincomb]; [dots; reflexivity|]. rewrite IH. dots. 
    change (dot q a * c + dot q (lincomb vo y A) = c * dot q a + dot q (lincomb vo y A)). ring.
  Qed.
  Lemma norm_unit : forall a, vscale vo (norm a) (unit_of a) = a.
  Proof.
    intros a. destruct (Req_dec (dot a a) 0) as [h|h].
    - pose proof (in_zero _ _ HI _ h) as ->. unfold QrProofs.unit_of. vdots. ring.
    - unfold QrProofs.unit_of. vdots. rewrite Hnorm. change (sdiv o) with Rdiv. change (s1 o) with 1.
      assert (sqrt (dot a a) <> 0). { intros E. apply h. apply sqrt_eq_0; [apply (in_pos _ _ HI)|exact E]. }
      field. assumption.
  Qed.
  Lemma gs_comb : forall m A y, length A = m -> length y = m ->
    lincomb vo y A = lincomb vo (trimul (snd (fst (gs m A))) y) (fst (fst (gs m A))).
  Proof.
    induction m as [|m IH]; intros A y HA Hy.
    - destruct A; [|discriminate]. destruct y; [|discriminate]. reflexivity.
    - destruct A as [|a A]; [discriminate|]. destruct y as [|c y]; [discriminate|]. injection HA as HA. injection Hy as Hy.
      cbn [QrProofs.gs]. specialize (IH (map (proj (unit_of a)) A) y). rewrite map_length in IH. specialize (IH HA Hy).
      destruct (gs m (map (proj (unit_of a)) A)) as [[Q U] B]. cbn [fst snd] in *. cbn [trimul sum_products lincomb].
      rewrite <- IH, (proj_comb vo dot HI), sp_dots.
      rewrite <- (norm_unit a) at 1. unfold QrProofs.proj. vdots.
      change (sadd o) with Rplus. change (smul o) with Rmult. change (sopp o) with Ropp. change (s1 o) with 1. ring.
  Qed.
  Lemma gs_indep : forall m A, length A = m -> diag_ok (snd (fst (gs m A))) -> independent vo A.
  Proof.
    induction m as [|m IH]; intros A HA Hd.
    - destruct A; [|discriminate]. intros [|c cs] Hl E x Hx; [contradiction|discriminate].
    - destruct A as [|a A]; [discriminate|]. injection HA as HA. cbn [QrProofs.gs] in Hd.
      specialize (IH (map (proj (unit_of a)) A)). rewrite map_length in IH. specialize (IH HA).
      destruct (gs m (map (proj (unit_of a)) A)) as [[Q U] B]. cbn [fst snd] in *.
      assert (Hn : norm a <> 0) by (apply (Hd (norm a :: map (dot (unit_of a)) A)); left; reflexivity).
      assert (Ha : dot a a <> 0). { intros E. apply Hn. rewrite Hnorm, E. apply sqrt_0. }
      assert (Hap : 0 < dot a a). { pose proof (in_pos _ _ HI a). lra. }
      assert (Hi : independent vo (map (proj (unit_of a)) A)) by (apply IH; intros r Hr; apply Hd; right; exact Hr).
      intros [|c cs] Hl E x Hx; [discriminate|]. injection Hl as Hl. cbn [lincomb] in E.
      assert (K : lincomb vo cs (map (proj (unit_of a)) A) = vzero vo).
      { rewrite (proj_comb vo dot HI). 
        assert (Eo : lincomb vo cs A = vscale vo (- c) a).
        { apply (veq_sub vo dot HI). vdots. pose proof (f_equal (fun z => dot z v) E) as E'. cbv beta in E'.
          rewrite (in_add _ _ HI), (in_scale _ _ HI), (dot_0_l _ _ HI) in E'. lra. }
        rewrite Eo. vdots. rewrite (proj_dot vo dot HI). dots. rewrite !(unit_dot vo dot HI norm Hnorm).
        destruct (sqrt_pos dot a Hap) as [S1 S2]. rewrite <- S2 at 2. field. lra. }
      assert (Hcs : forall z, In z cs -> z = 0) by (apply (Hi cs); [rewrite map_length; exact Hl|exact K]).
      destruct Hx as [<-|Hx]; [|apply Hcs; exact Hx].
      assert (Ez : lincomb vo cs A = vzero vo).
      { clear -Hcs HI. revert A. induction cs as [|z cs IH]; intros [|a A]; cbn [lincomb]; try reflexivity.
        rewrite IH by (intros; apply Hcs; right; assumption). rewrite (Hcs z) by (left; reflexivity). vdots. ring. }
      rewrite Ez in E. pose proof (f_equal (fun z => dot z a) E) as E'. cbv beta in E'. rewrite (in_add _ _ HI), (in_scale _ _ HI), !(dot_0_l _ _ HI) in E'.
      assert (E2 : c * dot a a = 0) by lra. apply Rmult_integral in E2. destruct E2; [assumption|contradiction].
  Qed.
End Lists.

(** Q^T and Q for an orthonormal list *)
Section Ortho.
  Context {eps : R} {V : Type} (vo : vops R V) (dot : V -> V -> R).
  Hypothesis HI : inner eps vo dot.
  Notation o := (Rops eps).
  Notation sp := (sum_products o).
  Ltac dots := rewrite ?(in_add _ _ HI), ?(in_scale _ _ HI), ?(dot_add_r _ _ HI), ?(dot_scale_r _ _ HI), ?(dot_0_l _ _ HI), ?(dot_0_r _ _ HI).
  Lemma sp_qt : forall Q r z, sp (apply_qt dot Q r) z = dot r (lincomb vo z Q).
  Proof.
    induction Q as [|p Q IH]; intros r z; [destruct z; cbn; dots; reflexivity|].
    destruct z as [|c z]; cbn [apply_qt map sum_products lincomb]; [dots; reflexivity|]. fold (apply_qt dot Q r). rewrite IH. dots.
    rewrite (in_sym _ _ HI r p). change (dot p r * c + dot r (lincomb vo z Q) = c * dot p r + dot r (lincomb vo z Q)). ring.
  Qed.
  Lemma ortho_tail : forall p Q, orthonormal dot (p :: Q) ->
    dot p p = 1 /\ (forall x, In x Q -> dot p x = 0) /\ orthonormal dot Q.
  Proof.
    intros p Q H. split; [exact (H 0%nat 0%nat p p eq_refl eq_refl)|]. split.
    - intros x Hx. apply In_nth_error in Hx. destruct Hx as [i Hi]. exact (H 0%nat (Datatypes.S i) p x eq_refl Hi).
    - intros i j a b Ha Hb. exact (H (Datatypes.S i) (Datatypes.S j) a b Ha Hb).
  Qed.
  Lemma perp_comb : forall p Q z, (forall x, In x Q -> dot p x = 0) -> dot p (lincomb vo z Q) = 0.
  Proof.
    intros p. induction Q as [|x Q IH]; intros z H; destruct z as [|c z]; cbn [lincomb]; dots; try reflexivity.
    rewrite IH by (intros; apply H; right; assumption). rewrite H by (left; reflexivity). ring.
  Qed.
  Lemma qt_q : forall Q z, orthonormal dot Q -> length z = length Q -> apply_qt dot Q (lincomb vo z Q) = z.
  Proof.
    induction Q as [|p Q IH]; intros z Ho Hl; destruct z as [|c z]; try discriminate; [reflexivity|].
    destruct (ortho_tail p Q Ho) as [H1 [H2 H3]]. injection Hl as Hl. cbn [apply_qt map lincomb]. f_equal.
    - dots. rewrite H1, (perp_comb p Q z H2). ring.
    - transitivity (apply_qt dot Q (lincomb vo z Q)); [|exact (IH z H3 Hl)]. unfold apply_qt. apply map_ext_in. intros x Hx. dots.
      rewrite (in_sym _ _ HI x p), (H2 x Hx). ring.
  Qed.
  Lemma q_dot : forall Q z w, orthonormal dot Q -> length z = length Q -> dot (lincomb vo z Q) (lincomb vo w Q) = sp z w.
  Proof. intros Q z w Ho Hl. rewrite <- sp_qt, (qt_q Q z Ho Hl). reflexivity. Qed.
End Ortho.

(** Tuples and lists *)
Section Conv.
  Context {A : Type}.
  Fixpoint tlist {n} : tup A n -> list A :=
    match n with O => fun _ => [] | Datatypes.S m => fun v => fst v :: tlist (snd v) end.
  Fixpoint of_list (d : A) (n : nat) (l : list A) : tup A n :=
    match n with
    | O => tt
    | Datatypes.S m => (match l with [] => d | x :: _ => x end, of_list d m (tl l))
    end.
  Lemma tlist_len : forall n (v : tup A n), length (tlist v) = n.
  Proof. induction n as [|n IH]; intros v; cbn; [reflexivity|f_equal; apply IH]. Qed.
  Lemma of_tlist : forall d n (v : tup A n), of_list d n (tlist v) = v.
  Proof. induction n as [|n IH]; intros v; [destruct v; reflexivity|]. destruct v as [a v]. cbn. f_equal. apply IH. Qed.
  Lemma tlist_of : forall d n l, length l = n -> tlist (of_list d n l) = l.
  Proof. induction n as [|n IH]; intros [|x l] H; try discriminate; [reflexivity|]. cbn. f_equal. apply IH. injection H as H. exact H. Qed.
End Conv.

Section TupleSolve.
  Variable eps : R.
  Notation o := (Rops eps).
  Lemma comb_apply : forall m n (j : mat (S:=R) m n) v, lincomb (tvec o m) (tlist v) (tlist j) = tapply o j v.
  Proof. intros m. induction n as [|n IH]; intros j v; [reflexivity|]. cbn [tlist lincomb tapply]. rewrite IH. reflexivity. Qed.
  Lemma sp_tdot : forall n (v w : tup R n), sum_products o (tlist v) (tlist w) = tdot o v w.
  Proof.
    unfold tdot. induction n as [|n IH]; intros v w; [reflexivity|]. cbn [tlist sum_products tmap2 tsum fst snd]. rewrite IH. reflexivity.
  Qed.
  Definition ddot m : tup R m -> tup R m -> R := tdot o.
  Definition dnorm m (v : tup R m) : R := sqrt (tdot o v v).
  Definition factors m (A : list (tup R m)) : list (tup R m) * list (list R) :=
    fst (gs o (tvec o m) (ddot m) (dnorm m) (length A) A).
  (** the solution found from factors Q and U *)
  Definition solution {m} n (Q : list (tup R m)) (U : list (list R)) (r : tup R m) : tup R n :=
    of_list 0 n (do_lin_solve o (pad o 0 U) (apply_qt (ddot m) Q r)).
  Lemma full_rank_indep : forall m n (j : mat (S:=R) m n),
    full_rank (tuple_ops o sqrt m n) (tvec o m) (tapply o) j <-> independent (tvec o m) (tlist j).
  Proof.
    intros m n j. split.
    - intros Hf cs Hl E c Hc. rewrite tlist_len in Hl.
      rewrite <- (tlist_of 0 n cs Hl) in E, Hc. rewrite comb_apply in E. apply Hf in E. rewrite E in Hc. cbn in Hc.
      clear -Hc. induction n as [|n IH]; [contradiction|]. destruct Hc as [<-|Hc]; [reflexivity|apply IH; exact Hc].
    - intros Hi v E. rewrite <- comb_apply in E. specialize (Hi (tlist v)). rewrite !tlist_len in Hi. specialize (Hi eq_refl E). cbn.
      clear -Hi. induction n as [|n IH]; [destruct v; reflexivity|]. apply tup_eq; cbn; [apply Hi; left; reflexivity|].
      apply IH. intros c Hc. apply Hi. right. exact Hc.
  Qed.
  Lemma diag_of_indep : forall m (A : list (tup R m)), independent (tvec o m) A -> diag_ok (snd (factors m A)).
  Proof.
    intros m A Hi row Hr. pose proof (gs_diag (eps:=eps) (tvec o m) (ddot m) (tuple_inner eps m) (dnorm m) (fun v => eq_refl) (length A) A eq_refl Hi) as K.
    pose proof (gs_length o (tvec o m) (ddot m) (dnorm m) (length A) A eq_refl) as L. unfold factors in Hr.
    destruct (gs o (tvec o m) (ddot m) (dnorm m) (length A) A) as [[Q U] B]. cbn [fst snd] in *. destruct L as [_ [L [_ T]]].
    apply In_nth_error in Hr. destruct Hr as [i Hi']. 
    assert (Hlt : (i < length A)%nat) by (rewrite <- L; apply nth_error_Some; congruence).
    specialize (K i Hlt). unfold entry in K.
    assert (E : nth i (nth i (pad o 0 U) []) 0 = nth 0 row 0).
    { clear -Hi'. assert (G : forall U k i, nth_error U i = Some row -> nth (k + i) (nth i (pad o k U) []) 0 = nth 0 row 0).
      { induction U0 as [|r0 U0 IH]; intros k i0 H; destruct i0; try discriminate; cbn [pad nth].
        - injection H as ->. apply (nth_pad_row (eps:=eps) k 0 row).
        - cbn in H. specialize (IH (Datatypes.S k) i0 H). rewrite <- IH. f_equal. lia. }
      exact (G U 0%nat i Hi'). }
    rewrite E in K. lra.
  Qed.
  Section One.
    Variables m n : nat.
    Variable j : mat (S:=R) m n.
    Let Q := fst (factors m (tlist j)).
    Let U := snd (factors m (tlist j)).
    Hypothesis Hd : diag_ok U.
    Let facts : length Q = n /\ tri n U.
    Proof.
      subst Q U. unfold factors. pose proof (gs_length o (tvec o m) (ddot m) (dnorm m) (length (tlist j)) (tlist j) eq_refl) as L.
      rewrite tlist_len in *. destruct (gs _ _ _ _ _ _) as [[Q U] B]. cbn in *. tauto.
    Qed.
    Let Ho : orthonormal (ddot m) Q.
    Proof.
      apply (gs_orthonormal (eps:=eps) (tvec o m) (ddot m) (tuple_inner eps m) (dnorm m) (fun v => eq_refl)); [reflexivity|].
      apply (gs_indep (eps:=eps) (tvec o m) (ddot m) (tuple_inner eps m) (dnorm m) (fun v => eq_refl) _ _ eq_refl). exact Hd.
    Qed.
    Lemma apply_factors : forall v, tapply o j v = lincomb (tvec o m) (trimul (eps:=eps) U (tlist v)) Q.
    Proof.
      intros v. rewrite <- comb_apply. subst U Q. unfold factors.
      apply (gs_comb (eps:=eps) (tvec o m) (ddot m) (tuple_inner eps m) (dnorm m) (fun v => eq_refl)); rewrite ?tlist_len; reflexivity.
    Qed.
    Let trilen : forall U' k y, tri k U' -> length y = k -> length (trimul (eps:=eps) U' y) = k.
    Proof.
      induction U' as [|row U' IH]; intros k y Ht Hy; destruct k; try contradiction; destruct y; try discriminate; [reflexivity|].
      destruct Ht as [_ Ht]. injection Hy as Hy. cbn. f_equal. apply IH; assumption.
    Qed.
    Lemma solution_eq : forall r, trimul (eps:=eps) U (tlist (solution n Q U r)) = apply_qt (ddot m) Q r /\
      length (do_lin_solve o (pad o 0 U) (apply_qt (ddot m) Q r)) = n.
    Proof.
      intros r. destruct facts as [F1 F2].
      destruct (back_subst_ok (eps:=eps) U 0 n (apply_qt (ddot m) Q r) F2) as [E1 E2].
      - unfold apply_qt. rewrite map_length. exact F1.
      - exact Hd.
      - unfold solution, do_lin_solve. rewrite tlist_of by exact E1. auto.
    Qed.
    Lemma solution_qr : forall r, qr_exact (tuple_ops o sqrt m n) (tapply o) j r (solution n Q U r).
    Proof.
      intros r. destruct facts as [F1 F2]. destruct (solution_eq r) as [E1 _].
      exists (fun v => lincomb (tvec o m) (tlist v) Q), (fun v => of_list 0 n (trimul (eps:=eps) U (tlist v))),
        (fun s => of_list 0 n (apply_qt (ddot m) Q s)). repeat split.
      - intros v. rewrite apply_factors, tlist_of; [reflexivity|]. apply trilen; [exact F2|apply tlist_len].
      - intros v w. cbn [n_rdot n_dot tuple_ops]. change (@tdot R o m) with (ddot m).
        rewrite (q_dot (eps:=eps) (tvec o m) (ddot m) (tuple_inner eps m) Q _ _ Ho); [apply sp_tdot|]. rewrite tlist_len, F1. reflexivity.
      - intros s v. cbn [n_rdot n_dot tuple_ops]. rewrite <- sp_tdot, tlist_of; [|unfold apply_qt; rewrite map_length; exact F1].
        apply (sp_qt (eps:=eps) (tvec o m) (ddot m) (tuple_inner eps m)).
      - rewrite E1. reflexivity.
    Qed.
    (** a solvable system is solved *)
    Lemma solution_exact : forall e, tapply o j (solution n Q U (tapply o j e)) = tapply o j e.
    Proof.
      intros e. destruct facts as [F1 F2]. destruct (solution_eq (tapply o j e)) as [E1 _].
      rewrite apply_factors at 1. rewrite E1, (apply_factors e).
      rewrite (qt_q (eps:=eps) (tvec o m) (ddot m) (tuple_inner eps m) Q _ Ho); [reflexivity|].
      rewrite (trilen U n _ F2); [symmetry; exact F1|apply tlist_len].
    Qed.
  End One.
End TupleSolve.

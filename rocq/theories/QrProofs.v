(** The modified Gram-Schmidt loops factorise every matrix with independent columns. *)
From Coq Require Import Reals ZArith List Bool Lia Lra.
From Verif Require Import Base RInst Laws LawInst NonlinLaws QrModel QrSpec.
Import ListNotations.

(** ** The loops, as a recursive function *)
Section Loops.
  Context {S V : Type}.
  Variable o : sops S.
  Variable vo : vops S V.
  Variable dot : V -> V -> S.
  Variable norm : V -> S.
  Definition proj (q b : V) : V := vadd vo (vscale vo (sopp o (dot q b)) q) (vscale vo (s1 o) b).
  Definition unit_of (a : V) : V := vscale vo (sdiv o (s1 o) (norm a)) a.
  (** Q, rows of R from the diagonal on, final content of A *)
  Fixpoint gs (m : nat) (A : list V) : list V * list (list S) * list V :=
    match m, A with
    | Datatypes.S m', a :: A' =>
        let q := unit_of a in
        let '(Q, U, B) := gs m' (map (proj q) A') in
        (q :: Q, (norm a :: map (dot q) A') :: U, a :: B)
    | _, _ => ([], [], [])
    end.
  Fixpoint pad (k : nat) (U : list (list S)) : list (list S) :=
    match U with [] => [] | row :: U' => (repeat (s0 o) k ++ row) :: pad (Datatypes.S k) U' end.
  Fixpoint tri (m : nat) (U : list (list S)) : Prop :=
    match m, U with
    | O, [] => True
    | Datatypes.S m', row :: U' => length row = m /\ tri m' U'
    | _, _ => False
    end.
  Lemma lset_app : forall A (pre : list A) x y t, lset (length pre) x (pre ++ y :: t) = Some (pre ++ x :: t).
  Proof. induction pre as [|a pre IH]; intros x y t; cbn; [reflexivity|]. rewrite IH. reflexivity. Qed.
  Lemma nth_app : forall A (pre : list A) x t, nth_error (pre ++ x :: t) (length pre) = Some x.
  Proof. induction pre as [|a pre IH]; intros x t; cbn; [reflexivity|apply IH]. Qed.
  Lemma get_here : forall (pre : list V) a t Q (U : list (list S)), get_col (length pre) (mk_mgs (pre ++ a :: t) Q U) = (Ok a, mk_mgs (pre ++ a :: t) Q U).
  Proof. intros. unfold get_col. cbn. rewrite nth_app. reflexivity. Qed.
  Lemma set_here : forall (pre : list V) a b t Q (U : list (list S)), set_col (length pre) b (mk_mgs (pre ++ a :: t) Q U) = (Ok tt, mk_mgs (pre ++ b :: t) Q U).
  Proof. intros. unfold set_col. cbn. rewrite lset_app. reflexivity. Qed.
  Lemma setq_here : forall (pre : list V) a b t A (U : list (list S)), set_q (length pre) b (mk_mgs A (Some (pre ++ a :: t)) U) = (Ok tt, mk_mgs A (Some (pre ++ b :: t)) U).
  Proof. intros. unfold set_q. cbn. rewrite lset_app. reflexivity. Qed.
  Lemma setr_here : forall (pre : list (list S)) rpre x y rt t (A : list V) Q,
    set_r (length pre) (length rpre) x (mk_mgs A Q (pre ++ (rpre ++ y :: rt) :: t)) =
    (Ok tt, mk_mgs A Q (pre ++ (rpre ++ x :: rt) :: t)).
  Proof. intros. unfold set_r. cbn. rewrite nth_app, lset_app, lset_app. reflexivity. Qed.
  Lemma inner_ok : forall q rest k pre Rpre rpre junk Rt Q, length Rpre = k -> length rpre = length pre ->
    length junk = length rest ->
    inner_loop o vo dot k q (length pre) (length rest) (mk_mgs (pre ++ rest) Q (Rpre ++ (rpre ++ junk) :: Rt)) =
    (Ok tt, mk_mgs (pre ++ map (proj q) rest) Q (Rpre ++ (rpre ++ map (dot q) rest) :: Rt)).
  Proof.
    intros q rest. induction rest as [|a rest IH]; intros k pre Rpre rpre junk Rt Q Hk Hr Hj.
    - destruct junk; [|discriminate]. reflexivity.
    - destruct junk as [|y junk]; [discriminate|]. cbn [length inner_loop]. unfold bind at 1. rewrite get_here.
      unfold bind at 1. rewrite <- Hk. rewrite <- Hr at 1. rewrite setr_here.
      unfold bind at 1. rewrite set_here. fold (proj q a).
      specialize (IH k (pre ++ [proj q a]) Rpre (rpre ++ [dot q a]) junk Rt Q Hk).
      rewrite !app_length in IH. cbn [length] in IH. rewrite !Nat.add_1_r in IH. rewrite <- !app_assoc in IH. cbn [app] in IH.
      rewrite Hk. rewrite IH; [reflexivity|lia|cbn in Hj; lia].
  Qed.
  Lemma gs_length : forall m A, length A = m -> let '(Q, U, B) := gs m A in length Q = m /\ length U = m /\ length B = m /\ tri m U.
  Proof.
    induction m as [|m IH]; intros A HA; [cbn; auto|]. destruct A as [|a A]; [discriminate|]. cbn [gs].
    specialize (IH (map (proj (unit_of a)) A)). rewrite map_length in IH. injection HA as HA. specialize (IH HA).
    destruct (gs m _) as [[Q U] B]. cbn. rewrite map_length. intuition lia.
  Qed.
  Lemma outer_ok : forall m k pre rest qpre qold qx Rpre junk, length pre = k -> length qpre = k -> length Rpre = k ->
    length rest = m -> length qold = m -> tri m junk ->
    outer_loop o vo dot norm k m (mk_mgs (pre ++ rest) (Some (qpre ++ qold ++ qx)) (Rpre ++ pad k junk)) =
    (let '(Q, U, B) := gs m rest in (Ok tt, mk_mgs (pre ++ B) (Some (qpre ++ Q ++ qx)) (Rpre ++ pad k U))).
  Proof.
    induction m as [|m IH]; intros k pre rest qpre qold qx Rpre junk Hp Hq HR Hr Ho Hj.
    - destruct rest; [|discriminate]. destruct qold; [|discriminate]. destruct junk; [|contradiction]. reflexivity.
    - destruct rest as [|a rest]; [discriminate|]. destruct qold as [|q0 qold]; [discriminate|].
      destruct junk as [|row junk]; [contradiction|]. destruct Hj as [Hrow Hj]. destruct row as [|d row]; [discriminate|].
      injection Hr as Hr. injection Ho as Ho. injection Hrow as Hrow. cbn [outer_loop gs pad app].
      unfold bind at 1. rewrite <- Hp at 1. rewrite get_here. unfold bind at 1.
      assert (E : set_r k k (norm a) (mk_mgs (pre ++ a :: rest) (Some (qpre ++ q0 :: qold ++ qx)) (Rpre ++ (repeat (s0 o) k ++ d :: row) :: pad (Datatypes.S k) junk)) =
        (Ok tt, mk_mgs (pre ++ a :: rest) (Some (qpre ++ q0 :: qold ++ qx)) (Rpre ++ (repeat (s0 o) k ++ norm a :: row) :: pad (Datatypes.S k) junk))).
      { rewrite <- (setr_here Rpre (repeat (s0 o) k) (norm a) d). rewrite repeat_length, HR. reflexivity. }
      rewrite E. cbv zeta. fold (unit_of a). unfold bind at 1. rewrite <- Hq at 1. rewrite setq_here.
      unfold bind at 1.
      pose proof (inner_ok (unit_of a) rest k (pre ++ [a]) Rpre (repeat (s0 o) k ++ [norm a]) row (pad (Datatypes.S k) junk) (Some (qpre ++ unit_of a :: qold ++ qx)) HR) as K.
      rewrite !app_length, repeat_length, Hp in K. cbn [length] in K. rewrite !Nat.add_1_r in K. rewrite <- !app_assoc in K. cbn [app] in K.
      rewrite Hr in K. rewrite K by lia.
      assert (Hl : length (map (proj (unit_of a)) rest) = m) by (rewrite map_length; exact Hr).
      specialize (IH (Datatypes.S k) (pre ++ [a]) (map (proj (unit_of a)) rest) (qpre ++ [unit_of a]) qold qx
        (Rpre ++ [repeat (s0 o) k ++ norm a :: map (dot (unit_of a)) rest]) junk).
      rewrite !app_length in IH. cbn [length] in IH. rewrite <- !app_assoc in IH. cbn [app] in IH.
      rewrite IH by (try assumption; lia). clear IH.
      destruct (gs m (map (proj (unit_of a)) rest)) as [[Q U] B]. rewrite <- !app_assoc. cbn [app pad]. reflexivity.
  Qed.
  Lemma tri_zero : forall n k, pad k (map (fun i => repeat (s0 o) i) (rev (seq 1 n))) = repeat (repeat (s0 o) (k + n)) n.
  Proof.
    induction n as [|n IH]; intros k; [reflexivity|]. rewrite seq_S, rev_app_distr. cbn [rev app map pad].
    change (1 + n)%nat with (Datatypes.S n). rewrite IH. rewrite <- repeat_app.
    replace (Datatypes.S k + n)%nat with (k + Datatypes.S n)%nat by lia. reflexivity.
  Qed.
  Lemma tri_zero_tri : forall n, tri n (map (fun i => repeat (s0 o) i) (rev (seq 1 n))).
  Proof.
    induction n as [|n IH]; [exact I|]. rewrite seq_S, rev_app_distr. cbn [rev app map tri]. split; [apply repeat_length|exact IH].
  Qed.
  (** A new object, and one used before on matrices with the same number of columns. *)
  Definition usable (s : mgs S V) : Prop :=
    s = new_mgs (mg_A s) \/
    (exists q junk, mg_Q s = Some q /\ length q = length (mg_A s) /\ mg_R s = pad 0 junk /\ tri (length (mg_A s)) junk).
  Lemma tri_len : forall m U, tri m U -> length U = m.
  Proof. induction m as [|m IH]; intros [|row U] H; cbn in *; try contradiction; [reflexivity|f_equal; apply IH; apply H]. Qed.
  Lemma pad_len : forall U k, length (pad k U) = length U.
  Proof. induction U as [|row U IH]; intros k; cbn; [reflexivity|f_equal; apply IH]. Qed.
  Lemma thin_ok : forall s, usable s ->
    compute_thin o vo dot norm s = let '(Q, U, B) := gs (length (mg_A s)) (mg_A s) in (Ok tt, mk_mgs B (Some Q) (pad 0 U)).
  Proof.
    intros s Hu. unfold compute_thin. set (n := length (mg_A s)).
    assert (K : forall q junk, length q = n -> tri n junk ->
      outer_loop o vo dot norm 0 n (mk_mgs (mg_A s) (Some q) (pad 0 junk)) = (let '(Q, U, B) := gs n (mg_A s) in (Ok tt, mk_mgs B (Some Q) (pad 0 U)))).
    { intros q junk Hq Hj. pose proof (outer_ok n 0 [] (mg_A s) [] q [] [] junk eq_refl eq_refl eq_refl eq_refl Hq Hj) as K.
      cbn [app] in K. rewrite app_nil_r in K. rewrite K. destruct (gs n (mg_A s)) as [[Q U] B]. rewrite app_nil_r. reflexivity. }
    destruct Hu as [Hu|[q [junk [HQ [Hq [HR Hj]]]]]].
    - unfold bind, create_q, create_r. rewrite Hu. cbn [mg_A mg_Q mg_R new_mgs length].
      fold n.
      destruct n as [|n'] eqn:En.
      + exact (K [] [] eq_refl I).
      + cbn [Nat.eqb andb]. rewrite <- En in *.
        rewrite <- (K (repeat (vzero vo) n) _ (repeat_length _ _) (tri_zero_tri n)), tri_zero. reflexivity.
    - unfold bind, create_q, create_r. rewrite HQ. destruct s as [A Q0 R0]. cbn [mg_A mg_Q mg_R] in *. subst Q0 R0.
      fold n in Hj. rewrite pad_len, (tri_len _ _ Hj).
      assert (H1 : Nat.eqb match pad 0 junk with [] => 0%nat | row :: _ => length row end n = true).
      { apply Nat.eqb_eq. destruct n as [|n'], junk as [|row junk]; try contradiction; [reflexivity|]. exact (proj1 Hj). }
      rewrite Nat.eqb_refl, H1. cbn [andb]. exact (K q junk Hq Hj).
  Qed.
End Loops.

(** ** Exact arithmetic *)
From Verif Require Import NonlinDiag NonlinModel NonlinSpec NonlinExact.
Section Exact.
  Local Open Scope R_scope.
  Context {eps : R} {V : Type} (vo : vops R V) (dot : V -> V -> R).
  Hypothesis HI : inner eps vo dot.
  Notation o := (Rops eps).
  Variable norm : V -> R.
  Hypothesis Hnorm : forall v, norm v = sqrt (dot v v).
  Notation proj := (proj o vo dot).
  Notation unit_of := (unit_of o vo norm).
  Notation gs := (gs o vo dot norm).
  Notation pad := (pad o).
  Ltac dots := repeat (rewrite (in_add _ _ HI) || rewrite (in_scale _ _ HI) || rewrite (dot_add_r _ _ HI)
                       || rewrite (dot_scale_r _ _ HI) || rewrite (dot_0_l _ _ HI) || rewrite (dot_0_r _ _ HI)).
  Ltac vdots := apply (dot_ext _ _ HI); intros z; dots.
  Lemma proj_dot : forall q b z, dot (proj q b) z = dot b z - dot q b * dot q z.
  Proof. intros q b z. unfold QrProofs.proj. dots. change (sopp o) with Ropp. change (s1 o) with 1. ring. Qed.
  Lemma proj_comb : forall q cs A, lincomb vo cs (map (proj q) A) = proj q (lincomb vo cs A).
  Proof.
    intros q. induction cs as [|c cs IH]; intros [|a A]; cbn [lincomb map]; try (vdots; rewrite proj_dot; dots; ring).
    rewrite IH. vdots. rewrite !proj_dot. dots. ring.
  Qed.
  Lemma comb_zero : forall A, lincomb vo (repeat 0 (length A)) A = vzero vo.
  Proof. induction A as [|a A IH]; [reflexivity|]. cbn [lincomb length repeat]. rewrite IH. vdots. ring. Qed.
  Lemma indep_head : forall a A, independent vo (a :: A) -> 0 < dot a a.
  Proof.
    intros a A Hi. destruct (Rtotal_order 0 (dot a a)) as [h|[h|h]]; [exact h| |].
    - exfalso. assert (Ha : a = vzero vo) by (apply (in_zero _ _ HI); symmetry; exact h).
      assert (K : 1 = 0).
      { apply (Hi (1 :: repeat 0 (length A))).
        - cbn. rewrite repeat_length. reflexivity.
        - cbn [lincomb]. rewrite comb_zero, Ha. vdots. ring.
        - left. reflexivity. }
      lra.
    - pose proof (in_pos _ _ HI a). lra.
  Qed.
  Lemma unit_dot : forall a z, dot (unit_of a) z = / sqrt (dot a a) * dot a z.
  Proof.
    intros a z. unfold QrProofs.unit_of. dots. rewrite Hnorm. change (sdiv o) with Rdiv. change (s1 o) with 1. unfold Rdiv. ring.
  Qed.
  Lemma sqrt_pos : forall a, 0 < dot a a -> 0 < sqrt (dot a a) /\ sqrt (dot a a) * sqrt (dot a a) = dot a a.
  Proof. intros a Ha. split; [apply sqrt_lt_R0; exact Ha|apply sqrt_sqrt; lra]. Qed.
  Lemma unit_unit : forall a, 0 < dot a a -> dot (unit_of a) (unit_of a) = 1.
  Proof.
    intros a Ha. destruct (sqrt_pos a Ha) as [H1 H2]. rewrite unit_dot, (in_sym _ _ HI a (unit_of a)), unit_dot.
    rewrite <- H2 at 3. field. lra.
  Qed.
  Lemma indep_tail : forall a A, independent vo (a :: A) -> independent vo (map (proj (unit_of a)) A).
  Proof.
    intros a A Hi cs Hl E. rewrite map_length in Hl. rewrite proj_comb in E.
    set (w := lincomb vo cs A) in *. destruct (sqrt_pos a (indep_head a A Hi)) as [H1 H2].
    assert (K : forall c, In c (- (dot (unit_of a) w * / sqrt (dot a a)) :: cs) -> c = 0).
    { apply Hi; [cbn; rewrite Hl; reflexivity|]. cbn [lincomb]. fold w. rewrite <- E. vdots. rewrite proj_dot, !unit_dot.
      ring. }
    intros c Hc. apply K. right. exact Hc.
  Qed.
  Lemma gs_perp : forall m A v, (forall b, In b A -> dot v b = 0) ->
    forall p, In p (fst (fst (gs m A))) -> dot v p = 0.
  Proof.
    induction m as [|m IH]; intros A v Hv p Hp; [contradiction|]. destruct A as [|a A]; [contradiction|]. cbn [QrProofs.gs] in Hp.
    assert (Hu : dot v (unit_of a) = 0).
    { rewrite (in_sym _ _ HI), unit_dot, (in_sym _ _ HI a v), (Hv a (or_introl eq_refl)). ring. }
    specialize (IH (map (proj (unit_of a)) A) v). destruct (gs m _) as [[Q U] B]. cbn [fst] in *.
    destruct Hp as [<-|Hp]; [exact Hu|]. apply IH; [|exact Hp].
    intros b Hb. apply in_map_iff in Hb. destruct Hb as [b' [<- Hb']]. rewrite (in_sym _ _ HI), proj_dot.
    rewrite (in_sym _ _ HI b'), (Hv b' (or_intror Hb')), (in_sym _ _ HI (unit_of a) v), Hu. ring.
  Qed.
  Lemma gs_orthonormal : forall m A, length A = m -> independent vo A -> orthonormal dot (fst (fst (gs m A))).
  Proof.
    induction m as [|m IH]; intros A HA Hi i j p q Hp Hq.
    - destruct i; discriminate.
    - destruct A as [|a A]; [discriminate|]. cbn [QrProofs.gs] in Hp, Hq. injection HA as HA.
      assert (HA' : length (map (proj (unit_of a)) A) = m) by (rewrite map_length; exact HA).
      pose proof (IH _ HA' (indep_tail a A Hi)) as IHo.
      pose proof (unit_unit a (indep_head a A Hi)) as Huu.
      assert (Hperp : forall p, In p (fst (fst (gs m (map (proj (unit_of a)) A)))) -> dot (unit_of a) p = 0).
      { apply gs_perp. intros b Hb. apply in_map_iff in Hb. destruct Hb as [b' [<- _]].
        rewrite (in_sym _ _ HI), proj_dot, Huu, (in_sym _ _ HI b'). ring. }
      destruct (gs m _) as [[Q U] B]. cbn [fst] in *.
      destruct i as [|i], j as [|j]; cbn [nth_error] in Hp, Hq; cbn [Nat.eqb].
      + injection Hp as <-. injection Hq as <-. exact Huu.
      + injection Hp as <-. apply Hperp. exact (nth_error_In _ _ Hq).
      + injection Hq as <-. rewrite (in_sym _ _ HI). apply Hperp. exact (nth_error_In _ _ Hp).
      + exact (IHo i j p q Hp Hq).
  Qed.
  (** columns of the padded matrix *)
  Lemma nth_pad_row : forall k j (row : list R), nth (k + j) (repeat (s0 o) k ++ row) 0 = nth j row 0.
  Proof. intros k j row. rewrite app_nth2; rewrite repeat_length; [f_equal; lia|lia]. Qed.
  Lemma nth_pad_low : forall k j (row : list R), (j < k)%nat -> nth j (repeat (s0 o) k ++ row) 0 = 0.
  Proof.
    intros k j row Hj. rewrite app_nth1; [|rewrite repeat_length; exact Hj].
    destruct (nth_in_or_default j (repeat (s0 o) k) 0) as [h|h]; [|exact h]. apply repeat_spec in h. exact h.
  Qed.
  Lemma column_low : forall U k j, (j < k)%nat -> column (pad k U) j = repeat 0 (length U).
  Proof.
    induction U as [|row U IH]; intros k j Hj; [reflexivity|]. unfold column in *. cbn [QrProofs.pad map length repeat].
    rewrite (nth_pad_low k j row Hj), (IH (Datatypes.S k) j) by lia. reflexivity.
  Qed.
  Lemma column_pad : forall U k l j, column (pad (k + l) U) (k + j) = column (pad l U) j.
  Proof.
    induction U as [|row U IH]; intros k l j; [reflexivity|]. unfold column in *. cbn [QrProofs.pad map]. f_equal.
    - destruct (Nat.lt_ge_cases j l) as [h|h].
      + rewrite !nth_pad_low by lia. reflexivity.
      + replace (k + j)%nat with (k + l + (j - l))%nat by lia. replace j with (l + (j - l))%nat at 2 by lia.
        rewrite !nth_pad_row. reflexivity.
    - specialize (IH k (Datatypes.S l) j). rewrite Nat.add_succ_r in IH. exact IH.
  Qed.
  Lemma gs_product : forall m A, length A = m -> independent vo A ->
    forall j a, nth_error A j = Some a -> a = lincomb vo (column (pad 0 (snd (fst (gs m A)))) j) (fst (fst (gs m A))).
  Proof.
    induction m as [|m IH]; intros A HA Hi j b Hb; [destruct A; [destruct j|]; discriminate|].
    destruct A as [|a A]; [discriminate|]. injection HA as HA.
    assert (HA' : length (map (proj (unit_of a)) A) = m) by (rewrite map_length; exact HA).
    pose proof (gs_length o vo dot norm m _ HA') as HL.
    specialize (IH _ HA' (indep_tail a A Hi)). cbn [QrProofs.gs]. destruct (sqrt_pos a (indep_head a A Hi)) as [H1 H2].
    destruct (gs m (map (proj (unit_of a)) A)) as [[Q U] B]. cbn [fst snd] in *. destruct HL as [HQ [HU _]].
    destruct j as [|j]; cbn [nth_error] in Hb.
    - injection Hb as <-. unfold column at 1. cbn [QrProofs.pad map repeat app nth lincomb]. fold (column (pad 1 U) 0).
      rewrite (column_low U 1 0) by lia. rewrite HU, <- HQ, comb_zero. vdots. rewrite unit_dot, Hnorm. field. lra.
    - pose proof (map_nth_error (proj (unit_of a)) _ _ Hb) as Hb'. specialize (IH _ _ Hb').
      unfold column at 1. cbn [QrProofs.pad map repeat app nth lincomb].
      fold (column (pad 1 U) (Datatypes.S j)). pose proof (column_pad U 1 0 j) as Ec. cbn [Nat.add] in Ec. rewrite Ec, <- IH.
      assert (E : nth j (map (dot (unit_of a)) A) 0 = dot (unit_of a) b).
      { erewrite nth_error_nth; [reflexivity|]. apply map_nth_error. exact Hb. }
      rewrite E. vdots. rewrite proj_dot, !unit_dot. ring.
  Qed.
  Lemma gs_diag : forall m A, length A = m -> independent vo A ->
    forall i, (i < m)%nat -> 0 < entry (pad 0 (snd (fst (gs m A)))) i i.
  Proof.
    assert (K : forall U k i, (i < length U)%nat -> entry (pad k U) i (k + i) = nth 0 (nth i U []) 0).
    { induction U as [|row U IH]; intros k i Hi; [cbn in Hi; lia|]. unfold entry in *. destruct i as [|i]; cbn [QrProofs.pad nth].
      - rewrite nth_pad_row. destruct row; reflexivity.
      - rewrite Nat.add_succ_r. apply (IH (Datatypes.S k) i). cbn in Hi. lia. }
    assert (L : forall m A, length A = m -> independent vo A -> forall i, (i < m)%nat -> 0 < nth 0 (nth i (snd (fst (gs m A))) []) 0).
    { induction m as [|m IH]; intros A HA Hi i Hm; [lia|]. destruct A as [|a A]; [discriminate|]. injection HA as HA.
      assert (HA' : length (map (proj (unit_of a)) A) = m) by (rewrite map_length; exact HA).
      specialize (IH _ HA' (indep_tail a A Hi)). cbn [QrProofs.gs]. destruct (gs m _) as [[Q U] B]. cbn [fst snd] in *.
      destruct i as [|i]; cbn [nth].
      - rewrite Hnorm. apply sqrt_pos. exact (indep_head a A Hi).
      - apply IH. lia. }
    intros m A HA Hi i Hm. pose proof (gs_length o vo dot norm m A HA) as HL.
    specialize (L m A HA Hi i Hm). destruct (gs m A) as [[Q U] B]. cbn [fst snd] in *. specialize (K U 0%nat i). cbn [Nat.add] in K. rewrite K; [exact L|lia].
  Qed.
  Lemma pad_upper : forall U k i j, (j < k + i)%nat -> entry (pad k U) i j = 0.
  Proof.
    induction U as [|row U IH]; intros k i j Hj; unfold entry in *.
    - destruct i, j; reflexivity.
    - destruct i as [|i]; cbn [QrProofs.pad nth]; [apply nth_pad_low; lia|]. apply (IH (Datatypes.S k)). lia.
  Qed.
  Lemma pad_width : forall U k m row, tri m U -> In row (pad k U) -> length row = (k + m)%nat.
  Proof.
    induction U as [|r U IH]; intros k m row Ht Hr; [contradiction|]. destruct m as [|m]; [contradiction|]. destruct Ht as [Hl Ht].
    destruct Hr as [<-|Hr].
    - rewrite app_length, repeat_length. lia.
    - rewrite (IH _ _ _ Ht Hr). lia.
  Qed.
  Theorem mgs_qr : forall s, usable o s -> independent vo (mg_A s) ->
    exists B Q U, compute_thin o vo dot norm s = (Ok tt, mk_mgs B (Some Q) U) /\ is_qr vo dot (mg_A s) Q U /\
      usable o (mk_mgs B (Some Q) U) /\ length B = length (mg_A s).
  Proof.
    intros s Hu Hi. rewrite (thin_ok o vo dot norm s Hu).
    pose proof (gs_length o vo dot norm _ (mg_A s) eq_refl) as HL.
    pose proof (gs_orthonormal _ _ eq_refl Hi) as HO. pose proof (gs_product _ _ eq_refl Hi) as HP. pose proof (gs_diag _ _ eq_refl Hi) as HD.
    destruct (gs (length (mg_A s)) (mg_A s)) as [[Q U] B]. cbn [fst snd] in *. destruct HL as [L1 [L2 [L3 L4]]].
    exists B, Q, (pad 0 U). split; [reflexivity|]. split; [|split].
    - split; try assumption.
      + rewrite pad_len. exact L2.
      + intros row Hr. exact (pad_width U 0 _ row L4 Hr).
      + intros i j Hj. apply pad_upper. exact Hj.
    - right. exists Q, U. cbn. rewrite L3. auto.
    - exact L3.
  Qed.
End Exact.

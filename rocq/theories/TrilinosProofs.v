(** Proofs for TrilinosSpec. *)
From Coq Require Import ZArith List Bool Lia.
From Verif Require Import Base Laws ExplicitModel LspgModel LspgSpec LspgMore Tuples TrilinosModel TrilinosSpec.
Import ListNotations.

Section Lookup.
  Lemma local_found ids g i : local_element ids g = Some i -> nth_error ids i = Some g.
  Proof.
    revert i. induction ids as [|h t IH]; intros i; cbn; [discriminate|].
    destruct (Z.eqb_spec h g) as [->|N].
    - intros E. injection E as <-. reflexivity.
    - destruct (local_element t g) as [k|]; cbn; [|discriminate]. intros E. injection E as <-. exact (IH k eq_refl).
  Qed.
  Lemma local_in ids g : In g ids -> exists i, local_element ids g = Some i.
  Proof.
    induction ids as [|h t IH]; cbn; [tauto|]. destruct (Z.eqb_spec h g) as [->|N]; [eexists; reflexivity|].
    intros [->|H]; [congruence|]. destruct (IH H) as [i ->]. eexists. reflexivity.
  Qed.
  Lemma local_missing ids g : ~ In g ids -> local_element ids g = None.
  Proof.
    intros H. destruct (local_element ids g) as [i|] eqn:E; [|reflexivity].
    exfalso. apply H. apply local_found in E. eapply nth_error_In. exact E.
  Qed.
End Lookup.

Section Update.
  Context {S : Type} (o : sops S) (alpha beta : S).
  Notation comb a b := (sadd o (smul o alpha a) (smul o beta b)).

  (** One column: the rows are combined with stencil entries found under the same index. *)
  Lemma update_col_ok (st : tmv S) j : forall ids col,
    length col = length ids ->
    (forall g, In g ids -> exists b, entry st (local_element (t_ids st) g) j = Ok b) ->
    exists l, update_col o alpha st beta j ids col = Ok l /\ length l = length ids /\
      forall i g a, nth_error ids i = Some g -> nth_error col i = Some a ->
        exists b, entry st (local_element (t_ids st) g) j = Ok b /\ nth_error l i = Some (comb a b).
  Proof.
    induction ids as [|g ids IH]; intros [|a col] HL HE; cbn in HL; try discriminate.
    - exists []. split; [reflexivity|]. split; [reflexivity|]. intros [|i] g a; discriminate.
    - destruct (HE g (or_introl eq_refl)) as [b Hb].
      destruct (IH col) as (l & E & L & V); [lia|intros h Hh; apply HE; right; exact Hh|].
      exists (comb a b :: l). cbn [update_col]. rewrite Hb, E. split; [reflexivity|]. split; [cbn; lia|].
      intros [|i] h c; cbn [nth_error]; intros E1 E2.
      + injection E1 as <-. injection E2 as <-. exists b. split; [exact Hb|reflexivity].
      + exact (V i h c E1 E2).
  Qed.
  Lemma update_cols_ok (st : tmv S) ids : forall cols j,
    Forall (fun c => length c = length ids) cols ->
    (forall k g, (j <= k < j + length cols)%nat -> In g ids -> exists b, entry st (local_element (t_ids st) g) k = Ok b) ->
    exists l, update_cols o alpha st beta j ids cols = Ok l /\ length l = length cols /\
      Forall (fun c => length c = length ids) l /\
      forall k c i g a, nth_error cols k = Some c -> nth_error ids i = Some g -> nth_error c i = Some a ->
        exists b c', entry st (local_element (t_ids st) g) (j + k) = Ok b /\ nth_error l k = Some c' /\
                     nth_error c' i = Some (comb a b).
  Proof.
    induction cols as [|c cols IH]; intros j HL HE.
    - exists []. repeat split; [constructor|]. intros [|k] c i g a; discriminate.
    - inversion_clear HL as [|? ? H1 H2].
      destruct (update_col_ok st j ids c H1) as (c' & E & L & V).
      { intros g Hg. apply (HE j g); [cbn; lia|exact Hg]. }
      destruct (IH (Datatypes.S j) H2) as (l & E2 & L2 & F2 & V2).
      { intros k g Hk Hg. apply (HE k g); [cbn; lia|exact Hg]. }
      exists (c' :: l). cbn [update_cols]. rewrite E, E2. split; [reflexivity|]. split; [cbn; lia|].
      split; [constructor; assumption|].
      intros [|k] d i g a; cbn [nth_error]; intros N1 N2 N3.
      + injection N1 as <-. destruct (V i g a N2 N3) as (b & B1 & B2). exists b, c'. rewrite Nat.add_0_r. auto.
      + destruct (V2 k d i g a N1 N2 N3) as (b & d' & B1 & B2 & B3). exists b, d'.
        rewrite Nat.add_succ_r. auto.
  Qed.

  Lemma nth_lt {A} (l : list A) i a : nth_error l i = Some a -> (i < length l)%nat.
  Proof. intros H. apply nth_error_Some. congruence. Qed.
  Lemma entry_value (st : tmv S) g j i b : local_element (t_ids st) g = Some i ->
    entry st (Some i) j = Ok b -> value st g j b.
  Proof.
    intros Hi. unfold entry. destruct (nth_error (t_cols st) j) as [c|] eqn:Ec; [|discriminate].
    destruct (nth_error c i) as [x|] eqn:Ex; [|discriminate]. intros E. injection E as <-.
    exists i, c. split; [apply local_found; exact Hi|]. split; assumption.
  Qed.
  Lemma value_fun (v : tmv S) g j a b : well_formed v -> value v g j a -> value v g j b -> a = b.
  Proof.
    intros [ND _] (i & c & I1 & C1 & A1) (i' & c' & I2 & C2 & A2).
    assert (c = c') by congruence. subst c'.
    assert (i = i') by (eapply NoDup_nth_error; [exact ND|eapply nth_lt; exact I1|congruence]). subst i'. congruence.
  Qed.
  Lemma stencil_entry (sample st : tmv S) : well_formed st ->
    incl (t_ids sample) (t_ids st) -> (length (t_cols sample) <= length (t_cols st))%nat ->
    forall k g, (k < length (t_cols sample))%nat -> In g (t_ids sample) ->
    exists b, entry st (local_element (t_ids st) g) k = Ok b /\ value st g k b.
  Proof.
    intros [_ WF] HI HC k g Hk Hg. destruct (local_in _ _ (HI _ Hg)) as [i Hi]. rewrite Hi.
    destruct (nth_error (t_cols st) k) as [c|] eqn:Ec; [|apply nth_error_None in Ec; lia].
    assert (Lc : length c = length (t_ids st)) by (rewrite Forall_forall in WF; apply WF; eapply nth_error_In; exact Ec).
    pose proof (nth_lt _ _ _ (local_found _ _ _ Hi)) as Hlt.
    destruct (nth_error c i) as [x|] eqn:Ex; [|apply nth_error_None in Ex; lia].
    exists x. assert (E : entry st (Some i) k = Ok x) by (unfold entry; rewrite Ec, Ex; reflexivity).
    split; [exact E|exact (entry_value st g k i x Hi E)].
  Qed.

  Theorem update_combines (sample st : tmv S) : well_formed sample -> well_formed st ->
    incl (t_ids sample) (t_ids st) -> (length (t_cols sample) <= length (t_cols st))%nat ->
    exists v, update_sample o sample alpha st beta = Ok v /\ well_formed v /\ t_ids v = t_ids sample /\
      length (t_cols v) = length (t_cols sample) /\
      forall g j c, value v g j c <-> exists a b, value sample g j a /\ value st g j b /\ c = comb a b.
  Proof.
    intros WS WT HI HC. pose proof WS as [ND WF].
    pose proof (stencil_entry sample st WT HI HC) as HE.
    destruct (update_cols_ok st (t_ids sample) (t_cols sample) 0 WF) as (l & E & L & F & V).
    { intros k g Hk Hg. destruct (HE k g) as (b & B1 & _); [lia|exact Hg|]. exists b. exact B1. }
    assert (WV : well_formed (mk_tmv (t_ids sample) l)) by (split; assumption).
    assert (VAL : forall g j a, value sample g j a -> exists b, value st g j b /\ value (mk_tmv (t_ids sample) l) g j (comb a b)).
    { intros g j a (i & c & I1 & C1 & A1). destruct (V j c i g a C1 I1 A1) as (b & c' & B1 & B2 & B3).
      exists b. split.
      - destruct (HE j g) as (b2 & E1 & E2); [eapply nth_lt; exact C1|eapply nth_error_In; exact I1|].
        cbn [plus] in B1. rewrite B1 in E1. injection E1 as <-. exact E2.
      - exists i, c'. split; [exact I1|]. split; assumption. }
    exists (mk_tmv (t_ids sample) l). unfold update_sample. rewrite E. split; [reflexivity|]. split; [exact WV|].
    split; [reflexivity|]. split; [exact L|]. intros g j c. split.
    - intros Hc. pose proof Hc as (i & c' & I1 & C1 & A1). cbn [t_ids t_cols] in *.
      destruct (nth_error (t_cols sample) j) as [sc|] eqn:Es.
      2: { apply nth_error_None in Es. apply nth_lt in C1. lia. }
      assert (Lsc : length sc = length (t_ids sample)) by (rewrite Forall_forall in WF; apply WF; eapply nth_error_In; exact Es).
      destruct (nth_error sc i) as [a|] eqn:Ea.
      2: { apply nth_error_None in Ea. apply nth_lt in I1. lia. }
      assert (Va : value sample g j a) by (exists i, sc; auto).
      destruct (VAL g j a Va) as (b & Vb & Vc). exists a, b. split; [exact Va|]. split; [exact Vb|].
      exact (value_fun _ _ _ _ _ WV Hc Vc).
    - intros (a & b & Va & Vb & ->). destruct (VAL g j a Va) as (b' & Vb' & Vc).
      rewrite (value_fun _ _ _ _ _ WT Vb Vb'). exact Vc.
  Qed.

  (** An index that the stencil does not have *)
  Lemma update_col_missing (st : tmv S) j : forall ids col g,
    length col = length ids -> In g ids -> ~ In g (t_ids st) ->
    (exists c, nth_error (t_cols st) j = Some c /\ length c = length (t_ids st)) ->
    update_col o alpha st beta j ids col = Undef UOutOfBounds.
  Proof.
    induction ids as [|h ids IH]; intros [|a col] g HL Hg Hm Hc; cbn in HL; try discriminate; [destruct Hg|].
    cbn [update_col]. destruct (in_dec Z.eq_dec h (t_ids st)) as [Hin|Hout].
    - destruct (local_in _ _ Hin) as [i Hi]. rewrite Hi. destruct Hc as (c & C1 & C2). unfold entry. rewrite C1.
      pose proof (nth_lt _ _ _ (local_found _ _ _ Hi)) as Hlt.
      destruct (nth_error c i) as [x|] eqn:Ex; [|apply nth_error_None in Ex; lia].
      rewrite (IH col g); [reflexivity|lia| |exact Hm|exists c; auto].
      destruct Hg as [->|Hg]; [contradiction|exact Hg].
    - rewrite (local_missing _ _ Hout). reflexivity.
  Qed.
  Theorem update_missing (sample st : tmv S) g : well_formed sample -> well_formed st ->
    t_cols sample <> [] -> t_cols st <> [] -> In g (t_ids sample) -> ~ In g (t_ids st) ->
    update_sample o sample alpha st beta = Undef UOutOfBounds.
  Proof.
    intros [_ WF] [_ WT] Hne Hst Hg Hm. unfold update_sample.
    destruct (t_cols sample) as [|c cols]; [congruence|]. cbn [update_cols].
    inversion_clear WF as [|? ? H1 H2].
    rewrite (update_col_missing st 0 (t_ids sample) c g H1 Hg Hm); [reflexivity|].
    destruct (t_cols st) as [|d ds]; [congruence|]. exists d. split; [reflexivity|]. inversion_clear WT. assumption.
  Qed.
End Update.

(** On restricted vectors the updater computes the restriction of the combination. *)
Section Mesh.
  Context {S W : Type} (o : sops S) (HF : sfield o).
  Add Ring Sr : (sring o HF).
  Lemma at_comb N (f y : tup S N) a b k :
    at_index o (vadd (tvec o N) (vscale (tvec o N) a f) (vscale (tvec o N) b y)) k =
    sadd o (smul o a (at_index o f k)) (smul o b (at_index o y k)).
  Proof.
    revert k. induction N as [|N IH]; intros k; [cbn; ring|].
    destruct k; [reflexivity|]. cbn. apply IH.
  Qed.
  Definition entries {N} (ids : list Z) (y : tup S N) : list S := map (fun g => at_index o y (Z.to_nat g)) ids.
  Lemma to_list_restricted N ids (y : tup S N) : to_list (restricted o ids y) = entries ids y.
  Proof. induction ids as [|g ids IH]; [reflexivity|]. cbn. rewrite IH. reflexivity. Qed.
  Lemma of_list_entries N ids (y : tup S N) : of_list (s0 o) (length ids) (entries ids y) = restricted o ids y.
  Proof. induction ids as [|g ids IH]; [reflexivity|]. cbn. unfold entries in IH. rewrite IH. reflexivity. Qed.
  Lemma update_col_entries N sids (cols : list (list S)) j (f y : tup S N) a b :
    nth_error cols j = Some (entries sids y) ->
    forall ids, incl ids sids ->
    update_col o a (mk_tmv sids cols) b j ids (entries ids f) =
    Ok (entries ids (vadd (tvec o N) (vscale (tvec o N) a f) (vscale (tvec o N) b y))).
  Proof.
    intros Hc. induction ids as [|g ids IH]; intros HI; [reflexivity|].
    cbn [update_col entries map t_ids]. destruct (local_in _ _ (HI g (or_introl eq_refl))) as [i Hi]. rewrite Hi.
    unfold entry. cbn [t_cols]. rewrite Hc. unfold entries at 1.
    rewrite (map_nth_error _ _ _ (local_found _ _ _ Hi)).
    change (map (fun g0 => at_index o f (Z.to_nat g0)) ids) with (entries ids f).
    rewrite IH by (intros h Hh; apply HI; right; exact Hh). rewrite at_comb. reflexivity.
  Qed.
  Lemma update_cols_entries N sids ids a b : incl ids sids -> forall k (j p : tup (tup S N) k) pre,
    update_cols o a (mk_tmv sids (pre ++ map (entries sids) (to_list p))) b (length pre) ids (map (entries ids) (to_list j)) =
    Ok (map (entries ids) (to_list (vadd (colvec o N k) (vscale (colvec o N k) a j) (vscale (colvec o N k) b p)))).
  Proof.
    intros HI. induction k as [|k IH]; intros j p pre; [reflexivity|].
    cbn [to_list map update_cols].
    rewrite (update_col_entries N sids _ (length pre) (fst j) (fst p) a b); [| |exact HI].
    2: { rewrite nth_error_app2, Nat.sub_diag by lia. reflexivity. }
    pose proof (IH (snd j) (snd p) (pre ++ [entries sids (fst p)])) as E.
    rewrite <- app_assoc in E. cbn [app] in E. rewrite app_length in E. cbn [length] in E.
    rewrite Nat.add_1_r in E. rewrite E. reflexivity.
  Qed.
  Lemma cols_to_list N k ids (m : tup (tup S N) k) :
    map to_list (to_list (restricted_cols o ids m)) = map (entries ids) (to_list m).
  Proof.
    induction k as [|k IH]; [reflexivity|]. cbn. rewrite to_list_restricted. f_equal. apply IH.
  Qed.
  Lemma cols_of_list N k ids (m : tup (tup S N) k) :
    of_list (tconst (s0 o) _) k (map (of_list (s0 o) _) (map (entries ids) (to_list m))) = restricted_cols o ids m.
  Proof.
    induction k as [|k IH]; [reflexivity|]. cbn [to_list map of_list restricted_cols tmap].
    rewrite of_list_entries. f_equal. apply IH.
  Qed.
  Theorem tpetra_updater_ok N k sample stencil : incl sample stencil ->
    updater_ok (W:=W) (tvec o N) (colvec o N k) (restricted o stencil) (restricted o sample)
      (restricted_cols o stencil) (restricted_cols o sample) (tpetra_updater o sample stencil k).
  Proof.
    intros HI. split; intros.
    - unfold tpetra_updater, vector_of, update_sample. cbn [up_R t_ids t_cols update_cols].
      rewrite !to_list_restricted.
      rewrite (update_col_entries N stencil [entries stencil y] 0 f y a b eq_refl sample HI). cbn [t_cols nth].
      rewrite of_list_entries. reflexivity.
    - unfold tpetra_updater, multivector_of, update_sample. cbn [up_J t_ids t_cols].
      rewrite !cols_to_list. pose proof (update_cols_entries N stencil sample a b HI k j phi []) as E.
      cbn [app length] in E. rewrite E. cbn [t_cols]. rewrite cols_of_list. reflexivity.
  Qed.
End Mesh.

(** ... and so the hyper-reduced problem with it computes the full one's, restricted. *)
Section Problem.
  Context {S X W : Type} (o : sops S) (HF : sfield o) (HC : schar0 o).
  Add Ring Sr : (sring o HF).
  Lemma colvec_space N k : vspace o (colvec o N k).
  Proof.
    pose proof (tvec_space o HF N) as HV. destruct HV as [V1 V2 V3 V4 V5 V6 V7 V8].
    split; induction k as [|k IH]; intros;
      repeat match goal with x : tup _ 0 |- _ => destruct x | x : tup _ (Datatypes.S _) |- _ => destruct x as [? x] end;
      try reflexivity; apply tup_eq; cbn [colvec vadd vscale vzero tmap tmap2 tconst fst snd]; auto; apply IH.
  Qed.
  Lemma at_add N (x y : tup S N) k : at_index o (vadd (tvec o N) x y) k = sadd o (at_index o x k) (at_index o y k).
  Proof. revert k. induction N as [|N IH]; intros k; [cbn; ring|]. destruct k; [reflexivity|]. cbn. apply IH. Qed.
  Lemma at_scale N a (x : tup S N) k : at_index o (vscale (tvec o N) a x) k = smul o a (at_index o x k).
  Proof. revert k. induction N as [|N IH]; intros k; [cbn; ring|]. destruct k; [reflexivity|]. cbn. apply IH. Qed.
  Lemma restricted_linear N ids : linear (tvec o N) (tvec o (length ids)) (restricted o ids).
  Proof.
    split; intros; induction ids as [|g ids IH]; try reflexivity.
    - cbn [restricted length]. rewrite IH, at_add. reflexivity.
    - cbn [restricted length]. rewrite IH, at_scale. reflexivity.
  Qed.
  Theorem tpetra_problem_restricts N k sample stencil : incl sample stencil ->
    let E := restricted o stencil in let P := restricted o sample in
    forall (recon : X -> tup S N) (fom fh : sfom) (phi : tup (tup S N) k),
    fom_restricts E P (restricted_cols o stencil) (restricted_cols o sample) fom fh ->
    forall (name : scheme) (x : X) (st : list X) fs fsh (t : S) (step : Z) (dt : S) r rh Jo Joh (p : lpol (W:=W)),
    Joh = None <-> Jo = None ->
    let '(eh, (fsh', rh', jh', ph')) :=
      hypred_policy o (tvec o (length stencil)) (fun x => E (recon x)) fh (restricted_cols o stencil phi)
        (tpetra_updater o sample stencil k) name x st fsh t step dt rh Joh
        (mk_lpol (states_restrict E (lp_h p)) (lp_w p)) in
    let '(e, (fs', r', j', p')) := default_policy o (tvec o N) (colvec o N k) recon fom phi name x st fs t step dt r Jo p in
    eh = e /\ fsh' = fsh /\ fs' = fs /\ ph' = mk_lpol (states_restrict E (lp_h p')) (lp_w p') /\
    (e = Ok tt -> rh' = P r' /\ jh' = option_map (restricted_cols o sample) j').
  Proof.
    intros HI E P recon fom fh phi HR. intros.
    exact (policy_restricts o (tvec o N) (tvec o (length stencil)) (colvec o N k) HF HC (tvec_space o HF N)
      (tvec_space o HF (length stencil)) (colvec_space N k) E P _ _ (restricted_linear N stencil) recon fom fh _ phi HR
      (tpetra_updater_ok o HF N k sample stencil HI) name x st fs fsh t step dt r rh Jo Joh p H).
  Qed.
End Problem.

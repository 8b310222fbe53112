From Coq Require Import ZArith List Bool Field Lia.
From Verif Require Import Base Laws ExplicitModel ExplicitSpec.
Import ListNotations.
Local Open Scope Z_scope.

Lemma bind_ok {G A B} (c : cmd G A) (k : A -> cmd G B) g a g' :
  c g = (Ok a, g') -> bind c k g = k a g'.
Proof. intros H. unfold bind. rewrite H. reflexivity. Qed.

Lemma bind_assoc {G A B C} (a : cmd G A) (b : A -> cmd G B) (c : B -> cmd G C) g :
  bind (bind a b) c g = bind a (fun x => bind (b x) c) g.
Proof. unfold bind. destruct (a g) as [[]]; reflexivity. Qed.
(** Run the deterministic commands at the head of the goal's program. *)
Ltac adv1 :=
  match goal with
  | |- context [bind (bind ?a ?b) ?c ?g] => rewrite (bind_assoc a b c g)
  | |- context [bind ?c ?k ?g] =>
      let r := eval cbv beta iota delta [get_y get_b set_b set_aux get_aux get_rhs set_y x_y x_bufs x_aux x_rhs x_M x_w x_tr nth_error list_set ret] in (c g) in
      lazymatch r with
      | (Ok ?a, ?g') => change (bind c k g) with (k a g'); cbv beta
      end
  end.

Lemma list_set_length {A} (l : list A) i v l' :
  list_set l i v = Some l' -> length l' = length l.
Proof.
  revert i l'. induction l as [|a l IH]; intros [|i] l' H; cbn in H; try discriminate.
  - injection H as <-. reflexivity.
  - destruct (list_set l i v) as [r|] eqn:E; [|discriminate]. injection H as <-. cbn.
    f_equal. eauto.
Qed.
Lemma list_set_some {A} (l : list A) i v :
  (i < length l)%nat -> exists l', list_set l i v = Some l'.
Proof.
  revert i. induction l as [|a l IH]; intros [|i] H; cbn in *; try lia; [eauto|].
  destruct (IH i) as [r ->]; [lia|]. eauto.
Qed.
Lemma nth_error_in {A} (l : list A) i : (i < length l)%nat -> exists v, nth_error l i = Some v.
Proof.
  intros H. destruct (nth_error l i) eqn:E; [eauto|]. apply nth_error_None in E. lia.
Qed.

(** * Frame properties, for all outcomes of the user's code *)
Section Frame.
  Context {S V M W : Type} (o : sops S) (vo : vops S V) (u : @esys S V M W).
  Variable F : failure -> Prop.
  Hypothesis HF : fails_only u F.
  Local Notation est := (@est S V M W).
  Local Notation ecmd := (@ecmd S V M W).

  (** Keeps the number of buffers and the caller's state; fails as the user. *)
  Definition quiet (n : nat) {A} (c : ecmd A) : Prop :=
    forall g r g', length (x_bufs g) = n -> c g = (r, g') ->
      length (x_bufs g') = n /\ x_y g' = x_y g /\ (forall f, fails r = Some f -> F f).
  (** The same, but may change the caller's state when it completes. *)
  Definition ending (n : nat) {A} (c : ecmd A) : Prop :=
    forall g r g', length (x_bufs g) = n -> c g = (r, g') ->
      length (x_bufs g') = n /\ (fails r <> None -> x_y g' = x_y g) /\
      (forall f, fails r = Some f -> F f).

  Lemma quiet_bind n {A B} (c : ecmd A) (k : A -> ecmd B) :
    quiet n c -> (forall a, quiet n (k a)) -> quiet n (bind c k).
  Proof.
    intros Hc Hk g r g' HL H. unfold bind in H.
    destruct (c g) as [[a|e|b|] g1] eqn:E; destruct (Hc _ _ _ HL E) as (L & Y & U);
      try (injection H as <- <-; repeat split; auto; fail).
    destruct (Hk a _ _ _ L H) as (L' & Y' & U'). repeat split; auto. congruence.
  Qed.
  Lemma ending_bind n {A B} (c : ecmd A) (k : A -> ecmd B) :
    quiet n c -> (forall a, ending n (k a)) -> ending n (bind c k).
  Proof.
    intros Hc Hk g r g' HL H. unfold bind in H.
    destruct (c g) as [[a|e|b|] g1] eqn:E; destruct (Hc _ _ _ HL E) as (L & Y & U);
      try (injection H as <- <-; repeat split; auto; fail).
    destruct (Hk a _ _ _ L H) as (L' & Y' & U'). repeat split; auto.
    intros NN. rewrite Y' by assumption. assumption.
  Qed.
  Lemma quiet_get_y n : quiet n get_y.
  Proof. intros g r g' HL H. injection H as <- <-. repeat split; auto. discriminate. Qed.
  Lemma quiet_get_aux n : quiet n get_aux.
  Proof. intros g r g' HL H. injection H as <- <-. repeat split; auto. discriminate. Qed.
  Lemma quiet_get_rhs n : quiet n get_rhs.
  Proof. intros g r g' HL H. injection H as <- <-. repeat split; auto. discriminate. Qed.
  Lemma quiet_set_aux n v : quiet n (set_aux v).
  Proof. intros g r g' HL H. injection H as <- <-. repeat split; auto. discriminate. Qed.
  Lemma ending_set_y n v : ending n (set_y v).
  Proof.
    intros g r g' HL H. injection H as <- <-. repeat split; auto; cbn; congruence.
  Qed.
  Lemma quiet_get_b n i : (i < n)%nat -> quiet n (get_b i).
  Proof.
    intros Hi g r g' HL H. unfold get_b in H.
    destruct (nth_error_in (x_bufs g) i) as [v Hv]; [lia|]. rewrite Hv in H.
    injection H as <- <-. repeat split; auto. discriminate.
  Qed.
  Lemma quiet_set_b n i v : (i < n)%nat -> quiet n (set_b i v).
  Proof.
    intros Hi g r g' HL H. unfold set_b in H.
    destruct (list_set_some (x_bufs g) i v) as [l Hl]; [lia|]. rewrite Hl in H.
    injection H as <- <-. cbn. rewrite (list_set_length _ _ _ _ Hl).
    repeat split; auto. discriminate.
  Qed.
  Lemma quiet_call_rhs n y t i : (i < n)%nat -> quiet n (call_rhs u y t i).
  Proof.
    intros Hi g r g' HL H. unfold call_rhs in H.
    destruct (nth_error_in (x_bufs g) i) as [v Hv]; [lia|]. rewrite Hv in H.
    destruct HF as (H1 & _). specialize (H1 y t v (x_w g)).
    destruct (es_rhs u y t v (x_w g)) as [q [new w']].
    destruct (list_set_some (x_bufs g) i new) as [l Hl]; [lia|]. rewrite Hl in H.
    injection H as <- <-. cbn in *. rewrite (list_set_length _ _ _ _ Hl). auto.
  Qed.
  Lemma quiet_call_obs n k i t v : quiet n (call_obs u k i t v).
  Proof.
    intros g r g' HL H. unfold call_obs in H.
    destruct HF as (_ & _ & _ & H1). specialize (H1 k i t v (x_w g)).
    destruct (es_obs u k i t v (x_w g)) as [q w']. injection H as <- <-. cbn in *. auto.
  Qed.
  Lemma quiet_call_mmrhs n y t : quiet n (call_mmrhs u y t).
  Proof.
    intros g r g' HL H. unfold call_mmrhs in H.
    destruct HF as (_ & H1 & _). specialize (H1 y t (x_M g) (x_rhs g) (x_w g)).
    destruct (es_mmrhs u y t (x_M g) (x_rhs g) (x_w g)) as [q [[m' f'] w']].
    injection H as <- <-. cbn in *. auto.
  Qed.
  Lemma quiet_call_solve n i : (i < n)%nat -> quiet n (call_solve u i).
  Proof.
    intros Hi g r g' HL H. unfold call_solve in H.
    destruct (nth_error_in (x_bufs g) i) as [v Hv]; [lia|]. rewrite Hv in H.
    destruct HF as (_ & _ & H1 & _). specialize (H1 (x_M g) v (x_rhs g) (x_w g)).
    destruct (es_solve u (x_M g) v (x_rhs g) (x_w g)) as [q [new w']].
    destruct (list_set_some (x_bufs g) i new) as [l Hl]; [lia|]. rewrite Hl in H.
    injection H as <- <-. cbn in *. rewrite (list_set_length _ _ _ _ Hl). auto.
  Qed.

  Ltac quiet_tac :=
    repeat first
      [ apply quiet_get_y | apply quiet_get_aux | apply quiet_get_rhs
      | apply quiet_set_aux | apply ending_set_y | apply quiet_get_b; lia
      | apply quiet_set_b; lia | apply quiet_call_rhs; lia | apply quiet_call_obs
      | apply quiet_call_mmrhs | apply quiet_call_solve; lia
      | apply quiet_bind; [|intro] | apply ending_bind; [|intro] ].

  Lemma explicit_step_frame name n t step h :
    explicit_num_bufs name = Ok n -> ending n (explicit_step o vo u name t step h).
  Proof.
    destruct name; cbn; intros H; try discriminate; injection H as <-;
      unfold fe_step, rk4_step, ab2_step, ssprk3_step, stage_eval;
      try destruct (step =? 1); quiet_tac.
  Qed.
  Lemma explicit_step_mm_frame name n t step h :
    explicit_num_bufs_mm name = Ok n -> ending n (explicit_step_mm o vo u name t step h).
  Proof.
    destruct name; cbn; intros H; try discriminate; injection H as <-;
      unfold fe_step_mm, rk4_step_mm, ab2_step_mm, ssprk3_step_mm, stage_solve; quiet_tac.
    destruct (step =? 1); quiet_tac.
  Qed.
End Frame.

(** * Values computed *)
Section Values.
  Context {S V M W : Type} (o : sops S) (vo : vops S V) (u : @esys S V M W).
  Hypothesis HF : sfield o.
  Hypothesis HC : schar0 o.
  Hypothesis HV : vspace o vo.
  Local Notation est := (@est S V M W).
  Local Notation ecmd := (@ecmd S V M W).
  Add Field SF : (sfield_th o HF).

  Lemma used_length name n (g : est) :
    explicit_num_bufs name = Ok n -> used n (explicit_step o vo u name) g ->
    length (x_bufs g) = n.
  Proof.
    intros Hn H. induction H; [assumption| |assumption].
    eapply (explicit_step_frame o vo u (fun _ => True)); [|eassumption|eassumption|eassumption].
    repeat split; auto.
  Qed.
  Lemma used_length_mm name n (g : est) :
    explicit_num_bufs_mm name = Ok n -> used n (explicit_step_mm o vo u name) g ->
    length (x_bufs g) = n.
  Proof.
    intros Hn H. induction H; [assumption| |assumption].
    eapply (explicit_step_mm_frame o vo u (fun _ => True)); [|eassumption|eassumption|eassumption].
    repeat split; auto.
  Qed.

  Ltac nz := Laws.nz o HF HC.

  Section NoMM.
    Variable good : W -> Prop.
    Variable f : V -> S -> V.
    Hypothesis HU : computes u good f.

    Lemma stage_eval_ok step stage y t i (g : est) l :
      good (x_w g) -> list_set (x_bufs g) i (f y t) = Some l ->
      exists w', good w' /\
        stage_eval u step stage y t i g =
        (Ok tt, mk_est (x_y g) l (x_aux g) (x_rhs g) (x_M g) w'
                       (x_tr g ++ [ERhs y t; EObs step stage t (f y t)])).
    Proof.
      intros Hg Hl. destruct HU as [HR HO].
      assert (Hi : exists old, nth_error (x_bufs g) i = Some old /\ nth_error l i = Some (f y t)).
      { clear - Hl. revert i l Hl. induction (x_bufs g) as [|a bs IH]; intros [|i] l Hl;
          cbn in Hl; try discriminate.
        - injection Hl as <-. exists a. split; reflexivity.
        - destruct (list_set bs i (f y t)) as [r|] eqn:E; [|discriminate]. injection Hl as <-.
          exact (IH i r E). }
      destruct Hi as (old & Hold & Hnew).
      destruct (HR y t old (x_w g) Hg) as (w1 & E1 & G1).
      destruct (HO step stage t (f y t) w1 G1) as (w2 & E2 & G2).
      exists w2. split; [assumption|].
      unfold stage_eval, call_rhs, bind. rewrite Hold, E1, Hl. unfold get_b. cbn. rewrite Hnew.
      unfold call_obs. cbn. rewrite E2. rewrite <- app_assoc. reflexivity.
    Qed.

    Ltac stage :=
      match goal with
      | |- context [bind (stage_eval u ?k ?s ?y ?t ?i) ?kk ?g] =>
          let w := fresh "w" in let G := fresh "G" in let E := fresh "E" in
          destruct (stage_eval_ok k s y t i g _ ltac:(assumption) ltac:(reflexivity))
            as (w & G & E);
          rewrite (bind_ok _ kk _ _ _ E); clear E; cbv beta; cbn [x_y x_bufs x_aux x_rhs x_M x_w x_tr]
      end.

    (** coefficients: unfold the literals and let [field] decide *)
    Ltac coef := cbv beta iota zeta delta [k_one k_two k_three k_six k_fourInv k_threeOvFour
      k_oneOvThree k_twoOvThree k_threeOvTwo k_negOneHalf k_negOne k_four sZ s_of_pos]; field; nz.
    Ltac vec := cbv beta iota zeta delta [rk4_stage_update upd1 upd2 upd3 upd4 upd2_0];
      vreduce o vo HF HV; coef.

    Definition step_ok (tab : tableau S) (step : Z) (t h : S) (g g' : est) : Prop :=
      x_y g' = erk_next o vo f tab (x_y g) t h /\
      x_tr g' = x_tr g ++ erk_calls step 0 f (erk_stages o vo f (tb_stages tab) (x_y g) t h []) /\
      good (x_w g').

    Lemma fe_ok t step h (g : est) : length (x_bufs g) = 1%nat -> good (x_w g) ->
      exists g', explicit_step o vo u ForwardEuler t step h g = (Ok tt, g') /\
                 step_ok (tab_fe o) step t h g g'.
    Proof.
      destruct g as [y bufs aux rh m w tr]. cbn [x_y x_bufs x_aux x_rhs x_M x_w x_tr explicit_step]. intros HL HG.
      destruct bufs as [|b0 [|]]; try discriminate HL.
      unfold fe_step. repeat (adv1 || stage). eexists; split; [reflexivity|].
      assert (Et : sadd o t (smul o (sZ o 0) h) = t) by coef.
      unfold step_ok, erk_next. cbn in *. rewrite Et.
      split; [|split; [reflexivity|assumption]].
      vec.
    Qed.

    Lemma ssprk3_ok t step h (g : est) : length (x_bufs g) = 1%nat -> good (x_w g) ->
      exists g', explicit_step o vo u SSPRungeKutta3 t step h g = (Ok tt, g') /\
                 step_ok (tab_ssprk3 o) step t h g g'.
    Proof.
      destruct g as [y bufs aux rh m w tr]. cbn [x_y x_bufs x_aux x_rhs x_M x_w x_tr explicit_step]. intros HL HG.
      destruct bufs as [|b0 [|]]; try discriminate HL.
      unfold ssprk3_step; cbv zeta. repeat (adv1 || stage). eexists; split; [reflexivity|].
      unfold step_ok, erk_next. cbn -[sZ].
      assert (Et0 : sadd o t (smul o (sZ o 0) h) = t) by coef. rewrite Et0.
      assert (Et1 : sadd o t (smul o (sZ o 1) h) = sadd o t h) by coef. rewrite Et1.
      assert (Et2 : sadd o t (smul o (sdiv o (sZ o 1) (sZ o 2)) h) = sadd o t (sdiv o h (k_two o)))
        by coef. rewrite Et2.
      set (k0 := f y t).
      assert (E1 : vadd vo y (vscale vo (smul o h (sZ o 1)) k0) = upd2_0 vo y (k_one o) k0 h) by vec.
      rewrite E1. set (u1 := upd2_0 vo y (k_one o) k0 h) in *.
      set (k1 := f u1 (sadd o t h)).
      assert (E2 : vadd vo (vadd vo y (vscale vo (smul o h (sdiv o (sZ o 1) (sZ o 4))) k0))
                        (vscale vo (smul o h (sdiv o (sZ o 1) (sZ o 4))) k1) =
                   upd2 vo u1 (k_fourInv o) y (k_threeOvFour o) k1 (smul o (k_fourInv o) h)).
      { subst u1. vec. }
      rewrite E2. set (u2 := upd2 vo u1 (k_fourInv o) y (k_threeOvFour o) k1 (smul o (k_fourInv o) h)) in *.
      split; [|split; [|assumption]].
      - set (k2 := f u2 _). rewrite <- E2. vec.
      - rewrite <- !app_assoc. reflexivity.
    Qed.

    Lemma rk4_ok t step h (g : est) : length (x_bufs g) = 4%nat -> good (x_w g) ->
      exists g', explicit_step o vo u RungeKutta4 t step h g = (Ok tt, g') /\
                 step_ok (tab_rk4 o) step t h g g'.
    Proof.
      destruct g as [y bufs aux rh m w tr]. cbn [x_y x_bufs x_aux x_rhs x_M x_w x_tr explicit_step]. intros HL HG.
      destruct bufs as [|b0 [|b1 [|b2 [|b3 [|]]]]]; try discriminate HL.
      unfold rk4_step; cbv zeta. repeat (adv1 || stage). eexists; split; [reflexivity|].
      unfold step_ok, erk_next. cbn -[sZ].
      assert (Et0 : sadd o t (smul o (sZ o 0) h) = t) by coef. rewrite Et0.
      assert (Et1 : sadd o t (smul o (sZ o 1) h) = sadd o t h) by coef. rewrite Et1.
      assert (Et2 : sadd o t (smul o (sdiv o (sZ o 1) (sZ o 2)) h) = sadd o t (sdiv o h (k_two o)))
        by coef. rewrite Et2.
      set (k0 := f y t).
      assert (E1 : vadd vo y (vscale vo (smul o h (sdiv o (sZ o 1) (sZ o 2))) k0) =
                   rk4_stage_update o vo y k0 (sdiv o h (k_two o))) by vec.
      rewrite E1. set (u1 := rk4_stage_update o vo y k0 _) in *.
      set (k1 := f u1 _).
      assert (E2 : vadd vo (vadd vo y (vscale vo (smul o h (sZ o 0)) k0))
                        (vscale vo (smul o h (sdiv o (sZ o 1) (sZ o 2))) k1) =
                   rk4_stage_update o vo y k1 (sdiv o h (k_two o))) by vec.
      rewrite E2. set (u2 := rk4_stage_update o vo y k1 _) in *.
      set (k2 := f u2 _).
      assert (E3 : vadd vo (vadd vo (vadd vo y (vscale vo (smul o h (sZ o 0)) k0))
                        (vscale vo (smul o h (sZ o 0)) k1)) (vscale vo (smul o h (sZ o 1)) k2) =
                   rk4_stage_update o vo y k2 h) by vec.
      rewrite E3. set (u3 := rk4_stage_update o vo y k2 _) in *.
      set (k3 := f u3 _).
      split; [|split; [|assumption]].
      - clear E1 E2 E3. clearbody k0. clearbody k1. clearbody k2. clearbody k3. vec.
      - rewrite <- !app_assoc. reflexivity.
    Qed.

    Lemma erk_step_ok name tab n t step h (g : est) :
      tab_of o name = Some tab -> explicit_num_bufs name = Ok n ->
      length (x_bufs g) = n -> good (x_w g) ->
      exists g', explicit_step o vo u name t step h g = (Ok tt, g') /\
                 step_ok tab step t h g g'.
    Proof.
      destruct name; cbn [tab_of explicit_num_bufs]; intros HT HN HL HG; try discriminate;
        injection HT as <-; injection HN as <-.
      - apply fe_ok; assumption.
      - apply rk4_ok; assumption.
      - apply ssprk3_ok; assumption.
    Qed.

    (** ** Adams-Bashforth *)
    Lemma ab2_first t h (g : est) : length (x_bufs g) = 2%nat -> good (x_w g) ->
      exists g', explicit_step o vo u AdamsBashforth2 t 1 h g = (Ok tt, g') /\
        x_y g' = vadd vo (x_y g) (vscale vo h (f (x_y g) t)) /\
        length (x_bufs g') = 2%nat /\ nth_error (x_bufs g') 0 = Some (f (x_y g) t) /\
        x_tr g' = x_tr g ++ [ERhs (x_y g) t; EObs 1 0 t (f (x_y g) t)] /\ good (x_w g').
    Proof.
      destruct g as [y bufs aux rh m w tr]. cbn [x_y x_bufs x_aux x_rhs x_M x_w x_tr explicit_step]. intros HL HG.
      destruct bufs as [|b0 [|b1 [|]]]; try discriminate HL.
      unfold ab2_step. cbv beta zeta. adv1. change (1 =? 1) with true. cbv iota. repeat (adv1 || stage). eexists; split; [reflexivity|]. cbn.
      split; [vec|]. auto.
    Qed.
    Lemma ab2_later step t h fp (g : est) : step <> 1 ->
      length (x_bufs g) = 2%nat -> nth_error (x_bufs g) 0 = Some fp -> good (x_w g) ->
      exists g', explicit_step o vo u AdamsBashforth2 t step h g = (Ok tt, g') /\
        x_y g' = vadd vo (x_y g) (vscale vo h
                  (vadd vo (vscale vo (sdiv o (sZ o 3) (sZ o 2)) (f (x_y g) t))
                           (vscale vo (sopp o (sdiv o (sZ o 1) (sZ o 2))) fp))) /\
        length (x_bufs g') = 2%nat /\ nth_error (x_bufs g') 0 = Some (f (x_y g) t) /\
        x_tr g' = x_tr g ++ [ERhs (x_y g) t; EObs step 0 t (f (x_y g) t)] /\ good (x_w g').
    Proof.
      destruct g as [y bufs aux rh m w tr]. cbn [x_y x_bufs x_aux x_rhs x_M x_w x_tr explicit_step]. intros Hs HL HP HG.
      destruct bufs as [|b0 [|b1 [|]]]; try discriminate HL. cbn in HP. injection HP as ->.
      unfold ab2_step. cbv beta zeta. adv1.
      replace (step =? 1) with false by (symmetry; apply Z.eqb_neq; assumption).
      repeat (adv1 || stage). eexists; split; [reflexivity|]. cbn -[sZ].
      split; [vec|]. auto.
    Qed.

    Lemma ab2_drive ts hs ys (g : est) n :
      length (x_bufs g) = 2%nat -> good (x_w g) ->
      ab2_sequence o vo f ts hs ys -> ys 0%nat = x_y g ->
      exists g', drive (explicit_step o vo u AdamsBashforth2) ts hs n g = (Ok tt, g') /\
        x_y g' = ys n /\ length (x_bufs g') = 2%nat /\
        (n <> 0%nat -> nth_error (x_bufs g') 0 = Some (f (ys (n - 1)%nat) (ts (n - 1)%nat))) /\
        x_tr g' = x_tr g ++ flat_map (fun k => [ERhs (ys k) (ts k);
                      EObs (Z.of_nat (Datatypes.S k)) 0 (ts k) (f (ys k) (ts k))]) (seq 0 n) /\
        good (x_w g').
    Proof.
      intros HL HG [H1 H2] H0. induction n as [|n IH].
      - exists g. cbn. rewrite app_nil_r. repeat split; auto. congruence.
      - destruct IH as (g1 & E & Y & L & P & T & G). cbn [drive].
        assert (HS : forall g', x_y g' = ys (Datatypes.S n) ->
          length (x_bufs g') = 2%nat -> nth_error (x_bufs g') 0 = Some (f (x_y g1) (ts n)) ->
          x_tr g' = x_tr g1 ++ [ERhs (x_y g1) (ts n);
                    EObs (Z.of_nat (Datatypes.S n)) 0 (ts n) (f (x_y g1) (ts n))] ->
          good (x_w g') ->
          explicit_step o vo u AdamsBashforth2 (ts n) (Z.of_nat (Datatypes.S n)) (hs n) g1 = (Ok tt, g') ->
          exists g'', bind (drive (explicit_step o vo u AdamsBashforth2) ts hs n)
            (fun _ => explicit_step o vo u AdamsBashforth2 (ts n) (Z.of_nat (Datatypes.S n)) (hs n)) g
             = (Ok tt, g'') /\
            x_y g'' = ys (Datatypes.S n) /\ length (x_bufs g'') = 2%nat /\
            (Datatypes.S n <> 0%nat -> nth_error (x_bufs g'') 0 =
               Some (f (ys (Datatypes.S n - 1)%nat) (ts (Datatypes.S n - 1)%nat))) /\
            x_tr g'' = x_tr g ++ flat_map (fun k => [ERhs (ys k) (ts k);
                      EObs (Z.of_nat (Datatypes.S k)) 0 (ts k) (f (ys k) (ts k))]) (seq 0 (Datatypes.S n)) /\
            good (x_w g'')).
        { intros g' Y' L' P' T' G' E'. exists g'. rewrite (bind_ok _ _ _ _ _ E).
          split; [exact E'|]. split; [assumption|]. split; [assumption|].
          replace (Datatypes.S n - 1)%nat with n by lia.
          split; [intros _; rewrite P', Y; reflexivity|].
          split; [|assumption].
          rewrite seq_S, flat_map_app, T', T, Y. cbn. rewrite app_assoc. reflexivity. }
        destruct n as [|n].
        + destruct (ab2_first (ts 0%nat) (hs 0%nat) g1 L G) as (g' & E' & Y' & L' & P' & T' & G').
          apply (HS g'); auto. rewrite Y', Y. symmetry. exact H1.
        + destruct (ab2_later (Z.of_nat (Datatypes.S (Datatypes.S n))) (ts (Datatypes.S n))
                     (hs (Datatypes.S n)) (f (ys n) (ts n)) g1) as (g' & E' & Y' & L' & P' & T' & G');
            [lia|assumption| |assumption|].
          { rewrite P by discriminate. replace (Datatypes.S n - 1)%nat with n by lia. reflexivity. }
          apply (HS g'); auto. rewrite Y', Y.
          specialize (H2 n). replace (n + 2)%nat with (Datatypes.S (Datatypes.S n)) in H2 by lia.
          replace (n + 1)%nat with (Datatypes.S n) in H2 by lia. symmetry. exact H2.
    Qed.
  End NoMM.

  Section MM.
    Variable good : W -> Prop.
    Variable apply : M -> V -> V.
    Variable mass : V -> S -> M.
    Variables force X : V -> S -> V.
    Hypothesis HU : computes_mm u good apply mass force.
    Hypothesis HX : forall y t, apply (mass y t) (X y t) = force y t.
    Hypothesis Hinj : forall y t x x', apply (mass y t) x = apply (mass y t) x' -> x = x'.

    Lemma stage_solve_ok step stage y t i (g : est) l :
      good (x_w g) -> list_set (x_bufs g) i (X y t) = Some l ->
      exists w', good w' /\
        stage_solve u step stage y t i g =
        (Ok tt, mk_est (x_y g) l (x_aux g) (force y t) (mass y t) w'
                       (x_tr g ++ [ERhs y t; EObs step stage t (force y t)])).
    Proof.
      intros Hg Hl. destruct HU as (HR & HS & HO).
      assert (Hi : exists old, nth_error (x_bufs g) i = Some old).
      { apply nth_error_in. clear - Hl. revert i l Hl.
        induction (x_bufs g) as [|a bs IH]; intros [|i] l Hl; cbn in *; try discriminate; [lia|].
        destruct (list_set bs i (X y t)) as [r|] eqn:E; [|discriminate].
        specialize (IH i r E). lia. }
      destruct Hi as (old & Hold).
      destruct (HR y t (x_M g) (x_rhs g) (x_w g) Hg) as (w1 & E1 & G1).
      destruct (HO step stage t (force y t) w1 G1) as (w2 & E2 & G2).
      destruct (HS y t old w2 G2) as (x & w3 & E3 & A3 & G3).
      assert (x = X y t) by (apply (Hinj y t); rewrite A3, HX; reflexivity). subst x.
      exists w3. split; [assumption|].
      unfold stage_solve, call_mmrhs, bind. rewrite E1. cbn. unfold call_obs. cbn. rewrite E2.
      unfold call_solve. cbn. rewrite Hold, E3, Hl. rewrite <- app_assoc. reflexivity.
    Qed.

    Ltac stage_mm :=
      match goal with
      | |- context [bind (stage_solve u ?k ?s ?y ?t ?i) ?kk ?g] =>
          let w := fresh "w" in let G := fresh "G" in let E := fresh "E" in
          destruct (stage_solve_ok k s y t i g _ ltac:(assumption) ltac:(reflexivity))
            as (w & G & E);
          rewrite (bind_ok _ kk _ _ _ E); clear E; cbv beta; cbn [x_y x_bufs x_aux x_rhs x_M x_w x_tr]
      end.

    (** coefficients: unfold the literals and let [field] decide *)
    Ltac coef := cbv beta iota zeta delta [k_one k_two k_three k_six k_fourInv k_threeOvFour
      k_oneOvThree k_twoOvThree k_threeOvTwo k_negOneHalf k_negOne k_four sZ s_of_pos]; field; nz.
    Ltac vec := cbv beta iota zeta delta [rk4_stage_update upd1 upd2 upd3 upd4 upd2_0];
      vreduce o vo HF HV; coef.

    Definition step_mm_ok (tab : tableau S) (step : Z) (t h : S) (g g' : est) : Prop :=
      x_y g' = erk_next o vo X tab (x_y g) t h /\
      x_tr g' = x_tr g ++ erk_calls step 0 force (erk_stages o vo X (tb_stages tab) (x_y g) t h []) /\
      good (x_w g').

    Lemma fe_ok_mm t step h (g : est) : length (x_bufs g) = 1%nat -> good (x_w g) ->
      exists g', explicit_step_mm o vo u ForwardEuler t step h g = (Ok tt, g') /\
                 step_mm_ok (tab_fe o) step t h g g'.
    Proof.
      destruct g as [y bufs aux rh m w tr]. cbn [x_y x_bufs x_aux x_rhs x_M x_w x_tr explicit_step_mm]. intros HL HG.
      destruct bufs as [|b0 [|]]; try discriminate HL.
      unfold fe_step_mm. repeat (adv1 || stage_mm). eexists; split; [reflexivity|].
      assert (Et : sadd o t (smul o (sZ o 0) h) = t) by coef.
      unfold step_mm_ok, erk_next. cbn in *. rewrite Et.
      split; [|split; [reflexivity|assumption]].
      vec.
    Qed.

    Lemma ssprk3_ok_mm t step h (g : est) : length (x_bufs g) = 2%nat -> good (x_w g) ->
      exists g', explicit_step_mm o vo u SSPRungeKutta3 t step h g = (Ok tt, g') /\
                 step_mm_ok (tab_ssprk3 o) step t h g g'.
    Proof.
      destruct g as [y bufs aux rh m w tr]. cbn [x_y x_bufs x_aux x_rhs x_M x_w x_tr explicit_step_mm]. intros HL HG.
      destruct bufs as [|b0 [|b1 [|]]]; try discriminate HL.
      unfold ssprk3_step_mm; cbv zeta. repeat (adv1 || stage_mm). eexists; split; [reflexivity|].
      unfold step_mm_ok, erk_next. cbn -[sZ].
      assert (Et0 : sadd o t (smul o (sZ o 0) h) = t) by coef. rewrite Et0.
      assert (Et1 : sadd o t (smul o (sZ o 1) h) = sadd o t h) by coef. rewrite Et1.
      assert (Et2 : sadd o t (smul o (sdiv o (sZ o 1) (sZ o 2)) h) = sadd o t (sdiv o h (k_two o)))
        by coef. rewrite Et2.
      set (k0 := X y t).
      assert (E1 : vadd vo y (vscale vo (smul o h (sZ o 1)) k0) = upd2_0 vo y (k_one o) k0 h) by vec.
      rewrite E1. set (u1 := upd2_0 vo y (k_one o) k0 h) in *.
      set (k1 := X u1 (sadd o t h)).
      assert (E2 : vadd vo (vadd vo y (vscale vo (smul o h (sdiv o (sZ o 1) (sZ o 4))) k0))
                        (vscale vo (smul o h (sdiv o (sZ o 1) (sZ o 4))) k1) =
                   upd2 vo u1 (k_fourInv o) y (k_threeOvFour o) k1 (smul o (k_fourInv o) h)).
      { subst u1. vec. }
      rewrite E2. set (u2 := upd2 vo u1 (k_fourInv o) y (k_threeOvFour o) k1 (smul o (k_fourInv o) h)) in *.
      split; [|split; [|assumption]].
      - set (k2 := X u2 _). rewrite <- E2. vec.
      - rewrite <- !app_assoc. reflexivity.
    Qed.

    Lemma rk4_ok_mm t step h (g : est) : length (x_bufs g) = 5%nat -> good (x_w g) ->
      exists g', explicit_step_mm o vo u RungeKutta4 t step h g = (Ok tt, g') /\
                 step_mm_ok (tab_rk4 o) step t h g g'.
    Proof.
      destruct g as [y bufs aux rh m w tr]. cbn [x_y x_bufs x_aux x_rhs x_M x_w x_tr explicit_step_mm]. intros HL HG.
      destruct bufs as [|b0 [|b1 [|b2 [|b3 [|b4 [|]]]]]]; try discriminate HL.
      unfold rk4_step_mm; cbv zeta. repeat (adv1 || stage_mm). eexists; split; [reflexivity|].
      unfold step_mm_ok, erk_next. cbn -[sZ].
      assert (Et0 : sadd o t (smul o (sZ o 0) h) = t) by coef. rewrite Et0.
      assert (Et1 : sadd o t (smul o (sZ o 1) h) = sadd o t h) by coef. rewrite Et1.
      assert (Et2 : sadd o t (smul o (sdiv o (sZ o 1) (sZ o 2)) h) = sadd o t (sdiv o h (k_two o)))
        by coef. rewrite Et2.
      set (k0 := X y t).
      assert (E1 : vadd vo y (vscale vo (smul o h (sdiv o (sZ o 1) (sZ o 2))) k0) =
                   rk4_stage_update o vo y k0 (sdiv o h (k_two o))) by vec.
      rewrite E1. set (u1 := rk4_stage_update o vo y k0 _) in *.
      set (k1 := X u1 _).
      assert (E2 : vadd vo (vadd vo y (vscale vo (smul o h (sZ o 0)) k0))
                        (vscale vo (smul o h (sdiv o (sZ o 1) (sZ o 2))) k1) =
                   rk4_stage_update o vo y k1 (sdiv o h (k_two o))) by vec.
      rewrite E2. set (u2 := rk4_stage_update o vo y k1 _) in *.
      set (k2 := X u2 _).
      assert (E3 : vadd vo (vadd vo (vadd vo y (vscale vo (smul o h (sZ o 0)) k0))
                        (vscale vo (smul o h (sZ o 0)) k1)) (vscale vo (smul o h (sZ o 1)) k2) =
                   rk4_stage_update o vo y k2 h) by vec.
      rewrite E3. set (u3 := rk4_stage_update o vo y k2 _) in *.
      set (k3 := X u3 _).
      split; [|split; [|assumption]].
      - clear E1 E2 E3. clearbody k0. clearbody k1. clearbody k2. clearbody k3. vec.
      - rewrite <- !app_assoc. reflexivity.
    Qed.

    Lemma erk_step_mm_ok name tab n t step h (g : est) :
      tab_of o name = Some tab -> explicit_num_bufs_mm name = Ok n ->
      length (x_bufs g) = n -> good (x_w g) ->
      exists g', explicit_step_mm o vo u name t step h g = (Ok tt, g') /\
                 step_mm_ok tab step t h g g'.
    Proof.
      destruct name; cbn [tab_of explicit_num_bufs]; intros HT HN HL HG; try discriminate;
        injection HT as <-; injection HN as <-.
      - apply fe_ok_mm; assumption.
      - apply rk4_ok_mm; assumption.
      - apply ssprk3_ok_mm; assumption.
    Qed.

    (** ** Adams-Bashforth *)
    Lemma ab2_first_mm t h (g : est) : length (x_bufs g) = 2%nat -> good (x_w g) ->
      exists g', explicit_step_mm o vo u AdamsBashforth2 t 1 h g = (Ok tt, g') /\
        x_y g' = vadd vo (x_y g) (vscale vo h (X (x_y g) t)) /\
        length (x_bufs g') = 2%nat /\ nth_error (x_bufs g') 0 = Some (X (x_y g) t) /\
        x_tr g' = x_tr g ++ [ERhs (x_y g) t; EObs 1 0 t (force (x_y g) t)] /\ good (x_w g').
    Proof.
      destruct g as [y bufs aux rh m w tr]. cbn [x_y x_bufs x_aux x_rhs x_M x_w x_tr explicit_step_mm]. intros HL HG.
      destruct bufs as [|b0 [|b1 [|]]]; try discriminate HL.
      unfold ab2_step_mm. cbv beta zeta. adv1. change (1 =? 1) with true. cbv iota. repeat (adv1 || stage_mm). eexists; split; [reflexivity|]. cbn.
      split; [vec|]. auto.
    Qed.
    Lemma ab2_later_mm step t h fp (g : est) : step <> 1 ->
      length (x_bufs g) = 2%nat -> nth_error (x_bufs g) 0 = Some fp -> good (x_w g) ->
      exists g', explicit_step_mm o vo u AdamsBashforth2 t step h g = (Ok tt, g') /\
        x_y g' = vadd vo (x_y g) (vscale vo h
                  (vadd vo (vscale vo (sdiv o (sZ o 3) (sZ o 2)) (X (x_y g) t))
                           (vscale vo (sopp o (sdiv o (sZ o 1) (sZ o 2))) fp))) /\
        length (x_bufs g') = 2%nat /\ nth_error (x_bufs g') 0 = Some (X (x_y g) t) /\
        x_tr g' = x_tr g ++ [ERhs (x_y g) t; EObs step 0 t (force (x_y g) t)] /\ good (x_w g').
    Proof.
      destruct g as [y bufs aux rh m w tr]. cbn [x_y x_bufs x_aux x_rhs x_M x_w x_tr explicit_step_mm]. intros Hs HL HP HG.
      destruct bufs as [|b0 [|b1 [|]]]; try discriminate HL. cbn in HP. injection HP as ->.
      unfold ab2_step_mm. cbv beta zeta. adv1.
      replace (step =? 1) with false by (symmetry; apply Z.eqb_neq; assumption).
      repeat (adv1 || stage_mm). eexists; split; [reflexivity|]. cbn -[sZ].
      split; [vec|]. auto.
    Qed.

    Lemma ab2_drive_mm ts hs ys (g : est) n :
      length (x_bufs g) = 2%nat -> good (x_w g) ->
      ab2_sequence o vo X ts hs ys -> ys 0%nat = x_y g ->
      exists g', drive (explicit_step_mm o vo u AdamsBashforth2) ts hs n g = (Ok tt, g') /\
        x_y g' = ys n /\ length (x_bufs g') = 2%nat /\
        (n <> 0%nat -> nth_error (x_bufs g') 0 = Some (X (ys (n - 1)%nat) (ts (n - 1)%nat))) /\
        x_tr g' = x_tr g ++ flat_map (fun k => [ERhs (ys k) (ts k);
                      EObs (Z.of_nat (Datatypes.S k)) 0 (ts k) (force (ys k) (ts k))]) (seq 0 n) /\
        good (x_w g').
    Proof.
      intros HL HG [H1 H2] H0. induction n as [|n IH].
      - exists g. cbn. rewrite app_nil_r. repeat split; auto. congruence.
      - destruct IH as (g1 & E & Y & L & P & T & G). cbn [drive].
        assert (HS : forall g', x_y g' = ys (Datatypes.S n) ->
          length (x_bufs g') = 2%nat -> nth_error (x_bufs g') 0 = Some (X (x_y g1) (ts n)) ->
          x_tr g' = x_tr g1 ++ [ERhs (x_y g1) (ts n);
                    EObs (Z.of_nat (Datatypes.S n)) 0 (ts n) (force (x_y g1) (ts n))] ->
          good (x_w g') ->
          explicit_step_mm o vo u AdamsBashforth2 (ts n) (Z.of_nat (Datatypes.S n)) (hs n) g1 = (Ok tt, g') ->
          exists g'', bind (drive (explicit_step_mm o vo u AdamsBashforth2) ts hs n)
            (fun _ => explicit_step_mm o vo u AdamsBashforth2 (ts n) (Z.of_nat (Datatypes.S n)) (hs n)) g
             = (Ok tt, g'') /\
            x_y g'' = ys (Datatypes.S n) /\ length (x_bufs g'') = 2%nat /\
            (Datatypes.S n <> 0%nat -> nth_error (x_bufs g'') 0 =
               Some (X (ys (Datatypes.S n - 1)%nat) (ts (Datatypes.S n - 1)%nat))) /\
            x_tr g'' = x_tr g ++ flat_map (fun k => [ERhs (ys k) (ts k);
                      EObs (Z.of_nat (Datatypes.S k)) 0 (ts k) (force (ys k) (ts k))]) (seq 0 (Datatypes.S n)) /\
            good (x_w g'')).
        { intros g' Y' L' P' T' G' E'. exists g'. rewrite (bind_ok _ _ _ _ _ E).
          split; [exact E'|]. split; [assumption|]. split; [assumption|].
          replace (Datatypes.S n - 1)%nat with n by lia.
          split; [intros _; rewrite P', Y; reflexivity|].
          split; [|assumption].
          rewrite seq_S, flat_map_app, T', T, Y. cbn. rewrite app_assoc. reflexivity. }
        destruct n as [|n].
        + destruct (ab2_first_mm (ts 0%nat) (hs 0%nat) g1 L G) as (g' & E' & Y' & L' & P' & T' & G').
          apply (HS g'); auto. rewrite Y', Y. symmetry. exact H1.
        + destruct (ab2_later_mm (Z.of_nat (Datatypes.S (Datatypes.S n))) (ts (Datatypes.S n))
                     (hs (Datatypes.S n)) (X (ys n) (ts n)) g1) as (g' & E' & Y' & L' & P' & T' & G');
            [lia|assumption| |assumption|].
          { rewrite P by discriminate. replace (Datatypes.S n - 1)%nat with n by lia. reflexivity. }
          apply (HS g'); auto. rewrite Y', Y.
          specialize (H2 n). replace (n + 2)%nat with (Datatypes.S (Datatypes.S n)) in H2 by lia.
          replace (n + 1)%nat with (Datatypes.S n) in H2 by lia. symmetry. exact H2.
    Qed.
  End MM.
End Values.

(** The solving loops refine the textbook iterations of NonlinSpec. *)
From Coq Require Import ZArith List Bool Lia.
From Verif Require Import Base ImplicitModel ImplicitSpec NonlinDiag NonlinModel NonlinWp NonlinDiagProofs NonlinSpec.
Import ListNotations.
Local Open Scope Z_scope.

(** ** The trackers of a container, against measurements *)
Definition quantity {S} (o : sops S) (m : meas S) (q : idiag) : S :=
  match q with
  | ICorrection => m_corr m | IResidual => m_res m | IGradient => m_grad m | IObjective => m_obj m
  | IInvalid => s0 o
  end.

Section Refs.
  Context {S : Type} (o : sops S).
  (** after an update with measurements [m], the first ones being [m1] *)
  Definition up_to_date (m1 m : meas S) (c : dcont S) : Prop :=
    forall d x, In d (dc_pub c) -> tracked c (to_internal d) = Some x ->
      d_abs x = quantity o m (to_internal d) /\
      d_rel x = sdiv o (quantity o m (to_internal d)) (quantity o m1 (to_internal d)).
  Lemma shown_reading : forall m1 m c d,
    wf c -> In d (dc_pub c) -> ~ In InvalidDiag (dc_pub c) -> up_to_date m1 m c ->
    shown o c d = reading o m1 m d.
  Proof.
    intros m1 m c d Hw Hd Hi Hu. unfold shown.
    destruct (at_tracked c d Hw Hd) as [x [_ E]]. rewrite E.
    destruct (Hu d x Hd E) as [E1 E2]. unfold d_value.
    destruct d; cbn in *; try (rewrite E1; reflexivity); try (rewrite E2; reflexivity); contradiction.
  Qed.
End Refs.

Local Opaque sZ.
Section Loop.
  Context {S V R J H L W : Type}.
  Variable o : sops S.
  Variable no : nlops S V R J H.
  Variable xt : exts V R J H L.
  Notation G := (reg S V R J H L).
  Notation P := (prog V R J G).
  Notation vo := (n_vo no).
  Notation info := (info S V R J).
  Notation point := (V * S * S)%type.
  Variable sys : V -> R -> option J -> W -> outcome unit -> R -> option J -> W -> Prop.
  Variable wr : R -> R.
  Variable wj : J -> J.
  Variable gr : V -> R -> Prop.
  Variable gj : V -> J -> Prop.
  Variable glin : H -> V -> V -> Prop.
  Variable gqr : J -> R -> V -> Prop.
  Variable gnewt : J -> R -> V -> Prop.
  (** How the system and the weighting operator, and the linear solvers, may fail *)
  Variable fsys flin : outcome unit -> Prop.

  Hypothesis Hsys : sys_ok sys gr gj fsys.
  Hypothesis Hw : weights_ok xt wr wj fsys.
  Hypothesis Hlin : linear_ok xt glin gqr gnewt flin.

  Notation tri' := (tri sys).
  Definition pt (s : G) : point := (g_x s, g_damp s, g_nu s).

  (** ** Objective functions *)
  Record frame (s s' : G) : Prop := {
    fr_x : g_x s' = g_x s; fr_trial : g_trial s' = g_trial s; fr_c : g_c s' = g_c s;
    fr_g : g_g s' = g_g s; fr_hu : g_hu s' = g_hu s; fr_damp : g_damp s' = g_damp s;
    fr_nu : g_nu s' = g_nu s; fr_diags : g_diags s' = g_diags s; fr_log : g_log s' = g_log s;
    fr_file : g_file s' = g_file s }.
  Lemma frame_trans : forall a b c, frame a b -> frame b c -> frame a c.
  Proof. intros a b c [] []. split; congruence. Qed.
  Definition obj_ok (f : R -> S) (obj : V -> P S) : Prop := forall y s w,
    tri' (obj y) s w (fun r s' w' => frame s s' /\
      match r with
      | Ok v => exists rr, gr y rr /\ v = f rr
      | _ => fsys (forget r)
      end).

  Lemma not_ok : forall (e : outcome unit), match e with Ok _ => False | _ => True end -> e <> Ok tt.
  Proof. intros [[]|e|u|] K; try discriminate. contradiction. Qed.

  Lemma residual_tri : forall y s w,
    tri' (compute_residual y) s w (fun r s' w' => frame s s' /\ g_wr s' = g_wr s /\ g_ext s' = g_ext s /\
      match r with Ok _ => gr y (g_r s') | _ => fsys r end).
  Proof.
    intros y s w. unfold tri, compute_residual. cbn [wp]. intros e r' j' w' E. cbn.
    split; [split; reflexivity|]. split; [reflexivity|]. split; [reflexivity|].
    destruct e as [[]|e|u|].
    - exact (sk_r Hsys _ _ _ _ _ _ _ E).
    - eapply sk_f; [exact Hsys|exact E|discriminate].
    - eapply sk_f; [exact Hsys|exact E|discriminate].
    - eapply sk_f; [exact Hsys|exact E|discriminate].
  Qed.
  Lemma weigh_r_tri : forall s w (Q : outcome unit -> G -> W -> Prop),
    (forall r s', frame s s' -> g_r s' = g_r s -> g_j s' = g_j s -> g_h s' = g_h s ->
       match r with Ok _ => g_wr s' = wr (g_r s) | _ => fsys r end -> Q r s' w) ->
    tri' (weigh_r xt) s w Q.
  Proof.
    intros s w Q HQ. unfold weigh_r. apply tri_lift.
    destruct (x_wr xt (g_r s) (g_wr s) (g_ext s)) as [e [v l]] eqn:E. cbn [fst snd].
    apply HQ; try reflexivity; try (split; reflexivity).
    destruct e as [[]|e|u|].
    - exact (wk_r Hw _ _ _ _ _ E).
    - eapply wk_fr; [exact Hw|exact E|discriminate].
    - eapply wk_fr; [exact Hw|exact E|discriminate].
    - eapply wk_fr; [exact Hw|exact E|discriminate].
  Qed.
  Lemma weigh_j_tri : forall s w (Q : outcome unit -> G -> W -> Prop),
    (forall r s', frame s s' -> g_r s' = g_r s -> g_j s' = g_j s -> g_wr s' = g_wr s ->
       match r with Ok _ => g_wj s' = wj (g_j s) | _ => fsys r end -> Q r s' w) ->
    tri' (weigh_j xt) s w Q.
  Proof.
    intros s w Q HQ. unfold weigh_j. apply tri_lift.
    destruct (x_wj xt (g_j s) (g_wj s) (g_ext s)) as [e [v l]] eqn:E. cbn [fst snd].
    apply HQ; try reflexivity; try (split; reflexivity).
    destruct e as [[]|e|u|].
    - exact (wk_j Hw _ _ _ _ _ E).
    - eapply wk_fj; [exact Hw|exact E|discriminate].
    - eapply wk_fj; [exact Hw|exact E|discriminate].
    - eapply wk_fj; [exact Hw|exact E|discriminate].
  Qed.

  Ltac seq := apply tri_bind; eapply tri_mono; [|first [apply residual_tri]].
  Lemma objective_ok : forall tag, obj_ok (ls_objective o no wr tag) (objective o no xt tag).
  Proof.
    intros tag y s w. destruct tag; unfold objective; apply tri_bind.
    1,2,5: (eapply tri_mono; [|apply residual_tri]; intros [u|e|u|] s1 w1 [F [_ [_ K]]]; cbn;
            (split; [exact F|]); [exists (g_r s1); split; [exact K|reflexivity]|exact K|exact K|exact K]).
    all: eapply tri_mono; [|apply residual_tri]; intros [u|e|u|] s1 w1 [F [_ [_ K]]]; cbv beta iota;
         try (split; [exact F|exact K]).
    all: apply tri_bind; apply weigh_r_tri; intros [u'|e|u'|] s2 F2 E1 E2 E3 K2; cbn;
         (split; [exact (frame_trans _ _ _ F F2)|]); try exact K2.
    - exists (g_r s1). split; [exact K|]. unfold ls_objective, halved. rewrite E1, K2. reflexivity.
    - exists (g_r s1). split; [exact K|]. unfold ls_objective, halved. rewrite K2. reflexivity.
  Qed.
  Lemma root_objective_ok : obj_ok (n_rnorm no) (root_objective no).
  Proof.
    intros y s w. unfold root_objective. apply tri_bind.
    eapply tri_mono; [|apply residual_tri]; intros [u|e|u|] s1 w1 [F [_ [_ K]]]; cbn;
            (split; [exact F|]); [exists (g_r s1); split; [exact K|reflexivity]|exact K|exact K|exact K].
  Qed.

  (** ** Update strategies *)
  Record uframe (s s' : G) : Prop := {
    uf_diags : g_diags s' = g_diags s; uf_log : g_log s' = g_log s; uf_file : g_file s' = g_file s }.
  (** what the registry holds when the updater of iteration [i] is called *)
  Record ready (i : info) (s : G) : Prop := {
    rd_pt : at_point i (pt s); rd_c : g_c s = i_c o no i }.
  Record lm_ready (i : info) (s : G) : Prop := {
    lr_rd : ready i s; lr_hu : g_hu s = n_jtj no (i_j i) (i_j i); lr_g : g_g s = n_jtr no (i_j i) (i_r i) }.
  Definition up_ok (f : R -> S) (pre : info -> G -> Prop) (up : updater (S:=S)) (obj : V -> P S)
             (move : info -> point -> Prop) (stuck : info -> Prop) (ftrial : outcome unit -> Prop) : Prop :=
    forall i s w, pre i s ->
    tri' (up obj (f (i_r i))) s w (fun r s' w' => uframe s s' /\
      match r with
      | Ok _ => move i (pt s')
      | Throw e => pt s' = pt s /\ ((is_linesearch_failure e = true /\ stuck i) \/ ftrial (Throw e))
      | Undef u => pt s' = pt s /\ ftrial (Undef u)
      | NoFuel => pt s' = pt s /\ ftrial NoFuel
      end).
  Definition never (i : info) : Prop := False.

  Lemma default_ok : forall f obj, up_ok f ready (default_updater o no) obj (move_full o no) never (fun _ => False).
  Proof.
    intros f obj i s w [E1 E2]. unfold default_updater, move_full. cbn.
    split; [split; reflexivity|]. unfold at_point, pt in *. cbn. injection E1 as E1 E3 E4.
    rewrite E1, E2, E3, E4. reflexivity.
  Qed.

  (** The fuel of the model's backtracking loops is not the reason they end:
      [enough n a]: the step length gets too small within [n] halvings of [a]. *)
  Fixpoint enough (n : nat) (a : S) : Prop :=
    match n with
    | O => False
    | Datatypes.S m => too_small o a = true \/ enough m (smul o a (sdiv o (s1 o) (sZ o 2)))
    end.
  Lemma halving_enough : halving_ends o -> enough backtrack_fuel (s1 o).
  Proof.
    intros [n [Hn E]].
    assert (K : forall m k, (k <= n)%nat -> (n - k < m)%nat -> enough m (halvings o k)).
    { induction m as [|m IH]; intros k H1 H2; [lia|]. cbn [enough].
      destruct (Nat.eq_dec k n) as [->|Hne]; [left; exact E|]. right.
      apply (IH (Datatypes.S k)); lia. }
    apply (K backtrack_fuel O); unfold backtrack_fuel; lia.
  Qed.

  Lemma backtrack_loop_ok : forall f obj zeta i, obj_ok f obj -> forall fuel n s w,
    ready i s -> (forall m, (m < n)%nat -> bt_test o no gr f zeta i m false) ->
    enough fuel (halvings o n) ->
    tri' (backtrack_loop o no zeta obj (f (i_r i)) fuel (halvings o n)) s w (fun r s' w' => uframe s s' /\
      match r with
      | Ok _ => move_backtrack o no gr f zeta i (pt s')
      | Throw e => pt s' = pt s /\ ((is_linesearch_failure e = true /\ stuck_backtrack o no gr f zeta i) \/ fsys (Throw e))
      | Undef u => pt s' = pt s /\ fsys (Undef u)
      | NoFuel => pt s' = pt s /\ fsys NoFuel
      end).
  Proof.
    intros f obj zeta i Ho. induction fuel as [|fuel IH]; intros n s w Hr Hn He; [destruct He|].
    cbn [backtrack_loop].
    change (sleb o (sabs o (halvings o n)) (alpha_min o)) with (too_small o (halvings o n)).
    destruct (too_small o (halvings o n)) eqn:Es.
    - apply tri_lift. cbn. split; [split; reflexivity|]. split; [reflexivity|]. left. split; [reflexivity|].
      exists n. split; assumption.
    - apply tri_bind. apply tri_lift. cbn [fst snd].
      set (s1' := set_trial _ s). apply tri_bind.
      eapply tri_mono; [|exact (Ho (g_trial s1') s1' w)].
      assert (Et : g_trial s1' = along o no (i_x i) (i_c o no i) (halvings o n)).
      { subst s1'. cbn. destruct Hr as [K1 K2]. unfold at_point, pt in K1. injection K1 as -> _ _.
        rewrite K2. reflexivity. }
      assert (Ep : pt s1' = pt s) by reflexivity.
      assert (Eu : uframe s s1') by (split; reflexivity).
      assert (Ec : g_c s1' = g_c s) by reflexivity. clearbody s1'.
      intros r s2 w2 [F K].
      assert (Ep2 : pt s2 = pt s) by (rewrite <- Ep; destruct F; unfold pt; congruence).
      assert (Eu2 : uframe s s2) by (destruct F, Eu; split; congruence).
      assert (Hr2 : ready i s2).
      { destruct Hr as [K1 K2]. split; [rewrite Ep2; exact K1|]. destruct F. congruence. }
      destruct r as [v|e|u|]; try (split; [exact Eu2|]; split; [exact Ep2|]; try right; exact K).
      destruct K as [rr [K1 ->]]. rewrite Et in K1.
      destruct (sleb o (f rr) (smul o zeta (f (i_r i)))) eqn:Eb.
      + apply tri_lift. cbn [fst snd]. split; [destruct Eu2; split; assumption|].
        exists n. split; [exact Hn|]. split.
        * split; [exact Es|]. exists rr. split; assumption.
        * destruct Hr2 as [A1 A2]. unfold at_point, pt in *. cbn. injection A1 as -> -> ->.
          rewrite A2. reflexivity.
      + change (smul o (halvings o n) (half o)) with (halvings o (Datatypes.S n)).
        eapply tri_mono; [|apply IH].
        * intros r s3 w3 [U3 K3]. split; [destruct U3, Eu2; split; congruence|].
          destruct r; rewrite <- ?Ep2; exact K3.
        * exact Hr2.
        * intros m Hm. destruct (Nat.eq_dec m n) as [->|Hne]; [|apply Hn; lia].
          split; [exact Es|]. exists rr. split; assumption.
        * cbn in He. destruct He as [He|He]; [congruence|exact He].
  Qed.
  Lemma backtrack_ok : forall f obj cf, obj_ok f obj -> halving_ends o -> f_params cf <> Some [] ->
    up_ok f ready (backtrack_updater o no (f_params cf)) obj
          (move_backtrack o no gr f (reduction_factor o cf)) (stuck_backtrack o no gr f (reduction_factor o cf)) fsys.
  Proof.
    intros f obj cf Ho He Hp i s w Hr. unfold backtrack_updater, reduction_factor.
    destruct (f_params cf) as [[|z t]|]; [congruence| |];
      (apply (backtrack_loop_ok f obj _ i Ho _ 0%nat); [exact Hr|intros m Hm; lia|exact (halving_enough He)]).
  Qed.

  Lemma gain_tri : forall f obj i s w, obj_ok f obj -> lm_ready i s ->
    tri' (lm_gain_factor o no obj (f (i_r i))) s w (fun r s' w' => uframe s s' /\ lm_ready i s' /\ pt s' = pt s /\
      match r with
      | Ok rho => exists rr, gr (along o no (i_x i) (i_c o no i) (s1 o)) rr /\ rho = gain o no f i rr
      | _ => fsys (forget r)
      end).
  Proof.
    intros f obj i s w Ho Hr. unfold lm_gain_factor. apply tri_bind. apply tri_lift. cbn [fst snd].
    set (s1' := set_trial _ s).
    assert (Et : g_trial s1' = along o no (i_x i) (i_c o no i) (s1 o)).
    { subst s1'. cbn. destruct Hr as [[K1 K2] _ _]. unfold at_point, pt in K1. injection K1 as -> _ _.
      rewrite K2. reflexivity. }
    assert (Hr1 : lm_ready i s1') by (destruct Hr as [[K1 K2] K3 K4]; split; [split|..]; assumption).
    assert (Ep : pt s1' = pt s) by reflexivity.
    assert (Eu : uframe s s1') by (split; reflexivity). clearbody s1'.
    apply tri_bind. eapply tri_mono; [|exact (Ho (g_trial s1') s1' w)].
    intros r s2 w2 [F K].
    assert (Ep2 : pt s2 = pt s) by (rewrite <- Ep; destruct F; unfold pt; congruence).
    assert (Eu2 : uframe s s2) by (destruct F, Eu; split; congruence).
    assert (Hr2 : lm_ready i s2).
    { destruct Hr1 as [[K1 K2] K3 K4], F. split; [split|..]; try congruence.
      }
    destruct r as [v|e|u|]; try (split; [exact Eu2|]; split; [exact Hr2|]; split; [exact Ep2|]; exact K).
    apply tri_lift. cbn [fst snd]. split; [exact Eu2|]. split; [exact Hr2|]. split; [exact Ep2|].
    destruct K as [rr [K1 ->]]. rewrite Et in K1. exists rr. split; [exact K1|]. unfold gain.
    destruct Hr2 as [[A1 A2] A3 A4]. unfold at_point, pt in A1. injection A1 as _ -> _.
    rewrite A2, A3, A4. reflexivity.
  Qed.

  Lemma lm1_ok : forall f obj, obj_ok f obj ->
    up_ok f lm_ready (lm1_updater o no) obj (move_lm1 o no gr f) never fsys.
  Proof.
    intros f obj Ho i s w Hr. unfold lm1_updater. apply tri_bind.
    eapply tri_mono; [|exact (gain_tri f obj i s w Ho Hr)].
    intros r s1' w1 [U [Hr1 [Ep K]]].
    destruct r as [rho|e|u|]; try (split; [exact U|]; split; [exact Ep|]; try right; exact K).
    destruct K as [rr [K1 ->]]. destruct Hr1 as [[A1 A2] A3 A4]. unfold at_point, pt in A1.
    injection A1 as A1 A5 A6. destruct U as [U1 U2 U3].
    destruct (sltb o (s0 o) (gain o no f i rr)) eqn:Eg; cbn; (split; [split; assumption|]);
      exists rr; (split; [exact K1|]); unfold schedule1, lm_state, pt; rewrite Eg; cbn;
      rewrite ?A1, ?A2, ?A5, ?A6; reflexivity.
  Qed.
  Lemma lm2_ok : forall f obj, obj_ok f obj ->
    up_ok f lm_ready (lm2_updater o no) obj (move_lm2 o no gr f) never fsys.
  Proof.
    intros f obj Ho i s w Hr. unfold lm2_updater. apply tri_bind.
    eapply tri_mono; [|exact (gain_tri f obj i s w Ho Hr)].
    intros r s1' w1 [U [Hr1 [Ep K]]].
    destruct r as [rho|e|u|]; try (split; [exact U|]; split; [exact Ep|]; try right; exact K).
    destruct K as [rr [K1 ->]]. destruct Hr1 as [[A1 A2] A3 A4]. unfold at_point, pt in A1.
    injection A1 as A1 A5 A6. destruct U as [U1 U2 U3].
    destruct (sltb o (gain o no f i rr) (sdiv o (one o) (sZ o 5))) eqn:E1;
    destruct (sltb o (sdiv o (sZ o 4) (sZ o 5)) (gain o no f i rr)) eqn:E2;
    destruct (sltb o (s0 o) (gain o no f i rr)) eqn:E3; cbn;
      (split; [split; assumption|]); exists rr; (split; [exact K1|]);
      unfold schedule2, lm_state, pt; change (one o) with (s1 o) in *; rewrite E1, E2, E3; cbn;
      rewrite ?A1, ?A2, ?A5, ?A6; reflexivity.
  Qed.

  (** ** The loop: what holds between iterations *)
  Section Iter.
    Variable cf : config S.
    Variable valid : info -> Prop.
    Variable measure : info -> meas S.
    Variable move : info -> point -> Prop.
    Variable stuck : info -> Prop.
    Variable ftrial : outcome unit -> Prop.
    Variable p0 : point.
    Variable c0 : dcont S.
    Variable log0 : list (line S V).
    (** whether the loop writes the termination file *)
    Variable reports : bool.
    Variable file0 : option report.
    Definition put (r : report) (old : option report) : option report := if reports then Some r else old.
    Definition file (is : list info) : option report :=
      match is with
      | [] => file0
      | _ => if f_max cf <=? Z.of_nat (length is) then put RMaxIters file0 else file0
      end.
    Notation pub := (dc_pub c0).
    Notation steps' := (steps o cf valid measure move p0).
    Hypothesis Hc0 : wf c0.
    Hypothesis Hprint : printable c0 = true.
    Hypothesis Hinv : ~ In InvalidDiag pub.

    Definition refs_ok (is : list info) (c : dcont S) : Prop :=
      match is with
      | [] => True
      | i :: _ => forall d x, In d pub -> tracked c (to_internal d) = Some x ->
                    d_ref x = quantity o (measure i) (to_internal d)
      end.
    Record Inv (is : list info) (s : G) : Prop := {
      iv_steps : steps' is (pt s);
      iv_names : same_names c0 (g_diags s);
      iv_refs : refs_ok is (g_diags s);
      iv_log : g_log s = log0 ++ printed o measure pub is;
      iv_file : g_file s = file is }.

    Lemma printed_from_snoc : forall is i m1 k,
      printed_from o measure pub m1 k (is ++ [i]) =
      printed_from o measure pub m1 k is ++
      [mk_line (k + Z.of_nat (length is)) (i_x i) (map (fun d => (d, reading o m1 (measure i) d)) pub)].
    Proof.
      induction is as [|a t IH]; intros i m1 k.
      - cbn. rewrite Z.add_0_r. reflexivity.
      - cbn [app printed_from length]. rewrite IH. cbn [app]. do 3 f_equal.
        replace (k + 1 + Z.of_nat (length t)) with (k + Z.of_nat (Datatypes.S (length t))) by lia. reflexivity.
    Qed.
    Lemma printed_snoc : forall is i,
      printed o measure pub (is ++ [i]) = printed o measure pub is ++
      [mk_line (number is) (i_x i) (map (fun d => (d, reading o (first measure is i) (measure i) d)) pub)].
    Proof.
      intros [|a t] i; [reflexivity|]. unfold printed at 1 2. cbn [app].
      change (a :: t ++ [i]) with ((a :: t) ++ [i]). rewrite printed_from_snoc. unfold number, first. cbn [hd].
      replace (1 + Z.of_nat (length (a :: t))) with (Z.of_nat (length (a :: t)) + 1) by lia. reflexivity.
    Qed.
    Lemma number_first : forall is : list info, (number is =? 1) = match is with [] => true | _ => false end.
    Proof. intros [|a t]; [reflexivity|]. apply Z.eqb_neq. unfold number. cbn [length]. lia. Qed.

    (** trackers updated with measurements [m] *)
    Definition updated (c c2 : dcont S) (m : meas S) (first : bool) : Prop :=
      same_names c c2 /\
      forall d x, In d pub -> tracked c (to_internal d) = Some x ->
        tracked c2 (to_internal d) = Some (d_update o x (quantity o m (to_internal d)) first).
    Lemma same_names_trans : forall a b c : dcont S, same_names a b -> same_names b c -> same_names a c.
    Proof. intros a b c [A1 [A2 [A3 A4]]] [B1 [B2 [B3 B4]]]. repeat split; congruence. Qed.
    Lemma same_tracked : forall (a b : dcont S) d, wf a -> same_names a b -> In d (dc_pub a) ->
      exists x, tracked b (to_internal d) = Some x.
    Proof.
      intros a b d Ha Hs Hd. destruct (at_tracked b d) as [x [_ E]]; [eapply same_wf; eauto| |eauto].
      destruct Hs as [_ [-> _]]. exact Hd.
    Qed.

    Lemma updated_ok : forall is i c c2,
      same_names c0 c -> refs_ok is c ->
      updated c c2 (measure i) (number is =? 1) ->
      same_names c0 c2 /\ refs_ok (is ++ [i]) c2 /\ up_to_date o (first measure is i) (measure i) c2.
    Proof.
      intros is i c c2 Hs Hr [Hn Hu]. split; [exact (same_names_trans _ _ _ Hs Hn)|].
      rewrite number_first in Hu. split.
      - destruct is as [|a t]; cbn [app refs_ok]; intros d x Hd Hx;
          destruct (same_tracked c0 c d Hc0 Hs Hd) as [y Hy]; rewrite (Hu d y Hd Hy) in Hx;
          injection Hx as <-; unfold d_update.
        + reflexivity.
        + cbn [d_ref]. apply Hr; assumption.
      - intros d x Hd Hx. destruct Hn as [_ [En _]]. destruct Hs as [S1 [S2 S3]].
        rewrite En, S2 in Hd.
        destruct (same_tracked c0 c d Hc0 (conj S1 (conj S2 S3)) Hd) as [y Hy].
        rewrite (Hu d y Hd Hy) in Hx. injection Hx as <-. unfold d_update, first.
        destruct is as [|a t]; cbn [hd d_abs d_rel]; (split; [reflexivity|]); [reflexivity|].
        f_equal. apply Hr; assumption.
    Qed.

    Lemma line_of : forall is i c, same_names c0 c -> up_to_date o (first measure is i) (measure i) c ->
      log_line c = Ok (map (fun d => (d, reading o (first measure is i) (measure i) d)) pub).
    Proof.
      intros is i c Hs Hu. pose proof (same_wf _ _ Hs Hc0) as Hwc. rewrite (log_line_ok o c Hwc).
      destruct Hs as [_ [Ep _]].
      replace (printable c) with true by (unfold printable in *; rewrite Ep; symmetry; exact Hprint).
      rewrite Ep. f_equal. apply map_ext_in. intros d Hd. f_equal.
      apply shown_reading; try assumption; rewrite Ep; assumption.
    Qed.
    Lemma below_of : forall is i c d, same_names c0 c -> up_to_date o (first measure is i) (measure i) c ->
      In d pub ->
      metric_below o c d (f_tol cf) = Ok (sltb o (reading o (first measure is i) (measure i) d) (f_tol cf)).
    Proof.
      intros is i c d Hs Hu Hd. pose proof (same_wf _ _ Hs Hc0) as Hwc. unfold metric_below.
      destruct Hs as [_ [Ep _]].
      destruct (at_tracked c d Hwc) as [x [E1 E2]]; [rewrite Ep; exact Hd|]. rewrite E1. do 2 f_equal.
      rewrite <- (shown_reading o _ _ c d Hwc); try (rewrite Ep; assumption); try assumption.
      unfold shown. rewrite E2. reflexivity.
    Qed.

    (** *** One iteration, abstractly *)
    (** the state ends where iteration [i] started *)
    Record Ended (is : list info) (i : info) (s : G) : Prop := {
      en_steps : steps' is (i_x i, i_mu i, i_nu i);
      en_valid : valid i;
      en_pt : pt s = (i_x i, i_mu i, i_nu i);
      en_names : same_names c0 (g_diags s);
      en_log : g_log s = log0 ++ printed o measure pub (is ++ [i]) }.
    (** iteration [number is] did not get to the point of being printed *)
    Record Broken (is : list info) (s : G) : Prop := {
      br_steps : steps' is (pt s);
      br_names : same_names c0 (g_diags s);
      br_log : g_log s = log0 ++ printed o measure pub is }.
    Definition BadEnd (is : list info) (r : outcome unit) (s : G) : Prop :=
      (Broken is s /\
         ((r = Throw ENonlinearSolve /\ exists e, is_residual_failure e = true /\ fsys (Throw e) /\
             g_file s = put (RError e) file0) \/
          (g_file s = file0 /\ ((fsys r /\ forall e, r = Throw e -> is_residual_failure e = false) \/ flin r)))) \/
      (exists i, Ended is i s /\ ~ met o cf (number is) (first measure is i) (measure i) /\
         g_file s = file (is ++ [i]) /\ ftrial r).
    Definition GoodEnd (is : list info) (s : G) : Prop :=
      exists i, Ended is i s /\
        ((met o cf (number is) (first measure is i) (measure i) /\ g_file s = file0) \/
         (~ met o cf (number is) (first measure is i) (measure i) /\ stuck i /\
          exists e, is_linesearch_failure e = true /\ g_file s = put (RError e) file0)).
    Definition body_ok (body : Z -> P bool) : Prop := forall is s w, Inv is s -> number is <= f_max cf ->
      tri' (body (number is)) s w (fun r s' w' =>
        match r with
        | Ok true => GoodEnd is s'
        | Ok false => exists i, Inv (is ++ [i]) s'
        | Throw e => BadEnd is (Throw e) s'
        | Undef u => BadEnd is (Undef u) s'
        | NoFuel => BadEnd is NoFuel s'
        end).

    Inductive Result (r : outcome unit) (s : G) : Prop :=
    | res_good is : r = Ok tt -> number is <= f_max cf -> GoodEnd is s -> Result r s
    | res_max is : r = Ok tt -> Z.of_nat (length is) = Z.max 0 (f_max cf) -> f_max cf < int32_max -> Inv is s -> Result r s
    | res_overflow is : r = Undef UIntOverflow -> Z.of_nat (length is) = int32_max -> int32_max <= f_max cf ->
        Inv is s -> Result r s
    | res_bad is : r <> Ok tt -> number is <= f_max cf -> BadEnd is r s -> Result r s.

    Lemma iterate_ok : forall body, body_ok body -> forall fuel is s w, Inv is s ->
      Z.of_nat (length is) <= Z.max 0 (f_max cf) -> Z.of_nat (length is) <= int32_max ->
      Z.max 0 (f_max cf) + 1 <= Z.of_nat fuel + Z.of_nat (length is) ->
      tri' (iterate body (f_max cf) fuel (Z.of_nat (length is))) s w (fun r s' w' => Result r s').
    Proof.
      intros body Hb. induction fuel as [|fuel IH]; intros is s w Hi Hm H32 Hf; [cbn in Hf; lia|].
      cbn [iterate]. destruct (Z.eqb_spec (Z.of_nat (length is)) int32_max) as [E|E].
      - apply tri_lift. cbn. apply (res_overflow _ _ is); try assumption; try reflexivity.
        unfold int32_max in *. lia.
      - destruct (Z.leb_spec (Z.of_nat (length is) + 1) (f_max cf)) as [Hle|Hgt].
        + apply tri_bind. change (Z.of_nat (length is) + 1) with (number is).
          eapply tri_mono; [|exact (Hb is s w Hi Hle)].
          intros [[|]|e|u|] s' w' K.
          * apply tri_lift. cbn. apply (res_good _ _ is); auto.
          * destruct K as [i K].
            replace (number is) with (Z.of_nat (length (is ++ [i])))
              by (unfold number; rewrite app_length; cbn [length]; lia).
            apply IH; [exact K| | |]; rewrite app_length; cbn [length]; lia.
          * apply (res_bad _ _ is); auto; discriminate.
          * apply (res_bad _ _ is); auto; discriminate.
          * apply (res_bad _ _ is); auto; discriminate.
        + apply tri_lift. cbn. apply (res_max _ _ is); auto; lia.
    Qed.
    Lemma loop_ok : forall body, body_ok body -> forall s w,
      pt s = p0 -> same_names c0 (g_diags s) -> g_log s = log0 -> g_file s = file0 ->
      tri' (iterate body (f_max cf) (loop_fuel (f_max cf)) 0) s w (fun r s' w' => Result r s').
    Proof.
      intros body Hb s w E1 E2 E3 E4. apply (iterate_ok body Hb _ [] s w).
      - split; cbn; auto; [rewrite E1; constructor|rewrite E3, app_nil_r; reflexivity].
      - cbn [length]. lia.
      - cbn [length]. unfold int32_max. lia.
      - cbn [length]. unfold loop_fuel. lia.
    Qed.
  End Iter.

  (** ** The least-squares loop *)
  Section LeastSquares.
    Variable cf : config S.
    Variable tag : lstag.
    Variable up : updater (S:=S) (V:=V) (R:=R) (J:=J) (H:=H) (L:=L).
    Variable pre : info -> G -> Prop.
    Variable move : info -> point -> Prop.
    Variable stuck : info -> Prop.
    Variable ftrial : outcome unit -> Prop.
    Variable p0 : point.
    Variable c0 : dcont S.
    Variable log0 : list (line S V).
    Variable file0 : option report.
    Notation pub := (dc_pub c0).
    Notation f := (ls_objective o no wr tag).
    Notation grad i := (ls_gradient no wr wj tag (i_j i) (i_r i)).
    Notation valid := (ls_valid no wr wj gr gj glin gqr tag).
    Notation measure := (ls_meas o no wr wj tag).
    Hypothesis Hc0 : wf c0.
    Hypothesis Hprint : printable c0 = true.
    Hypothesis Hinv : ~ In InvalidDiag pub.
    Hypothesis Hobj : In ObjectiveAbs pub.
    Hypothesis Hstop : f_stop cf = AfterMaxIters \/ In (stop_diag (f_stop cf)) pub.
    Hypothesis Hup : up_ok f pre up (objective o no xt tag) move stuck ftrial.
    Hypothesis Hpre : forall i s, ready i s ->
      (tag = LevMar -> g_hu s = n_jtj no (i_j i) (i_j i)) -> g_g s = grad i -> pre i s.
    (** the updater is not interrupted by line-search failures of the system's own *)
    Hypothesis Hls : forall e, ftrial (Throw e) -> is_linesearch_failure e = false.


    Record keep (s s' : G) : Prop := {
      kp_pt : pt s' = pt s; kp_diags : g_diags s' = g_diags s; kp_log : g_log s' = g_log s;
      kp_file : g_file s' = g_file s }.
    Lemma keep_trans : forall a b c, keep a b -> keep b c -> keep a c.
    Proof. intros a b c [] []. split; congruence. Qed.
    Lemma frame_keep : forall a b, frame a b -> keep a b.
    Proof. intros a b []. split; unfold pt; congruence. Qed.
    Lemma rj_tri : forall s w,
      tri' compute_residual_and_jacobian s w (fun r s' w' => keep s s' /\
        match r with Ok _ => gr (g_x s) (g_r s') /\ gj (g_x s) (g_j s') | _ => fsys r end).
    Proof.
      intros s w. unfold tri, compute_residual_and_jacobian. cbn [wp]. intros e r' j' w' E. cbn [wp fst snd].
      split; [split; reflexivity|]. destruct e as [[]|e|u|].
      - split; [exact (sk_r Hsys _ _ _ _ _ _ _ E)|exact (sk_j Hsys _ _ _ _ _ _ _ E)].
      - eapply sk_f; [exact Hsys|exact E|discriminate].
      - eapply sk_f; [exact Hsys|exact E|discriminate].
      - eapply sk_f; [exact Hsys|exact E|discriminate].
    Qed.

    Definition matrix_ready (s : G) : Prop :=
      match tag with GaussNewtonQr => True | _ => g_h s = ls_matrix no wj tag (g_damp s) (g_j s) end.
    Record operators_ready (x : V) (s : G) : Prop := {
      or_r : gr x (g_r s); or_j : gj x (g_j s);
      or_g : g_g s = ls_gradient no wr wj tag (g_j s) (g_r s);
      or_h : matrix_ready s;
      or_hu : tag = LevMar -> g_hu s = n_jtj no (g_j s) (g_j s) }.
    Lemma operators_tri : forall s w,
      tri' (operators_and_objective o no xt tag) s w (fun r s' w' => keep s s' /\
        match r with
        | Ok v => v = f (g_r s') /\ operators_ready (g_x s) s'
        | _ => fsys (forget r)
        end).
    Proof.
      intros s w. unfold operators_and_objective. apply tri_bind.
      eapply tri_mono; [|apply rj_tri]. intros [u|e|u|] s1' w1 [K1 K2]; try (split; [exact K1|exact K2]).
      destruct K2 as [K2 K3]. unfold matrix_ready.
      destruct tag eqn:Et; repeat (apply tri_bind; cbv beta iota).
      - unfold tri; cbn. split; [destruct K1; split; assumption|]. split; [reflexivity|].
        split; unfold matrix_ready; rewrite ?Et; cbn; auto. discriminate.
      - unfold tri; cbn. split; [destruct K1; split; assumption|]. split; [reflexivity|].
        split; unfold matrix_ready; rewrite ?Et; cbn; auto. discriminate.
      - apply weigh_r_tri. intros [u1|e|u1|] s2 F2 E1 E2 E3 B2; try (split; [exact (keep_trans _ _ _ K1 (frame_keep _ _ F2))|exact B2]).
        apply tri_bind. apply weigh_j_tri.
        intros [u2|e|u2|] s3 F3 E4 E5 E6 B3; try (split; [exact (keep_trans _ _ _ K1 (keep_trans _ _ _ (frame_keep _ _ F2) (frame_keep _ _ F3)))|exact B3]).
        pose proof (keep_trans _ _ _ K1 (keep_trans _ _ _ (frame_keep _ _ F2) (frame_keep _ _ F3))) as K4.
        unfold tri; cbn. split; [destruct K4; split; assumption|].
        assert (A1 : g_r s3 = g_r s1') by congruence. assert (A2 : g_j s3 = g_j s1') by congruence.
        assert (A3 : g_wr s3 = wr (g_r s1')) by congruence. assert (A4 : g_wj s3 = wj (g_j s1')) by congruence.
        split; [unfold halved; rewrite A1, A3; reflexivity|].
        split; unfold matrix_ready; rewrite ?Et; cbn; rewrite ?A1, ?A2, ?A3, ?A4; auto. discriminate.
      - apply weigh_r_tri. intros [u1|e|u1|] s2 F2 E1 E2 E3 B2; try (split; [exact (keep_trans _ _ _ K1 (frame_keep _ _ F2))|exact B2]).
        apply tri_bind. apply weigh_j_tri.
        intros [u2|e|u2|] s3 F3 E4 E5 E6 B3; try (split; [exact (keep_trans _ _ _ K1 (keep_trans _ _ _ (frame_keep _ _ F2) (frame_keep _ _ F3)))|exact B3]).
        pose proof (keep_trans _ _ _ K1 (keep_trans _ _ _ (frame_keep _ _ F2) (frame_keep _ _ F3))) as K4.
        unfold tri; cbn. split; [destruct K4; split; assumption|].
        assert (A1 : g_r s3 = g_r s1') by congruence. assert (A2 : g_j s3 = g_j s1') by congruence.
        assert (A3 : g_wr s3 = wr (g_r s1')) by congruence. assert (A4 : g_wj s3 = wj (g_j s1')) by congruence.
        split; [unfold halved; rewrite A1, A3; reflexivity|].
        split; unfold matrix_ready; rewrite ?Et; cbn; rewrite ?A1, ?A2, ?A3, ?A4; auto. discriminate.
      - unfold tri; cbn. split; [destruct K1; split; assumption|]. split; [reflexivity|].
        split; unfold matrix_ready; rewrite ?Et; cbn; auto.
    Qed.

    Definition solves (s : G) (d : V) : Prop :=
      match tag with
      | GaussNewtonQr => gqr (g_j s) (g_r s) d
      | _ => glin (g_h s) (g_g s) d
      end.
    Lemma lin_fail : forall e (Q : Prop), (e <> Ok tt -> flin e) -> Q ->
      match e with Ok _ => Q | _ => flin e end.
    Proof. intros [[]|e|u|] Q K HQ; [exact HQ|..]; apply K; discriminate. Qed.
    Lemma correction_tri : forall s w,
      tri' (correction o no xt tag) s w (fun r s' w' =>
        keep s s' /\ g_r s' = g_r s /\ g_j s' = g_j s /\ g_g s' = g_g s /\ g_hu s' = g_hu s /\
        match r with
        | Ok _ => exists d, g_c s' = vscale vo (sopp o (s1 o)) d /\ solves s d
        | _ => flin r
        end).
    Proof.
      intros s w. unfold correction, solves.
      assert (Hn : forall d, tri' (solve_hessian xt) s w (fun r s' w' =>
                match r with
                | Ok a => tri' (negate_c o no) s' w' d
                | Throw e => d (Throw e) s' w' | Undef u => d (Undef u) s' w' | NoFuel => d NoFuel s' w' end) ->
              tri' (pbind (solve_hessian xt) (fun _ => negate_c o no)) s w d) by (intros; apply tri_bind; assumption).
      destruct tag; try (apply Hn; clear Hn; unfold solve_hessian; apply tri_lift;
        destruct (x_normal xt (g_h s) (g_g s) (g_c s) (g_ext s)) as [e [d l]] eqn:E; cbn [fst snd];
        destruct e as [[]|e|u|];
        [apply tri_lift; cbn [fst snd];
         split; [split; reflexivity|]; do 4 (split; [reflexivity|]); exists d; split; [reflexivity|];
         exact (lk_lin Hlin _ _ _ _ _ _ E)
        |split; [split; reflexivity|]; do 4 (split; [reflexivity|]); eapply lk_f1; [exact Hlin|exact E|discriminate]..]).
      clear Hn. apply tri_bind. apply tri_lift.
      destruct (x_thin xt (g_j s) (g_ext s)) as [e l1] eqn:E1; cbn [fst snd].
      destruct e as [[]|e|u|];
        [|split; [split; reflexivity|]; do 4 (split; [reflexivity|]); eapply lk_f2; [exact Hlin|exact E1|discriminate]..].
      apply tri_bind. apply tri_lift. cbn [g_r g_qtr g_ext set_ext].
      destruct (x_qtr xt (g_r s) (g_qtr s) l1) as [e [q l2]] eqn:E2; cbn [fst snd].
      destruct e as [[]|e|u|];
        [|split; [split; reflexivity|]; do 4 (split; [reflexivity|]); eapply lk_f3; [exact Hlin|exact E1|exact E2|discriminate]..].
      apply tri_bind. apply tri_lift. cbn [g_c g_qtr g_ext set_ext set_qtr].
      destruct (x_rsolve xt q (g_c s) l2) as [e [d l3]] eqn:E3; cbn [fst snd].
      destruct e as [[]|e|u|];
        [|split; [split; reflexivity|]; do 4 (split; [reflexivity|]); eapply lk_f4; [exact Hlin|exact E1|exact E2|exact E3|discriminate]..].
      apply tri_lift. cbn [fst snd].
      split; [split; reflexivity|]. do 4 (split; [reflexivity|]). exists d. split; [reflexivity|].
      exact (lk_qr Hlin _ _ _ _ _ _ _ _ _ _ E1 E2 E3).
    Qed.

    Lemma ls_updated : forall c c1 (s : G) fst i, wf c -> dc_pub c = pub ->
      dc_iupdate o c IObjective (f (i_r i)) fst = Ok c1 ->
      g_r s = i_r i -> g_g s = grad i -> g_c s = i_c o no i ->
      updated c0 c (mk_dcont (map (norm_diagnostic o no true fst s) (dc_data c1)) (dc_pub c1) (dc_int c1) (dc_map c1))
              (measure i) fst.
    Proof.
      intros c c1 s fst i Hwc Ep E Er Eg Ec.
      pose proof (iupdate_tracked o c IObjective (f (i_r i)) fst Hwc) as K.
      destruct (tracked c IObjective) as [x|] eqn:Ex; [|congruence].
      destruct K as [c1' [E' [Hs Ht]]]. assert (c1' = c1) by congruence. subst c1'.
      destruct (map_tracked c1 (norm_diagnostic o no true fst s)) as [Hs2 Ht2].
      { intros y. unfold norm_diagnostic. destruct (d_name y) eqn:En; rewrite ?d_update_name; auto. }
      split; [exact (same_names_trans _ _ _ Hs Hs2)|].
      intros d y Hd Hy. rewrite Ht2, Ht.
      assert (Hne : to_internal d <> IInvalid) by (destruct d; cbn; try discriminate; contradiction).
      pose proof (tracked_name _ _ _ Hy) as Hn.
      destruct (to_internal d) eqn:Ed; cbn [idiag_eqb]; try congruence.
      - replace (idiag_eqb IObjective ICorrection) with false by reflexivity. rewrite Hy. cbn [option_map].
        unfold norm_diagnostic. rewrite Hn, Ec. reflexivity.
      - replace (idiag_eqb IObjective IResidual) with false by reflexivity. rewrite Hy. cbn [option_map].
        unfold norm_diagnostic. rewrite Hn, Er. reflexivity.
      - replace (idiag_eqb IObjective IGradient) with false by reflexivity. rewrite Hy. cbn [option_map].
        unfold norm_diagnostic. rewrite Hn, Eg. reflexivity.
      - replace (idiag_eqb IObjective IObjective) with true by reflexivity. cbn [option_map].
        unfold norm_diagnostic. rewrite d_update_name. pose proof (tracked_name _ _ _ Ex) as Hnx. rewrite Hnx.
        rewrite Ex in Hy. injection Hy as ->. reflexivity.
    Qed.

    Notation Inv' := (Inv cf valid measure move p0 c0 log0 false file0).
    Lemma met_dec : forall k m1 m, {met o cf k m1 m} + {~ met o cf k m1 m}.
    Proof.
      intros. unfold met. destruct (f_stop cf); try apply bool_dec. apply Z.eq_dec.
    Qed.
    Lemma ls_must_stop_ok : forall is i s w (Q : outcome bool -> G -> W -> Prop),
      same_names c0 (g_diags s) -> up_to_date o (first measure is i) (measure i) (g_diags s) ->
      (forall b, (b = true <-> met o cf (number is) (first measure is i) (measure i)) -> Q (Ok b) s w) ->
      tri' (ls_must_stop o cf (number is)) s w Q.
    Proof.
      intros is i s w Q Hs Hu HQ. unfold ls_must_stop. apply tri_lift. cbn [fst snd].
      destruct (f_stop cf) eqn:Est; cbn [fst snd stop_diag];
        try (destruct Hstop as [K|K]; [congruence|]; cbn [stop_diag] in K;
             rewrite (below_of cf measure c0 Hc0 Hinv is i _ _ Hs Hu K); apply HQ; unfold met; rewrite Est;
             reflexivity).
      apply HQ. unfold met. rewrite Est. apply Z.eqb_eq.
    Qed.

    Lemma ls_body_ok : body_ok cf valid measure move stuck ftrial p0 c0 log0 false file0 (ls_body o no xt tag cf up).
    Proof.
      intros is s w [I1 I2 I3 I4 I5] Hk. unfold ls_body.
      assert (If : g_file s = file0).
      { rewrite I5. unfold file. destruct is; [reflexivity|]. destruct (_ <=? _); reflexivity. }
      pose proof (same_wf _ _ I2 Hc0) as Hwc.
      apply tri_bind. apply tri_catch. apply tri_bind.
      eapply tri_mono; [|apply operators_tri]. intros r s1' w1 [K1 K2].
      assert (B1 : Broken cf valid measure move p0 c0 log0 is s1').
      { destruct K1. split; congruence. }
      assert (F1 : g_file s1' = file0) by (destruct K1; congruence).
      destruct r as [v|e|u|]; cbv beta iota;
        [| destruct (is_residual_failure e) eqn:Ee; [apply tri_lift; cbn [fst snd]|]; left; (split; [exact B1|]);
           [left; split; [reflexivity|]; exists e; split; [exact Ee|]; split; [exact K2|]; exact F1
           |right; split; [exact F1|]; left; split; [exact K2|]; intros e' K; congruence]
         | left; split; [exact B1|]; right; split; [exact F1|]; left; split; [exact K2|intros e' K; discriminate]
         | left; split; [exact B1|]; right; split; [exact F1|]; left; split; [exact K2|intros e' K; discriminate]].
      destruct K2 as [-> K2]. apply tri_lift. cbn [fst snd].
      assert (Ed1 : g_diags s1' = g_diags s) by (destruct K1; assumption).
      destruct (same_tracked c0 (g_diags s) ObjectiveAbs Hc0 I2 Hobj) as [x Hx]. cbn [to_internal] in Hx.
      pose proof (iupdate_tracked o (g_diags s) IObjective (f (g_r s1')) (number is =? 1) Hwc) as KU.
      rewrite Hx in KU. destruct KU as [c1 [EU [SU _]]]. rewrite Ed1, EU. cbn [fst snd].
      set (s2 := set_diags c1 s1').
      apply tri_bind. eapply tri_mono; [|apply correction_tri].
      intros r s3 w3 [K3 [Er [Ej [Eg [Ehu K4]]]]].
      assert (B3 : Broken cf valid measure move p0 c0 log0 is s3).
      { destruct B1 as [b1 b2 b3], K3 as [k1 k2 k3 k4]. split.
        - rewrite k1. exact b1.
        - rewrite k2. cbn. exact (same_names_trans _ _ _ I2 SU).
        - rewrite k3. exact b3. }
      assert (F3 : g_file s3 = file0) by (destruct K3; subst s2; cbn in *; congruence).
      destruct r as [u|e|u|]; try (left; split; [exact B3|]; right; split; [exact F3|]; right; exact K4).
      destruct K4 as [d [Ec Kd]].
      set (i := mk_info (g_x s) (g_r s1') (g_j s1') d (g_damp s) (g_nu s) : info).
      assert (Ex1 : pt s1' = pt s) by (destruct K1; assumption).
      assert (Hpt3 : pt s3 = (i_x i, i_mu i, i_nu i)).
      { destruct K3 as [k1 _ _ _]. rewrite k1. exact Ex1. }
      assert (Hvalid : valid i).
      { destruct K2 as [o1 o2 o3 o4 o5]. unfold ls_valid. cbn [i_x i_r i_j i_d i_mu i].
        split; [exact o1|]. split; [exact o2|]. unfold solves, matrix_ready in *. subst s2. cbn in Kd.
        unfold pt in Ex1. injection Ex1 as _ Edm _. rewrite Edm in o4.
        destruct tag; rewrite ?o3, ?o4 in Kd; exact Kd. }
      assert (Er3 : g_r s3 = i_r i) by exact Er.
      assert (Eg3 : g_g s3 = grad i) by (rewrite Eg; destruct K2 as [o1 o2 o3 o4 o5]; exact o3).
      assert (Ehu3 : tag = LevMar -> g_hu s3 = n_jtj no (i_j i) (i_j i)).
      { intros Et. rewrite Ehu. destruct K2 as [o1 o2 o3 o4 o5]. exact (o5 Et). }
      assert (Ed3 : g_diags s3 = c1) by (destruct K3 as [k1 k2 k3 k4]; exact k2).
      assert (El3 : g_log s3 = g_log s).
      { destruct K3 as [k1 k2 k3 k4], K1 as [j1 j2 j3 j4]. rewrite k3. exact j3. }
      assert (Ec3 : g_c s3 = i_c o no i) by exact Ec.
      assert (Estep : steps o cf valid measure move p0 is (i_x i, i_mu i, i_nu i)) by exact I1.
      assert (EU' : dc_iupdate o (g_diags s) IObjective (f (i_r i)) (number is =? 1) = Ok c1) by exact EU.
      clearbody i. clear Kd Ec Er Ej Eg Ehu K3 K2 K1 B1 F1 Ed1 B3 Ex1 EU s2.
      (* diagnostics *)
      apply tri_bind. apply tri_lift. cbn [fst snd]. rewrite Ed3.
      assert (Epub : dc_pub (g_diags s) = pub) by (destruct I2 as [_ [Ep _]]; exact Ep).
      pose proof (ls_updated _ c1 s3 (number is =? 1) i Hwc Epub EU' Er3 Eg3 Ec3) as HU.
      set (c2 := mk_dcont _ _ _ _) in HU |- *.
      destruct (updated_ok measure c0 Hc0 is i _ c2 I2 I3 HU) as [N2 [R2 U2]]. clearbody c2. clear HU.
      set (s4 := set_diags c2 s3).
      apply tri_bind. apply tri_lift. cbn [g_diags set_diags s4].
      rewrite (line_of measure c0 Hc0 Hprint Hinv is i c2 N2 U2). cbn [fst snd].
      set (s5 := add_line _ s4).
      assert (E5 : Ended cf valid measure move p0 c0 log0 is i s5).
      { split; try assumption. subst s5 s4. cbn. rewrite El3, I4, printed_snoc, app_assoc.
        do 3 f_equal. unfold pt in Hpt3. injection Hpt3 as -> _ _. reflexivity. }
      assert (F5 : g_file s5 = file0) by exact F3.
      assert (Efile : file cf false file0 (is ++ [i]) = file0).
      { unfold file. destruct (is ++ [i]); [reflexivity|]. destruct (_ <=? _); reflexivity. }
      apply tri_bind. apply (ls_must_stop_ok is i); [exact N2|exact U2|].
      intros [|] Hb.
      - apply tri_lift. cbn [fst snd]. exists i. split; [exact E5|]. left. split; [apply Hb; reflexivity|exact F5].
      - assert (Hnm : ~ met o cf (number is) (first measure is i) (measure i)).
        { intros K. apply Hb in K. discriminate. }
        apply tri_catch. apply tri_bind. apply tri_lift. cbn [g_diags set_diags s5 s4 add_line].
        rewrite (iat_tracked c2 IObjective (same_wf _ _ N2 Hc0)).
        destruct (same_tracked c0 c2 ObjectiveAbs Hc0 N2 Hobj) as [x2 Hx2]. cbn [to_internal] in Hx2.
        rewrite Hx2. cbn [fst snd].
        assert (Ef0 : d_abs x2 = f (i_r i)).
        { destruct (U2 ObjectiveAbs x2) as [A _]; [|exact Hx2|exact A]. destruct N2 as [_ [-> _]]. exact Hobj. }
        rewrite Ef0. apply tri_bind. fold s4. fold s5.
        eapply tri_mono; [|apply Hup; apply Hpre; [split; [exact Hpt3|exact Ec3]|exact Ehu3|exact Eg3]].
        intros r s6 w6 [[U61 U62 U63] K6].
        assert (E6 : pt s6 = pt s5 -> Ended cf valid measure move p0 c0 log0 is i s6).
        { intros Ep. destruct E5 as [q1 q2 q3 q4 q5]. split; try assumption; congruence. }
        destruct r as [u6|e|u6|]; cbv beta iota.
        + apply tri_lift. cbn [fst snd ret]. exists i. destruct E5 as [q1 q2 q3 q4 q5]. split.
          * eapply steps_snoc; eauto. reflexivity.
          * rewrite U61. exact q4.
          * rewrite U61. exact R2.
          * congruence.
          * congruence.
        + destruct K6 as [Kp K6]. destruct (is_linesearch_failure e) eqn:Ee.
          * apply tri_lift. cbn [fst snd ret]. exists i. split; [exact (E6 Kp)|]. right. split; [exact Hnm|].
            destruct K6 as [[_ K6]|K6]; [|rewrite (Hls _ K6) in Ee; discriminate].
            split; [exact K6|]. exists e. split; [exact Ee|]. cbn [put]. congruence.
          * right. exists i. split; [exact (E6 Kp)|]. split; [exact Hnm|]. split; [congruence|].
            destruct K6 as [[K6 _]|K6]; [congruence|exact K6].
        + destruct K6 as [Kp K6]. right. exists i. split; [exact (E6 Kp)|]. split; [exact Hnm|]. split; [congruence|exact K6].
        + destruct K6 as [Kp K6]. right. exists i. split; [exact (E6 Kp)|]. split; [exact Hnm|]. split; [congruence|exact K6].
    Qed.
  End LeastSquares.

  (** ** The Newton loop *)
  Section Newton.
    Variable cf : config S.
    Variable up : updater (S:=S) (V:=V) (R:=R) (J:=J) (H:=H) (L:=L).
    Variable move : info -> point -> Prop.
    Variable stuck : info -> Prop.
    Variable ftrial : outcome unit -> Prop.
    Variable p0 : point.
    Variable c0 : dcont S.
    Variable log0 : list (line S V).
    Variable file0 : option report.
    Notation pub := (dc_pub c0).
    Notation valid := (root_valid gr gj gnewt).
    Notation measure := (root_meas o no).
    Hypothesis Hc0 : wf c0.
    Hypothesis Hprint : printable c0 = true.
    Hypothesis Hpub : forall d, In d pub -> to_internal d = IResidual \/ to_internal d = ICorrection.
    Hypothesis Hres : In ResidualAbs pub.
    Hypothesis Hstop : In (stop_diag (f_stop cf)) pub.
    Hypothesis Hup : up_ok (n_rnorm no) ready up (root_objective no) move stuck ftrial.
    Hypothesis Hls : forall e, ftrial (Throw e) -> is_linesearch_failure e = false.

    Lemma root_noinv : ~ In InvalidDiag pub.
    Proof. intros K. destruct (Hpub _ K); discriminate. Qed.
    Lemma newton_tri : forall s w,
      tri' (newton_step o no xt) s w (fun r s' w' =>
        keep s s' /\ g_r s' = g_r s /\
        match r with
        | Ok _ => exists d, g_c s' = vscale vo (sopp o (s1 o)) d /\ gnewt (g_j s) (g_r s) d
        | _ => flin r
        end).
    Proof.
      intros s w. unfold newton_step. apply tri_bind. apply tri_lift.
      destruct (x_newton xt (g_j s) (g_r s) (g_c s) (g_ext s)) as [e [d l]] eqn:E. cbn [fst snd].
      destruct e as [[]|e|u|];
        [|split; [split; reflexivity|]; split; [reflexivity|]; eapply lk_f5; [exact Hlin|exact E|discriminate]..].
      apply tri_lift. cbn [fst snd]. split; [split; reflexivity|]. split; [reflexivity|].
      exists d. split; [reflexivity|]. exact (lk_newt Hlin _ _ _ _ _ _ E).
    Qed.
    Lemma root_updated : forall c (s : G) fst i, wf c -> dc_pub c = pub ->
      g_r s = i_r i -> g_c s = i_c o no i ->
      updated c0 c (mk_dcont (map (norm_diagnostic o no false fst s) (dc_data c)) (dc_pub c) (dc_int c) (dc_map c))
              (measure i) fst.
    Proof.
      intros c s fst i Hwc Ep Er Ec.
      destruct (map_tracked c (norm_diagnostic o no false fst s)) as [Hs2 Ht2].
      { intros y. unfold norm_diagnostic. destruct (d_name y) eqn:En; rewrite ?d_update_name; auto. }
      split; [exact Hs2|].
      intros d y Hd Hy. rewrite Ht2. pose proof (tracked_name _ _ _ Hy) as Hn. rewrite Hy. cbn [option_map].
      unfold norm_diagnostic. rewrite Hn.
      destruct (Hpub d Hd) as [E|E]; rewrite E; cbn [quantity root_meas m_corr m_res]; rewrite ?Er, ?Ec; reflexivity.
    Qed.
    Lemma root_must_stop_ok : forall is i s w (Q : outcome bool -> G -> W -> Prop),
      same_names c0 (g_diags s) -> up_to_date o (first measure is i) (measure i) (g_diags s) ->
      number is <= f_max cf -> g_file s = file0 ->
      (forall b s', (b = true <-> met o cf (number is) (first measure is i) (measure i)) ->
         pt s' = pt s -> g_diags s' = g_diags s -> g_log s' = g_log s -> g_c s' = g_c s ->
         g_file s' = (if b then file0 else file cf true file0 (is ++ [i])) -> Q (Ok b) s' w) ->
      tri' (root_must_stop o cf (number is)) s w Q.
    Proof.
      intros is i s w Q Hs Hu Hk Hf HQ. unfold root_must_stop. apply tri_bind. apply tri_lift. cbn [fst snd].
      rewrite (below_of cf measure c0 Hc0 root_noinv is i _ _ Hs Hu Hstop).
      set (b := sltb o _ _).
      assert (Hst : f_stop cf <> AfterMaxIters).
      { intros E. apply root_noinv. rewrite E in Hstop. exact Hstop. }
      assert (Eb : match f_stop cf with AfterMaxIters => f_max cf <=? number is | _ => b end = b)
        by (destruct (f_stop cf); congruence).
      assert (Hb : b = true <-> met o cf (number is) (first measure is i) (measure i)).
      { unfold met. subst b. destruct (f_stop cf); cbn [stop_diag] in *; try reflexivity. congruence. }
      assert (Hne : is ++ [i] <> []) by (destruct is; discriminate).
      assert (Elen : Z.of_nat (length (is ++ [i])) = number is)
        by (unfold number; rewrite app_length; cbn [length]; lia).
      apply tri_bind. destruct (f_max cf <=? number is) eqn:Em; cbn [andb].
      - destruct b eqn:Ebb; cbn [negb].
        + apply tri_lift. cbn [fst snd ret]. apply tri_lift. cbn [fst snd ret]. rewrite Eb. apply HQ; auto.
        + apply tri_lift. cbn [fst snd ret]. apply tri_lift. cbn [fst snd ret]. rewrite Eb. apply HQ; auto.
          unfold file. rewrite Elen, Em. destruct (is ++ [i]); [congruence|reflexivity].
      - apply tri_lift. cbn [fst snd ret]. apply tri_lift. cbn [fst snd ret]. rewrite Eb. apply HQ; auto.
        unfold file. rewrite Elen, Em. destruct b; [assumption|]. destruct (is ++ [i]); assumption.
    Qed.

    Lemma root_body_ok : body_ok cf valid measure move stuck ftrial p0 c0 log0 true file0 (root_body o no xt cf up).
    Proof.
      intros is s w [I1 I2 I3 I4 I5] Hk. unfold root_body.
      assert (If : g_file s = file0).
      { rewrite I5. unfold file. destruct is; [reflexivity|].
        destruct (Z.leb_spec (f_max cf) (Z.of_nat (length (i :: is)))) as [K|K]; [|reflexivity].
        unfold number in Hk. lia. }
      pose proof (same_wf _ _ I2 Hc0) as Hwc.
      apply tri_bind. apply tri_catch.
      eapply tri_mono; [|apply rj_tri]. intros r s1' w1 [K1 K2].
      assert (B1 : Broken cf valid measure move p0 c0 log0 is s1').
      { destruct K1. split; congruence. }
      assert (F1 : g_file s1' = file0) by (destruct K1; congruence).
      destruct r as [u0|e|u0|]; cbv beta iota;
        [| destruct (is_residual_failure e) eqn:Ee
         | left; split; [exact B1|]; right; split; [exact F1|]; left; split; [exact K2|intros e' K; discriminate]
         | left; split; [exact B1|]; right; split; [exact F1|]; left; split; [exact K2|intros e' K; discriminate]].
      2: { apply tri_bind. apply tri_lift. cbn [fst snd]. apply tri_lift. cbn [fst snd throw].
           left. split; [destruct B1; split; assumption|]. left. split; [reflexivity|].
           exists e. split; [exact Ee|]. split; [exact K2|]. reflexivity. }
      2: { left. split; [exact B1|]. right. split; [exact F1|]. left. split; [exact K2|]. intros e' K. congruence. }
      destruct K2 as [K2 K2'].
      assert (Ed1 : g_diags s1' = g_diags s) by (destruct K1; assumption).
      apply tri_bind. eapply tri_mono; [|apply newton_tri].
      intros r s3 w3 [K3 [Er K4]].
      assert (B3 : Broken cf valid measure move p0 c0 log0 is s3).
      { destruct B1 as [b1 b2 b3], K3 as [k1 k2 k3 k4]. split; congruence. }
      assert (F3 : g_file s3 = file0) by (destruct K3; congruence).
      destruct r as [u|e|u|]; try (left; split; [exact B3|]; right; split; [exact F3|]; right; exact K4).
      destruct K4 as [d [Ec Kd]].
      set (i := mk_info (g_x s) (g_r s1') (g_j s1') d (g_damp s) (g_nu s) : info).
      assert (Ex1 : pt s1' = pt s) by (destruct K1; assumption).
      assert (Hpt3 : pt s3 = (i_x i, i_mu i, i_nu i)).
      { destruct K3 as [k1 _ _ _]. rewrite k1. exact Ex1. }
      assert (Hvalid : valid i) by (split; [exact K2|split; [exact K2'|exact Kd]]).
      assert (Er3 : g_r s3 = i_r i) by exact Er.
      assert (Ed3 : g_diags s3 = g_diags s) by (destruct K3; congruence).
      assert (El3 : g_log s3 = g_log s).
      { destruct K3 as [k1 k2 k3 k4], K1 as [j1 j2 j3 j4]. congruence. }
      assert (Ec3 : g_c s3 = i_c o no i) by exact Ec.
      assert (Estep : steps o cf valid measure move p0 is (i_x i, i_mu i, i_nu i)) by exact I1.
      clearbody i. clear Kd Ec Er K3 K2 K2' K1 B1 F1 Ed1 B3 Ex1.
      apply tri_bind. apply tri_lift. cbn [fst snd]. rewrite Ed3.
      assert (Epub : dc_pub (g_diags s) = pub) by (destruct I2 as [_ [Ep _]]; exact Ep).
      pose proof (root_updated (g_diags s) s3 (number is =? 1) i Hwc Epub Er3 Ec3) as HU.
      set (c2 := mk_dcont _ _ _ _) in HU |- *.
      destruct (updated_ok measure c0 Hc0 is i _ c2 I2 I3 HU) as [N2 [R2 U2]]. clearbody c2. clear HU.
      set (s4 := set_diags c2 s3).
      apply tri_bind. apply tri_lift. cbn [g_diags set_diags s4].
      rewrite (line_of measure c0 Hc0 Hprint root_noinv is i c2 N2 U2). cbn [fst snd].
      set (s5 := add_line _ s4).
      assert (E5 : Ended cf valid measure move p0 c0 log0 is i s5).
      { split; try assumption. subst s5 s4. cbn. rewrite El3, I4, printed_snoc, app_assoc.
        do 3 f_equal. unfold pt in Hpt3. injection Hpt3 as -> _ _. reflexivity. }
      assert (F5 : g_file s5 = file0) by exact F3.
      assert (D5 : g_diags s5 = c2) by reflexivity.
      assert (C5 : g_c s5 = i_c o no i) by exact Ec3. clearbody s5. clear s4.
      apply tri_bind. apply (root_must_stop_ok is i);
        [rewrite D5; exact N2|rewrite D5; exact U2|exact Hk|exact F5|].
      intros b s6 Hb P6 D6 L6 C6 F6.
      assert (E6 : Ended cf valid measure move p0 c0 log0 is i s6).
      { destruct E5 as [q1 q2 q3 q4 q5]. split; congruence. }
      destruct b.
      - apply tri_lift. cbn [fst snd ret]. exists i. split; [exact E6|]. left. split; [apply Hb; reflexivity|exact F6].
      - assert (Hnm : ~ met o cf (number is) (first measure is i) (measure i)).
        { intros K. apply Hb in K. discriminate. }
        apply tri_catch. apply tri_bind. apply tri_lift. rewrite D6, D5.
        rewrite (iat_tracked c2 IResidual (same_wf _ _ N2 Hc0)).
        destruct (same_tracked c0 c2 ResidualAbs Hc0 N2 Hres) as [x2 Hx2]. cbn [to_internal] in Hx2.
        rewrite Hx2. cbn [fst snd].
        assert (Ef0 : d_abs x2 = n_rnorm no (i_r i)).
        { destruct (U2 ResidualAbs x2) as [A _]; [|exact Hx2|exact A]. destruct N2 as [_ [-> _]]. exact Hres. }
        rewrite Ef0. apply tri_bind.
        eapply tri_mono; [|apply Hup; split; [destruct E6 as [q1 q2 q3 q4 q5]; exact q3|congruence]].
        intros r s7 w7 [[U71 U72 U73] K7].
        assert (E7 : pt s7 = pt s6 -> Ended cf valid measure move p0 c0 log0 is i s7).
        { intros Ep. destruct E6 as [q1 q2 q3 q4 q5]. split; try assumption; congruence. }
        destruct r as [u7|e|u7|]; cbv beta iota.
        + apply tri_lift. cbn [fst snd ret]. exists i. destruct E6 as [q1 q2 q3 q4 q5]. split.
          * eapply steps_snoc; eauto. reflexivity.
          * rewrite U71. exact q4.
          * rewrite U71, D6, D5. exact R2.
          * congruence.
          * congruence.
        + destruct K7 as [Kp K7]. destruct (is_linesearch_failure e) eqn:Ee.
          * apply tri_bind. apply tri_lift. cbn [fst snd]. apply tri_lift. cbn [fst snd ret].
            exists i. split; [destruct (E7 Kp); split; assumption|]. right. split; [exact Hnm|].
            destruct K7 as [[_ K7]|K7]; [|rewrite (Hls _ K7) in Ee; discriminate].
            split; [exact K7|]. exists e. split; [exact Ee|]. reflexivity.
          * right. exists i. split; [exact (E7 Kp)|]. split; [exact Hnm|]. split; [congruence|].
            destruct K7 as [[K7 _]|K7]; [congruence|exact K7].
        + destruct K7 as [Kp K7]. right. exists i. split; [exact (E7 Kp)|]. split; [exact Hnm|]. split; [congruence|exact K7].
        + destruct K7 as [Kp K7]. right. exists i. split; [exact (E7 Kp)|]. split; [exact Hnm|]. split; [congruence|exact K7].
    Qed.
  End Newton.
End Loop.

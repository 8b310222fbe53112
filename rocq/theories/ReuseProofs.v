(** Solver objects can be used again: two runs of a solve are related step by step. *)
From Coq Require Import ZArith List Bool Lia.
From Verif Require Import Base NonlinDiag NonlinModel NonlinDiagProofs ReuseSpec.
Import ListNotations.
Local Open Scope Z_scope.

Section Rel.
  Context {V R J : Type}.
  Definition answers (e : outcome unit) (r r' : R) (j j' : option J) : Prop := e = Ok tt -> r' = r /\ j' = j.
  Fixpoint rel {X} (t t' : ptree V R J X) (Q : X -> X -> Prop) : Prop :=
    match t, t' with
    | PDone x, PDone x' => Q x x'
    | PCall y r j k, PCall y' r' j' k' =>
        y' = y /\ (j = None <-> j' = None) /\
        forall e r1 r2 j1 j2, answers e r1 r2 j1 j2 -> (j <> None -> j1 <> None) -> rel (k e r1 j1) (k' e r2 j2) Q
    | _, _ => False
    end.
  Lemma rel_bind : forall X Y (t t' : ptree V R J X) (k k' : X -> ptree V R J Y) P Q,
    rel t t' P -> (forall x x', P x x' -> rel (k x) (k' x') Q) -> rel (ptbind t k) (ptbind t' k') Q.
  Proof.
    intros X Y t. induction t as [x|y r j q IH]; intros [x'|y' r' j' q'] k k' P Q H HQ; cbn in H |- *; try contradiction.
    - apply HQ. exact H.
    - destruct H as [E [F H]]. repeat split; auto; try apply F.
      intros e r1 r2 j1 j2 A N. eapply IH; [apply H; eassumption|exact HQ].
  Qed.
  Lemma rel_mono : forall X (t t' : ptree V R J X) (P Q : X -> X -> Prop),
    (forall x x', P x x' -> Q x x') -> rel t t' P -> rel t t' Q.
  Proof.
    intros X t. induction t as [x|y r j q IH]; intros [x'|y' r' j' q'] P Q HP H; cbn in H |- *; try contradiction.
    - apply HP. exact H.
    - destruct H as [E [F H]]. repeat split; auto; try apply F.
      intros e r1 r2 j1 j2 A N. eapply IH; [exact HP|]. apply H; assumption.
  Qed.
  (** The same run twice *)
  Lemma rel_self : forall X W (rj : V -> R -> option J -> W -> outcome unit * (R * option J * W))
      (t : ptree V R J X) w Q, keeps_jacobian rj -> rel t t Q -> Q (fst (prun rj t w)) (fst (prun rj t w)).
  Proof.
    intros X W rj t. induction t as [x|y r j q IH]; cbn; intros w Q K H; [exact H|].
    pose proof (fun a => K y r a w) as N.
    destruct (rj y r j w) as [e [[r' j'] w']] eqn:E. apply IH; [exact K|]. apply H; [intros _; auto|].
    intro Hj. destruct j as [a|]; [|congruence]. specialize (N a). rewrite E in N. exact N.
  Qed.
  Lemma rel_run : forall X W (rj : V -> R -> option J -> W -> outcome unit * (R * option J * W))
      (t t' : ptree V R J X) w Q, overwrites rj -> keeps_jacobian rj -> rel t t' Q ->
    Q (fst (prun rj t w)) (fst (prun rj t' w)) /\ snd (prun rj t' w) = snd (prun rj t w).
  Proof.
    intros X W rj t. induction t as [x|y r j q IH]; intros [x'|y' r' j' q'] w Q O KJ H; cbn in H |- *; try contradiction.
    - auto.
    - destruct H as [-> [F H]]. pose proof (O y r r' j j' w F) as A. pose proof (fun a => KJ y r a w) as N.
      destruct (rj y r j w) as [e [[r1 j1] w1]] eqn:Ej. destruct (rj y r' j' w) as [e' [[r2 j2] w2]].
      destruct A as [-> [-> A]]. apply IH; [exact O|exact KJ|]. apply H; [exact A|].
      intro Hj. destruct j as [a|]; [|congruence]. specialize (N a). rewrite Ej in N. exact N.
  Qed.
End Rel.

(** ** Diagnostics: same names and same values of the quantities that are not in [m] *)
Section Diags.
  Context {S : Type} (o : sops S).
  Definition dlike (m : idiag -> bool) (d d' : ddata S) : Prop :=
    d_name d' = d_name d /\ (m (d_name d) = false -> d' = d).
  Definition dsame (m : idiag -> bool) (c c' : dcont S) : Prop :=
    dc_pub c' = dc_pub c /\ dc_int c' = dc_int c /\ dc_map c' = dc_map c /\
    Forall2 (dlike m) (dc_data c) (dc_data c').
  Lemma dlike_trans : forall m a b c, dlike m a b -> dlike m a c -> dlike m b c.
  Proof.
    intros m a b c [A1 A2] [B1 B2]. split; [congruence|]. intro N. rewrite A1 in N. rewrite A2, B2 by exact N. reflexivity.
  Qed.
  Lemma dsame_trans : forall m a b c, dsame m a b -> dsame m a c -> dsame m b c.
  Proof.
    intros m [da pa ia ma] [db pb ib mb] [dc pc ic mc] (A1 & A2 & A3 & A) (B1 & B2 & B3 & B). cbn in *. subst.
    repeat split; cbn; try reflexivity. revert dc B. induction A as [|x y l l' Hxy H IH]; intros dc B.
    - inversion B. constructor.
    - inversion B as [|? z ? l'' Hxz K]; subst. constructor; [eapply dlike_trans; eauto|auto].
  Qed.
  Lemma dsame_refl : forall m a, dsame m a a.
  Proof.
    intros m a. repeat split; try reflexivity. induction (dc_data a); constructor; auto. split; auto.
  Qed.
  Lemma dsame_eq : forall c c', dsame (fun _ => false) c c' -> c' = c.
  Proof.
    intros [d p i m] [d' p' i' m'] (A1 & A2 & A3 & A). cbn in *. subst. f_equal.
    induction A as [|x y l l' [_ H] _ IH]; [reflexivity|]. rewrite IH, H by reflexivity. reflexivity.
  Qed.
  Lemma dsame_wf : forall m c c', dsame m c c' -> wf c -> wf c'.
  Proof.
    intros m c c' (A1 & A2 & A3 & A). apply same_wf. repeat split; auto.
    induction A as [|x y l l' [H _] _ IH]; [reflexivity|]. cbn. rewrite IH, H. reflexivity.
  Qed.

  (** an update of a quantity in [m] *)
  Lemma set_nth_like : forall m (l l' : list (ddata S)) n x v,
    Forall2 (dlike m) l l' -> nth_error l' n = Some x -> m (d_name x) = true -> d_name v = d_name x ->
    Forall2 (dlike m) l (set_nth n v l').
  Proof.
    intros m l l' n x v H. revert n. induction H as [|a b l l' [H1 H2] H IH]; intros n Hn M E.
    - destruct n; discriminate.
    - destruct n as [|n]; cbn in Hn |- *.
      + injection Hn as ->. constructor; [|exact H]. split; [congruence|]. intro N. congruence.
      + constructor; [split; auto|]. apply IH; auto.
  Qed.
  Lemma iupdate_like : forall m b c i v f c', dsame m b c -> wf c -> m i = true ->
    dc_iupdate o c i v f = Ok c' -> dsame m b c'.
  Proof.
    intros m b c i v f c' (A1 & A2 & A3 & A) W M H. unfold dc_iupdate in H.
    pose proof (find_idx_tracked c i W) as K.
    destruct (find_idx i (dc_int c)) as [n|]; [|discriminate]. destruct K as [x [K1 K2]].
    rewrite K1 in H. injection H as <-. repeat split; cbn; auto.
    eapply set_nth_like; [exact A|exact K1| |apply d_update_name].
    rewrite (tracked_name _ _ _ K2). exact M.
  Qed.
  (** an update with the same value at the first iteration *)
  Definition less (m : idiag -> bool) (i : idiag) : idiag -> bool := fun i' => (m i' && negb (idiag_eqb i i'))%bool.
  Lemma iupdate_first : forall m c c' i v, dsame m c c' -> wf c ->
    match dc_iupdate o c i v true, dc_iupdate o c' i v true with
    | Ok a, Ok a' => dsame (less m i) a a'
    | Undef u, Undef u' => u' = u
    | _, _ => False
    end.
  Proof.
    intros m c c' i v H Wf. pose proof (dsame_wf _ _ _ H Wf) as W'. pose proof H as (A1 & A2 & A3 & A).
    unfold dc_iupdate. rewrite A2, A1, A3.
    pose proof (find_idx_tracked c i Wf) as K. pose proof (find_idx_tracked c' i W') as K'. rewrite A2 in K'.
    destruct (find_idx i (dc_int c)) as [n|]; [|reflexivity].
    destruct K as [x [K1 K2]], K' as [x' [K1' K2']]. rewrite K1, K1'.
    repeat split; cbn [dc_data dc_pub dc_int dc_map].
    apply tracked_name in K2, K2'.
    assert (ND : NoDup (map d_name (dc_data c))) by (rewrite (wf_names _ Wf); apply (wf_nodup _ Wf)).
    clear H Wf W' A1 A2 A3. revert n ND K1 K1'. induction A as [|a a' l l' [B1 B2] A IH]; intros n ND K1 K1'.
    - destruct n; discriminate.
    - cbn in ND. apply NoDup_cons_iff in ND. destruct ND as [N1 N2]. destruct n as [|n]; cbn in K1, K1' |- *.
      + injection K1 as ->. injection K1' as ->. constructor.
        * unfold d_update. rewrite K2, K2'. split; reflexivity.
        * assert (Hn : forall z, In z l -> d_name z <> i).
          { intros z Hz E. apply N1. rewrite K2, <- E. apply in_map. exact Hz. }
          clear - A Hn. induction A as [|b b' l l' [C1 C2] A IH]; constructor.
          -- split; [exact C1|]. intro M. apply C2. unfold less in M.
             destruct (idiag_eqb i (d_name b)) eqn:E.
             ++ apply idiag_eqb_true in E. exfalso. apply (Hn b); [left; reflexivity|congruence].
             ++ cbn in M. rewrite andb_true_r in M. exact M.
          -- apply IH. intros z Hz. apply Hn. right. exact Hz.
      + constructor; [|apply IH; auto]. split; [exact B1|]. intro M. apply B2. unfold less in M.
        destruct (idiag_eqb i (d_name a)) eqn:E.
        * apply idiag_eqb_true in E. exfalso. apply N1. rewrite <- E, <- K2. apply in_map. eapply nth_error_In. exact K1.
        * cbn in M. rewrite andb_true_r in M. exact M.
  Qed.
End Diags.

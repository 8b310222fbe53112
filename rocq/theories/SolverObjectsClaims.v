(** The claims about nonlinear solver objects. *)
From Coq Require Import List Bool Arith Lia.
From Verif Require Import Base SolverObjects SolverObjectsSpec SolverObjectsProofs.
Import ListNotations.

Section Claims.
  Context {Sy L Wt Res : Type}.
  Variables (move_l : L -> L * L) (move_w : Wt -> Wt * Wt).
  Variables (extent : Sy -> nat) (leading : Wt -> nat).
  Variable run : Sy -> option (Wt * nat) -> L -> outcome Res * L.
  Notation one := (use_one move_l move_w extent leading run).
  Notation all := (use_all move_l move_w extent leading run).
  Notation mem := (@mem Sy L Wt).

  Definition sys_place (x : arg Sy) : option nat := match x with Named _ a => Some a | Temp _ _ => None end.
  Definition held_w (k : kind) (wa : arg Wt) (d : nat) : option (held Wt * nat) :=
    match k with Plain => None | _ => Some (hold move_w wa, d) end.
  Lemma created s k sy la wa (m0 m1 : mem) v0 w0 :
    one (NCreate s k sy la wa) m0 = (Ok None, m1) ->
    meant (m_sys m0) sy = Some v0 -> (k <> Plain -> meant (m_w m0) wa = Some w0) ->
    leading_survives move_w leading k wa ->
    m_ns m1 s = Some (mk_nsolver (sys_place sy) (hold move_l la) (held_w k wa (rows extent leading k v0 w0))).
  Proof.
    cbn. unfold create, meant, arg_value, leading_survives, left_over. intros H Hv Hw Hl. rewrite Hv in H.
    destruct (match la with Named _ _ => _ | Temp _ _ => _ end); [|discriminate].
    destruct k; cbn in *.
    - injection H as <-. cbn. apply put_same.
    - rewrite Hw in H by discriminate. injection H as <-. cbn. apply put_same.
    - specialize (Hw ltac:(discriminate)). destruct wa as [c|x]; cbn in *.
      + rewrite Hw in H. injection H as <-. cbn. apply put_same.
      + injection Hw as ->. injection H as <-. cbn. rewrite Hl. apply put_same.
  Qed.
  Lemma created_any s k sy la wa (m0 m1 : mem) : one (NCreate s k sy la wa) m0 = (Ok None, m1) ->
    exists p, m_ns m1 s = Some p /\ ns_sys p = sys_place sy /\ ns_lin p = hold move_l la.
  Proof.
    cbn. destruct (create _ _ _ _ _ _ _ _ _) as [p| | |] eqn:E; try discriminate. intros H. injection H as <-.
    exists p. cbn. rewrite put_same. split; [reflexivity|]. unfold create in E.
    destruct (arg_value (m_sys m0) sy); [|discriminate]. destruct (arg_value (m_lin m0) la); [|discriminate].
    destruct k; [|destruct (arg_value _ wa); [|discriminate]|destruct (left_over _ _ wa); [|discriminate]];
      injection E as <-; split; reflexivity.
  Qed.
  Lemma weight_now k wa (m : mem) w d : move_ok move_w -> (k <> Plain -> meant (m_w m) wa = Some w) ->
    match held_w k wa d with None => Some None | Some (x, d) => option_map (fun x => Some (x, d)) (held_value (m_w m) x) end
    = Some (weights k w d).
  Proof.
    intros M H. destruct k; [reflexivity| |]; specialize (H ltac:(discriminate)); destruct wa; cbn in *; try rewrite M;
      try rewrite H; try (injection H as ->); reflexivity.
  Qed.

  (** solve(system, x) through a shared linear solver *)
  Lemma solve_shared s p b k wa d (m : mem) v l w r l' : move_ok move_w ->
    ns_lin p = Ref L b -> ns_w p = held_w k wa d ->
    m_lin m b = Some l -> (k <> Plain -> meant (m_w m) wa = Some w) ->
    run v (weights k w d) l = (r, l') ->
    exists m', solve_with run s p v m = (reported r, m') /\ only_linear m m' b l'.
  Proof.
    intros M Hl Hw El Ew R. unfold solve_with. rewrite Hl, Hw, (weight_now k wa m w d M Ew). cbn. rewrite El, R.
    eexists; split; [reflexivity|]. repeat split; cbn; [apply put_same|]. intros b' N. apply put_other. congruence.
  Qed.
  Lemma solve_own s p x k wa d (m : mem) v w r l' : move_ok move_w ->
    ns_lin p = Own L x -> ns_w p = held_w k wa d ->
    (k <> Plain -> meant (m_w m) wa = Some w) ->
    run v (weights k w d) x = (r, l') ->
    exists m', solve_with run s p v m = (reported r, m') /\ only_solver m m' s /\
      m_ns m' s = Some (mk_nsolver (ns_sys p) (Own L l') (ns_w p)).
  Proof.
    intros M Hl Hw Ew R. unfold solve_with. rewrite Hl, Hw, (weight_now k wa m w d M Ew). cbn. rewrite R.
    eexists; split; [reflexivity|]. repeat split; cbn; [|rewrite put_same, <- Hw; reflexivity].
    intros s' N. apply put_other. congruence.
  Qed.

  (** Named system and linear solver *)
  Lemma shared_objects s k a b wa (m0 m1 m : mem) us v0 w0 v l w r l' : move_ok move_w ->
    one (NCreate s k (Named Sy a) (Named L b) wa) m0 = (Ok None, m1) ->
    m_sys m0 a = Some v0 -> (k <> Plain -> meant (m_w m0) wa = Some w0) -> leading_survives move_w leading k wa ->
    Forall (keeps s) us -> all us m1 = (Ok tt, m) ->
    m_sys m a = Some v -> m_lin m b = Some l -> (k <> Plain -> meant (m_w m) wa = Some w) ->
    run v (weights k w (rows extent leading k v0 w0)) l = (r, l') ->
    exists m', one (NSolve s) m = (reported r, m') /\ only_linear m m' b l'.
  Proof.
    intros M C Ev0 Ew0 Ls F A Ev El Ew R.
    pose proof (created s k _ _ wa m0 m1 v0 w0 C Ev0 Ew0 Ls) as E.
    destruct (all_keeps move_l move_w extent leading run s us m1 _ F E) as (q & Eq & S1 & S2 & S3).
    rewrite A in Eq. cbn in Eq, S1, S2, S3. destruct (ns_lin q) as [b'|] eqn:Lq; [subst b'|contradiction].
    cbn. rewrite Eq, <- S1, Ev. eapply solve_shared; eauto.
  Qed.
  (** ... and any other system *)
  Lemma shared_other s k sy b wa (m0 m1 m : mem) us v0 w0 a v l w r l' : move_ok move_w ->
    one (NCreate s k sy (Named L b) wa) m0 = (Ok None, m1) ->
    meant (m_sys m0) sy = Some v0 -> (k <> Plain -> meant (m_w m0) wa = Some w0) -> leading_survives move_w leading k wa ->
    Forall (keeps s) us -> all us m1 = (Ok tt, m) ->
    m_sys m a = Some v -> m_lin m b = Some l -> (k <> Plain -> meant (m_w m) wa = Some w) ->
    run v (weights k w (rows extent leading k v0 w0)) l = (r, l') ->
    exists m', one (NSolveWith s a) m = (reported r, m') /\ only_linear m m' b l'.
  Proof.
    intros M C Ev0 Ew0 Ls F A Ev El Ew R.
    pose proof (created s k _ _ wa m0 m1 v0 w0 C Ev0 Ew0 Ls) as E.
    destruct (all_keeps move_l move_w extent leading run s us m1 _ F E) as (q & Eq & S1 & S2 & S3).
    rewrite A in Eq. cbn in Eq, S1, S2, S3. destruct (ns_lin q) as [b'|] eqn:Lq; [subst b'|contradiction].
    cbn. rewrite Eq, Ev. eapply solve_shared; eauto.
  Qed.
  (** A temporary linear solver, two solves with anything between them *)
  Lemma own_objects s k sy x wa (m0 m1 m : mem) us v0 w0 a v w r l' u us2 m3 a3 v3 w3 r3 l3 u3 :
    move_ok move_l -> move_ok move_w ->
    one (NCreate s k sy (Temp L x) wa) m0 = (Ok None, m1) ->
    meant (m_sys m0) sy = Some v0 -> (k <> Plain -> meant (m_w m0) wa = Some w0) -> leading_survives move_w leading k wa ->
    Forall (leaves s) us -> all us m1 = (Ok tt, m) ->
    m_sys m a = Some v -> (k <> Plain -> meant (m_w m) wa = Some w) -> solves s sy a u ->
    run v (weights k w (rows extent leading k v0 w0)) x = (r, l') ->
    exists m', one u m = (reported r, m') /\ only_solver m m' s /\
      (Forall (leaves s) us2 -> all us2 m' = (Ok tt, m3) ->
       m_sys m3 a3 = Some v3 -> (k <> Plain -> meant (m_w m3) wa = Some w3) -> solves s sy a3 u3 ->
       run v3 (weights k w3 (rows extent leading k v0 w0)) l' = (r3, l3) ->
       exists m4, one u3 m3 = (reported r3, m4) /\ only_solver m3 m4 s).
  Proof.
    intros Ml M C Ev0 Ew0 Ls F A Ev Ew U R.
    pose proof (created s k _ _ wa m0 m1 v0 w0 C Ev0 Ew0 Ls) as E. cbn in E. rewrite Ml in E.
    pose proof (all_leaves move_l move_w extent leading run s us m1 F) as K. rewrite A in K. cbn in K. rewrite E in K.
    edestruct (solve_own s (mk_nsolver (sys_place sy) (Own L x) (held_w k wa (rows extent leading k v0 w0))) x k wa _ m v w r l' M eq_refl eq_refl Ew R) as (m' & S & O & N).
    exists m'. split; [destruct U as [->|[-> ->]]; cbn [use_one]; rewrite K; cbn [ns_sys sys_place]; rewrite Ev; exact S|]. split; [exact O|].
    intros F2 A2 Ev3 Ew3 U3 R3.
    pose proof (all_leaves move_l move_w extent leading run s us2 m' F2) as K2. rewrite A2 in K2. cbn in K2, N. rewrite N in K2.
    edestruct (solve_own s (mk_nsolver (sys_place sy) (Own L l') (held_w k wa (rows extent leading k v0 w0))) l' k wa _ m3 v3 w3 r3 l3 M eq_refl eq_refl Ew3 R3) as (m4 & S4 & O4 & _).
    exists m4. split; [destruct U3 as [->|[-> ->]]; cbn [use_one]; rewrite K2; cbn [ns_sys sys_place]; rewrite Ev3; exact S4|exact O4].
  Qed.
  (** A copy works with the same objects; a moved-to solver too *)
  Lemma copied s s' (m m1 m2 : mem) us : s <> s' -> one (NCopy s s') m = (Ok None, m1) ->
    Forall (leaves s') us -> all us m1 = (Ok tt, m2) ->
    m_ns m2 s' = m_ns m s /\ m_ns m1 s = m_ns m s.
  Proof.
    intros N C F A. cbn in C. destruct (m_ns m s) as [p|] eqn:E; [|discriminate]. injection C as <-.
    pose proof (all_leaves move_l move_w extent leading run s' us (set_ns m (put (m_ns m) s' (Some p))) F) as K. rewrite A in K. cbn in K. rewrite K, put_same.
    split; [reflexivity|]. cbn. rewrite put_other by congruence. exact E.
  Qed.
  Lemma moved_same (p : @nsolver L Wt) : move_ok move_l -> move_ok move_w -> moved move_l move_w p = p.
  Proof.
    intros Ml M. destruct p as [sy li w]. unfold moved. cbn. f_equal.
    - destruct li; cbn; [reflexivity|rewrite Ml; reflexivity].
    - destruct w as [[x d]|]; cbn; [|reflexivity]. destruct x; cbn; [reflexivity|rewrite M; reflexivity].
  Qed.
  Lemma solve_result s s' p v (m m2 : mem) : m_lin m = m_lin m2 -> m_w m = m_w m2 ->
    fst (solve_with run s p v m) = fst (solve_with run s' p v m2).
  Proof.
    intros E1 E2. unfold solve_with. rewrite E1, E2. destruct (held_value _ _); [|reflexivity].
    destruct (match ns_w p with None => _ | Some _ => _ end); [|reflexivity]. destruct (run v o l). reflexivity.
  Qed.
  Lemma copy_solves s s' (m m1 m2 : mem) us : s <> s' -> one (NCopy s s') m = (Ok None, m1) ->
    Forall (leaves s') us -> all us m1 = (Ok tt, m2) ->
    m_sys m2 = m_sys m -> m_lin m2 = m_lin m -> m_w m2 = m_w m ->
    fst (one (NSolve s') m2) = fst (one (NSolve s) m).
  Proof.
    intros N C F A Es El Ew. destruct (copied s s' m m1 m2 us N C F A) as [E _]. cbn. rewrite E, Es.
    destruct (m_ns m s) as [p|]; [|reflexivity]. destruct (ns_sys p) as [a|]; [|reflexivity].
    destruct (m_sys m a); [|reflexivity]. apply solve_result; congruence.
  Qed.
  Lemma move_solves s s' (m m1 m2 : mem) us : move_ok move_l -> move_ok move_w -> s <> s' ->
    one (NMove s s') m = (Ok None, m1) -> Forall (leaves s') us -> all us m1 = (Ok tt, m2) ->
    m_sys m2 = m_sys m -> m_lin m2 = m_lin m -> m_w m2 = m_w m ->
    fst (one (NSolve s') m2) = fst (one (NSolve s) m).
  Proof.
    intros Ml M N C F A Es El Ew. cbn in C. destruct (m_ns m s) as [p|] eqn:E; [|discriminate]. injection C as <-.
    pose proof (all_leaves move_l move_w extent leading run s' us (set_ns m (put (put (m_ns m) s (Some (moved_from move_l move_w p))) s' (Some (moved move_l move_w p)))) F) as K. rewrite A in K. cbn in K.
    rewrite put_same, moved_same in K by assumption. cbn. rewrite K, E, Es.
    destruct (ns_sys p) as [a|]; [|reflexivity]. destruct (m_sys m a); [|reflexivity]. apply solve_result; congruence.
  Qed.

  (** The stored system is gone, or the linear solver is *)
  Lemma gone s k sy la wa (m0 m1 m : mem) us : one (NCreate s k sy la wa) m0 = (Ok None, m1) ->
    Forall (keeps s) us -> all us m1 = (Ok tt, m) ->
    match sy with Named _ a => m_sys m a = None | Temp _ _ => True end ->
    one (NSolve s) m = (Undef UDangling, m).
  Proof.
    intros C F A G. destruct (created_any s k sy la wa m0 m1 C) as (p & E & P1 & _).
    destruct (all_keeps move_l move_w extent leading run s us m1 p F E) as (q & Eq & S1 & _). rewrite A in Eq. cbn in Eq.
    cbn. rewrite Eq, <- S1, P1. destruct sy; cbn; [rewrite G|]; reflexivity.
  Qed.
  Lemma linear_gone s k sy b wa (m0 m1 m : mem) us a v : one (NCreate s k sy (Named L b) wa) m0 = (Ok None, m1) ->
    Forall (keeps s) us -> all us m1 = (Ok tt, m) -> m_lin m b = None -> m_sys m a = Some v ->
    one (NSolveWith s a) m = (Undef UDangling, m).
  Proof.
    intros C F A G Ev. destruct (created_any s k sy _ wa m0 m1 C) as (p & E & _ & P2).
    destruct (all_keeps move_l move_w extent leading run s us m1 p F E) as (q & Eq & _ & _ & S3). rewrite A in Eq. cbn in Eq.
    rewrite P2 in S3. cbn in S3. destruct (ns_lin q) eqn:Lq; [subst|contradiction].
    cbn. rewrite Eq, Ev. unfold solve_with. rewrite Lq. cbn. rewrite G. reflexivity.
  Qed.
End Claims.

Lemma temporary_system_refuted :
  ~ (forall (Sy L Wt Res : Type) move_l move_w extent leading (run : Sy -> option (Wt * nat) -> L -> outcome Res * L) s v la wa m0 m1,
     (forall x w l, exists y, fst (run x w l) = Ok y) ->
     use_one move_l move_w extent leading run (NCreate s Plain (Temp Sy v) la wa) m0 = (Ok None, m1) ->
     exists y, fst (use_one move_l move_w extent leading run (NSolve s) m1) = Ok (Some y)).
Proof.
  intros H.
  destruct (H nat nat nat nat (fun x => (x, x)) (fun x => (x, x)) (fun x => x) (fun x => x) (fun _ _ l => (Ok 1, l)) 0 5 (Temp nat 2) (Temp nat 0)
    (mk_mem (fun _ => None) (fun _ => None) (fun _ => None) (fun _ => None)) _ (fun _ _ _ => ex_intro _ 1 eq_refl) eq_refl) as [y E].
  discriminate E.
Qed.

Lemma compact_temporary_refuted :
  ~ (forall (Sy L Wt Res : Type) move_l move_w extent leading (run : Sy -> option (Wt * nat) -> L -> outcome Res * L) s a l w m0 m1 v,
     move_ok move_l -> move_ok move_w -> m_sys m0 a = Some v ->
     use_one move_l move_w extent leading run (NCreate s CompactWeighted (Named Sy a) (Temp L l) (Temp Wt w)) m0 = (Ok None, m1) ->
     fst (use_one move_l move_w extent leading run (NSolve s) m1) = reported (fst (run v (Some (w, leading w)) l))).
Proof.
  intros H.
  specialize (H nat nat (list nat) (option (list nat * nat)) (fun x => (x, x)) (fun x => (x, [])) (fun x => x) (@length nat) (fun _ w l => (Ok w, l)) 0 0 2 [7; 8]
    (mk_mem (fun _ => Some 3) (fun _ => None) (fun _ => None) (fun _ => None)) _ 3 (fun _ => eq_refl) (fun _ => eq_refl) eq_refl eq_refl).
  discriminate H.
Qed.

(** The solver moved from keeps its references, and has what is left of the linear solver it owned. *)
Lemma moved_from_solves : forall (Sy L Wt Res : Type) (move_l : L -> L * L) (move_w : Wt -> Wt * Wt) (extent : Sy -> nat)
    (leading : Wt -> nat) (run : Sy -> option (Wt * nat) -> L -> outcome Res * L),
  let one := use_one move_l move_w extent leading run in
  forall s s' a la wa (m0 m1 m : @mem Sy L Wt) v l,
    s <> s' -> move_ok move_l ->
    one (NCreate s Plain (Named Sy a) la wa) m0 = (Ok None, m1) -> one (NMove s s') m1 = (Ok None, m) ->
    m_sys m0 a = Some v -> meant (m_lin m0) la = Some l ->
    fst (one (NSolve s) m) = reported (fst (run v None (match la with Named _ _ => l | Temp _ _ => snd (move_l l) end))).
Proof.
  intros Sy L Wt Res move_l move_w extent leading run one s s' a la wa m0 m1 m v l Hs Hm H1 H2 Hv Hl.
  subst one. cbn in H1. unfold create, arg_value in H1. rewrite Hv in H1. unfold meant in Hl. rewrite Hl in H1.
  injection H1 as <-. cbn in H2. rewrite put_same in H2. injection H2 as <-. cbn.
  rewrite put_other by congruence. rewrite put_same. cbn. rewrite Hv. unfold solve_with. cbn.
  destruct la as [b|x]; cbn in *.
  - rewrite Hl. destruct (run v None l) as [r l']. cbn. destruct r; reflexivity.
  - injection Hl as ->. rewrite (Hm l). destruct (run v None (snd (move_l l))) as [r l']. cbn. destruct r; reflexivity.
Qed.

(** Proofs about the extra arguments of the advance functions. *)
From Coq Require Import ZArith List Bool Lia.
From Verif Require Import Base AdvanceModel ImplicitSim ArgsModel ArgsSpec.
Import ListNotations.
Local Open Scope Z_scope.
Local Open Scope cmd_scope.

(** Users that differ only in their world do the same thing. *)
Section WorldSim.
  Context {T St WA WB : Type} (o : sops T) (ua : user T St WA) (ub : user T St WB).
  Variable Rel : WA -> WB -> Prop.
  Record users_alike : Prop := {
    al_obs : forall k t s a b, Rel a b ->
      fst (u_obs ua k t s a) = fst (u_obs ub k t s b) /\
      Rel (snd (u_obs ua k t s a)) (snd (u_obs ub k t s b));
    al_pol : forall k t d a b, Rel a b ->
      fst (u_pol ua k t d a) = fst (u_pol ub k t d b) /\
      Rel (snd (u_pol ua k t d a)) (snd (u_pol ub k t d b));
    al_guess : forall k t s a b, Rel a b ->
      fst (u_guess ua k t s a) = fst (u_guess ub k t s b) /\
      fst (snd (u_guess ua k t s a)) = fst (snd (u_guess ub k t s b)) /\
      Rel (snd (snd (u_guess ua k t s a))) (snd (snd (u_guess ub k t s b)));
    al_step : forall s t k h a b, Rel a b ->
      fst (u_step ua s t k h a) = fst (u_step ub s t k h b) /\
      fst (snd (u_step ua s t k h a)) = fst (snd (u_step ub s t k h b)) /\
      Rel (snd (snd (u_step ua s t k h a))) (snd (snd (u_step ub s t k h b)))
  }.
  Hypothesis AL : users_alike.
  Definition galike (a : @gstate T St WA) (b : @gstate T St WB) : Prop :=
    let '(sa, wa, tra) := a in let '(sb, wb, trb) := b in
    sa = sb /\ Rel wa wb /\ tra = trb.

  Lemma do_obs_sim k t : csim galike (do_obs ua k t) (do_obs ub k t).
  Proof.
    intros [[s wa] tr] [[s' wb] tr'] (<- & HR & <-). cbn.
    destruct (al_obs AL k t s wa wb HR) as [E R].
    destruct (u_obs ua k t s wa), (u_obs ub k t s wb); cbn in *. auto.
  Qed.
  Lemma do_pol_sim k t d : csim galike (do_pol ua k t d) (do_pol ub k t d).
  Proof.
    intros [[s wa] tr] [[s' wb] tr'] (<- & HR & <-). cbn.
    destruct (al_pol AL k t d wa wb HR) as [E R].
    destruct (u_pol ua k t d wa), (u_pol ub k t d wb); cbn in *. auto.
  Qed.
  Lemma do_guess_sim k t : csim galike (do_guess ua k t) (do_guess ub k t).
  Proof.
    intros [[s wa] tr] [[s' wb] tr'] (<- & HR & <-). cbn.
    destruct (al_guess AL k t s wa wb HR) as (E & F & R).
    destruct (u_guess ua k t s wa) as [? []], (u_guess ub k t s wb) as [? []]; cbn in *. auto.
  Qed.
  Lemma do_step_sim t k h : csim galike (do_step ua t k h) (do_step ub t k h).
  Proof.
    intros [[s wa] tr] [[s' wb] tr'] (<- & HR & <-). cbn.
    destruct (al_step AL s t k h wa wb HR) as (E & F & R).
    destruct (u_step ua s t k h wa) as [? []], (u_step ub s t k h wb) as [? []]; cbn in *. auto.
  Qed.
  Lemma incr_sim k : csim galike (incr k) (incr k).
  Proof. intros a b H. unfold incr. destruct (k =? int32_max); split; auto. Qed.

  Lemma n_steps_loop_sim fuel : forall num k t h,
    csim galike (n_steps_loop o ua fuel num k t h) (n_steps_loop o ub fuel num k t h).
  Proof.
    induction fuel as [|fuel IH]; intros num k t h; cbn [n_steps_loop];
      (destruct (k <=? num); [|intros a b H; split; [reflexivity|exact H]]).
    - intros a b H; split; [reflexivity|exact H].
    - apply csim_bind; [apply do_pol_sim|]; intros d.
      apply csim_bind; [apply do_guess_sim|]; intros _.
      apply csim_bind; [apply do_step_sim|]; intros _.
      apply csim_bind; [apply do_obs_sim|]; intros _.
      apply csim_bind; [apply incr_sim|]; intros k'. apply IH.
  Qed.
  Lemma advance_n_steps_sim num t :
    csim galike (advance_n_steps o ua num t) (advance_n_steps o ub num t).
  Proof. apply csim_bind; [apply do_obs_sim|]; intros _. apply n_steps_loop_sim. Qed.

  Lemma retry_loop_sim fuel : forall t k h m c,
    csim galike (retry_loop o ua fuel t k h m c) (retry_loop o ub fuel t k h m c).
  Proof.
    induction fuel as [|fuel IH]; intros t k h m c a b H; cbn [retry_loop].
    - split; [reflexivity|exact H].
    - destruct (do_step_sim t k h a b H) as [E R].
      destruct (do_step ua t k h a) as [e a'], (do_step ub t k h b) as [e' b']. cbn [fst snd] in *. subst e'.
      destruct e as [x|x|x|]; try (split; [reflexivity|exact R]).
      destruct x; try (split; [reflexivity|exact R]).
      destruct (sltb o (sdiv o h c) m); [split; [reflexivity|exact R]|]. apply IH; exact R.
  Qed.
  Lemma one_step_sim rc fuel t k h m c :
    csim galike (one_step o ua rc fuel t k h m c) (one_step o ub rc fuel t k h m c).
  Proof.
    unfold one_step. destruct rc; [apply retry_loop_sim|].
    apply csim_bind; [apply do_step_sim|]; intros _. apply csim_ret.
  Qed.
  Lemma target_loop_sim rc fuel : forall fin k t d,
    csim galike (target_loop o ua rc fuel fin k t d) (target_loop o ub rc fuel fin k t d).
  Proof.
    induction fuel as [|fuel IH]; intros fin k t d; cbn [target_loop].
    - intros a b H; split; [reflexivity|exact H].
    - apply csim_bind; [apply do_pol_sim|]; intros [[h m] c].
      destruct (sltb o h m); [apply csim_throw|].
      destruct (rc && sleb o c (s1 o))%bool; [apply csim_throw|].
      apply csim_bind; [apply one_step_sim|]; intros h'.
      apply csim_bind; [apply do_obs_sim|]; intros _.
      apply csim_bind; [apply incr_sim|]; intros k'.
      destruct (keep_going o fin (sadd o t h')); [apply IH|apply csim_ret].
  Qed.
  Lemma to_target_sim rc fuel t fin :
    csim galike (to_target o ua rc fuel t fin) (to_target o ub rc fuel t fin).
  Proof.
    unfold to_target. destruct (sltb o fin t); [apply csim_throw|].
    destruct (seqb o fin t); [apply csim_ret|].
    apply csim_bind; [apply do_obs_sim|]; intros _. apply target_loop_sim.
  Qed.
End WorldSim.

Section Args.
  Context {T St W A : Type} (o : sops T) (moved : A -> A).
  Variable body : list A -> St -> T -> Z -> T -> W -> outcome unit * (St * W).

  Lemma survives_after x : survives moved x -> after_passing moved x = x.
  Proof.
    destruct x as [[] [] v]; unfold survives, after_passing; cbn; intros H; try reflexivity.
    destruct H as [H|[H|H]]; try discriminate. rewrite H. reflexivity.
  Qed.
  Lemma survive_map args : Forall (survives moved) args -> map (after_passing moved) args = args.
  Proof.
    induction 1 as [|x l H _ IH]; cbn; [reflexivity|]. rewrite (survives_after x H), IH. reflexivity.
  Qed.

  Section Keep.
    Variables (u : user T St W) (args : list (arg A)).
    Hypothesis KEEP : Forall (survives moved) args.
    Lemma keep_alike : users_alike (user_args moved body u) (built_in body u (map a_val args))
                                   (fun a b => a = (b, args)).
    Proof.
      split; intros; subst; cbn.
      - destruct (u_obs u k t s b); cbn; auto.
      - destruct (u_pol u k t d b); cbn; auto.
      - destruct (u_guess u k t s b) as [? []]; cbn; auto.
      - destruct (body (map a_val args) s t k h b) as [? []]; cbn. rewrite (survive_map args KEEP). auto.
    Qed.
    Lemma lift_run (c : cmd _ unit) d s w tr :
      csim (galike (T:=T) (St:=St) (fun (a : W * list (arg A)) b => a = (b, args))) c d ->
      c (s, (w, args), tr) = beside args (d (s, w, tr)).
    Proof.
      intros H. destruct (H (s, (w, args), tr) (s, w, tr)) as [E R]; [repeat split|].
      destruct (c (s, (w, args), tr)) as [e [[s1 w1] tr1]], (d (s, w, tr)) as [e' [[s2 w2] tr2]].
      cbn in *. destruct R as (-> & -> & ->). subst. reflexivity.
    Qed.
    Lemma n_steps_keep num t s w tr :
      advance_n_steps_args moved body o u num t (s, (w, args), tr) =
      beside args (advance_n_steps o (built_in body u (map a_val args)) num t (s, w, tr)).
    Proof. apply lift_run. apply advance_n_steps_sim. exact keep_alike. Qed.
    Lemma target_keep rc fuel t fin s w tr :
      to_target_args moved body o u rc fuel t fin (s, (w, args), tr) =
      beside args (to_target o (built_in body u (map a_val args)) rc fuel t fin (s, w, tr)).
    Proof. apply lift_run. apply to_target_sim. exact keep_alike. Qed.
  End Keep.

  Section Exact.
    Variables (u : user T St W) (args : list (arg A)).
    Local Notation at_call := (at_call moved args).
    Lemma at_0 : at_call 0 = args.
    Proof.
      unfold ArgsSpec.at_call. rewrite <- (map_id args) at 2. apply map_ext. intros [[] [] v]; reflexivity.
    Qed.
    Lemma at_S j : map (after_passing moved) (at_call j) = at_call (S j).
    Proof.
      unfold ArgsSpec.at_call. rewrite map_map. apply map_ext. intros [[] [] v]; reflexivity.
    Qed.
    Lemma at_vals j : map a_val (at_call j) = map (received moved j) args.
    Proof. unfold ArgsSpec.at_call. rewrite map_map. reflexivity. Qed.
    Definition agrees (a : W * list (arg A)) (b : W * nat) : Prop :=
      fst a = fst b /\ snd a = at_call (snd b).
    Lemma exact_alike : users_alike (user_args moved body u)
      (counted body (fun j => map (received moved j) args) u) agrees.
    Proof.
      split; intros; destruct a as [w l], b as [w' j], H as [E F]; cbn in E, F; subst w' l; cbn.
      - destruct (u_obs u k t s w); cbn; repeat split; auto.
      - destruct (u_pol u k t d w); cbn; repeat split; auto.
      - destruct (u_guess u k t s w) as [? []]; cbn; repeat split; auto.
      - rewrite at_vals. destruct (body _ s t k h w) as [? []]; cbn. repeat split; auto. cbn.
        apply at_S.
    Qed.
    Lemma exact_run (c : cmd _ unit) d s w tr :
      csim (galike (T:=T) (St:=St) agrees) c d ->
      exists e s' w' j tr', d (s, (w, 0%nat), tr) = (e, (s', (w', j), tr')) /\
        c (s, (w, args), tr) = (e, (s', (w', at_call j), tr')).
    Proof.
      intros H. destruct (H (s, (w, args), tr) (s, (w, 0%nat), tr)) as [E R].
      { repeat split. cbn. symmetry. apply at_0. }
      destruct (c (s, (w, args), tr)) as [e [[s1 [w1 l1]] tr1]], (d (s, (w, 0%nat), tr)) as [e' [[s2 [w2 j]] tr2]].
      cbn in *. destruct R as (-> & [Ew El] & ->). cbn in Ew, El. subst. repeat eexists.
    Qed.
    Lemma n_steps_exact num t s w tr :
      exists e s' w' j tr',
        advance_n_steps o (counted body (fun j => map (received moved j) args) u) num t (s, (w, 0%nat), tr)
          = (e, (s', (w', j), tr')) /\
        advance_n_steps_args moved body o u num t (s, (w, args), tr) = (e, (s', (w', at_call j), tr')).
    Proof. apply exact_run. apply advance_n_steps_sim. exact exact_alike. Qed.
    Lemma target_exact rc fuel t fin s w tr :
      exists e s' w' j tr',
        to_target o (counted body (fun j => map (received moved j) args) u) rc fuel t fin (s, (w, 0%nat), tr)
          = (e, (s', (w', j), tr')) /\
        to_target_args moved body o u rc fuel t fin (s, (w, args), tr) = (e, (s', (w', at_call j), tr')).
    Proof. apply exact_run. apply to_target_sim. exact exact_alike. Qed.
  End Exact.

  (** One step only: nothing can be lost. *)
  Lemma one_step_fine u args t s w tr :
    forget (advance_n_steps_args moved body o u 1 t (s, (w, args), tr)) =
    advance_n_steps o (built_in body u (map a_val args)) 1 t (s, w, tr).
  Proof.
    unfold advance_n_steps_args, advance_n_steps. cbn -[incr].
    unfold bind, do_obs, do_pol, do_guess, do_step; cbn -[incr].
    destruct (u_obs u 0 t s w) as [[|e|v|] w0]; cbn -[incr]; try reflexivity.
    destruct (u_pol u 1 t _ w0) as [[d|e|v|] w1]; cbn -[incr]; try reflexivity.
    destruct (u_guess u 1 t s w1) as [[|e|v|] [s2 w2]]; cbn -[incr]; try reflexivity.
    destruct (body (map a_val args) s2 t 1 _ w2) as [[|e|v|] [s3 w3]]; cbn -[incr]; try reflexivity.
    destruct (u_obs u 1 _ s3 w3) as [[|e|v|] w4]; reflexivity.
  Qed.
End Args.

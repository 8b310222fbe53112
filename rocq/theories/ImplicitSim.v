(** Two implicit steppers whose policies cannot be told apart do the same thing. *)
From Coq Require Import ZArith List Bool.
From Verif Require Import Base ExplicitModel ImplicitModel ImplicitSpec ImplicitProofs.
Import ListNotations.
Local Open Scope Z_scope.
Local Open Scope cmd_scope.

Section CmdSim.
  Context {GA GB : Type} (same : GA -> GB -> Prop).
  Definition csim {T} (c : cmd GA T) (d : cmd GB T) : Prop :=
    forall a b, same a b -> fst (c a) = fst (d b) /\ same (snd (c a)) (snd (d b)).
  Lemma csim_bind {T U} (c : cmd GA T) d (k : T -> cmd GA U) l :
    csim c d -> (forall x, csim (k x) (l x)) -> csim (bind c k) (bind d l).
  Proof.
    intros HC HK a b HS. destruct (HC a b HS) as [E S1]. unfold bind.
    destruct (c a) as [e a1], (d b) as [e' b1]. cbn [fst snd] in *. subst e'.
    destruct e; cbn [fst snd]; try (split; [reflexivity|exact S1]). apply HK. exact S1.
  Qed.
  Lemma csim_catch {T} (c : cmd GA T) d p (h : exn -> cmd GA T) k :
    csim c d -> (forall e, csim (h e) (k e)) -> csim (catch c p h) (catch d p k).
  Proof.
    intros HC HK a b HS. destruct (HC a b HS) as [E S1]. unfold catch.
    destruct (c a) as [e a1], (d b) as [e' b1]. cbn [fst snd] in *. subst e'.
    destruct e as [x|x|x|]; cbn [fst snd]; try (split; [reflexivity|exact S1]).
    destruct (p x); [apply HK; exact S1|split; [reflexivity|exact S1]].
  Qed.
  Lemma csim_throw {T} e : csim (throw e : cmd GA T) (throw e).
  Proof. intros a b HS. split; [reflexivity|exact HS]. Qed.
  Lemma csim_ret {T} (x : T) : csim (ret x) (ret x).
  Proof. intros a b HS. split; [reflexivity|exact HS]. Qed.
End CmdSim.

Section StepSim.
  Context {S V R J PA PB Ws : Type} (o : sops S).
  Variable polA : policy S V R J PA.
  Variable polB : policy S V R J PB.
  Variable solver : Ws -> V -> sol V R J Ws.
  Variable Rel : PA -> PB -> Prop.
  Definition psim : Prop := forall name y st fs t k dt r j a b, Rel a b ->
    exists e fs' r' j' a' b', polA name y st fs t k dt r j a = (e, (fs', r', j', a')) /\
      polB name y st fs t k dt r j b = (e, (fs', r', j', b')) /\ Rel a' b'.
  Hypothesis HP : psim.
  Definition same_stepper (a : @sst S V R PA Ws) (b : @sst S V R PB Ws) : Prop :=
    t_y a = t_y b /\ t_st a = t_st b /\ t_fs a = t_fs b /\ t_time a = t_time b /\ t_dt a = t_dt b /\
    t_step a = t_step b /\ t_ws a = t_ws b /\ Rel (t_p a) (t_p b).

  Ltac go := intros [ay ast afs at' adt ak ap aws] [y st fs t' dt' k' p ws] (E1 & E2 & E3 & E4 & E5 & E6 & E7 & E8);
    cbn in E1, E2, E3, E4, E5, E6, E7, E8; subst.
  Lemma set_info_sim t dt k : csim same_stepper (set_info o t dt k) (set_info o t dt k).
  Proof. go. split; [reflexivity|]. repeat split; assumption. Qed.
  Lemma get_ode_sim : csim same_stepper get_ode get_ode.
  Proof. go. split; [reflexivity|]. repeat split; assumption. Qed.
  Lemma set_ode_sim v : csim same_stepper (set_ode v) (set_ode v).
  Proof. go. split; [reflexivity|]. repeat split; assumption. Qed.
  Lemma get_st_sim i : csim same_stepper (get_st i) (get_st i).
  Proof.
    go. unfold get_st. cbn [t_st]. destruct (nth_error _ i); (split; [reflexivity|]); repeat split; assumption.
  Qed.
  Lemma set_st_sim i v : csim same_stepper (set_st i v) (set_st i v).
  Proof.
    go. unfold set_st. cbn [t_st]. destruct (list_set _ i v); (split; [reflexivity|]); repeat split; assumption.
  Qed.
  Lemma do_solve_sim name : csim same_stepper (do_solve polA solver name) (do_solve polB solver name).
  Proof.
    go. unfold do_solve. cbn [t_st t_time t_step t_dt t_ws t_y t_fs t_p].
    destruct (run_solver_sim (Ws:=Ws) (std_rj polA name st t' k' dt') (std_rj polB name st t' k' dt')
        (fun a b => fst a = fst b /\ Rel (snd a) (snd b))) with (s := solver ws y) (y0 := y) (ws0 := ws)
        (a := (fs, ap)) (b := (fs, p)) as (e & y' & ws' & a' & b' & EA & EB & EF & ER).
    - intros y1 r j [fa a] [fb b] [EF HR]. cbn in EF, HR. subst fb. unfold std_rj. cbn [fst snd].
      destruct (HP name y1 st fa t' k' dt' r j a b HR) as (e & fs' & r' & j' & a' & b' & EA & EB & HR').
      rewrite EA, EB. do 5 eexists. split; [reflexivity|]. split; [reflexivity|]. split; [reflexivity|exact HR'].
    - split; [reflexivity|assumption].
    - rewrite EA, EB. destruct a' as [fa a'], b' as [fb b']. cbn in EF, ER. subst fb.
      split; [reflexivity|]. repeat split; assumption.
  Qed.
  Ltac csim_auto :=
    repeat first [apply csim_bind; [|intros ?]|apply csim_catch; [|intros ?]|apply csim_throw|apply csim_ret
                 |apply set_info_sim|apply get_ode_sim|apply set_ode_sim|apply get_st_sim|apply set_st_sim|apply do_solve_sim].
  Lemma implicit_step_sim name t k dt :
    csim same_stepper (implicit_step o polA solver name t k dt) (implicit_step o polB solver name t k dt).
  Proof.
    destruct name; cbn [implicit_step]; unfold step_one_state, step_two_states; csim_auto.
    - destruct (k =? 1); csim_auto.
    - destruct (k =? 1); csim_auto.
  Qed.
  Lemma perform_sim name evs : forall t k a b, same_stepper a b ->
    fst (perform o (implicit_step o polA solver name) put_ode t_y evs t k a) =
    fst (perform o (implicit_step o polB solver name) put_ode t_y evs t k b) /\
    same_stepper (snd (perform o (implicit_step o polA solver name) put_ode t_y evs t k a))
                 (snd (perform o (implicit_step o polB solver name) put_ode t_y evs t k b)).
  Proof.
    induction evs as [|[t0 y0|dt] evs IH]; intros t k a b HS.
    - split; [reflexivity|exact HS].
    - cbn [perform]. assert (HS' : same_stepper (put_ode y0 a) (put_ode y0 b)).
      { destruct HS as (E1 & E2 & E3 & E4 & E5 & E6 & E7 & E8). repeat split; try assumption. }
      destruct (IH t0 1 _ _ HS') as [IE IS].
      destruct (perform _ _ _ _ evs t0 1 (put_ode y0 a)), (perform _ _ _ _ evs t0 1 (put_ode y0 b)).
      cbn [fst snd] in *. subst. split; [reflexivity|exact IS].
    - cbn [perform]. destruct (implicit_step_sim name t k dt a b HS) as [E S1].
      destruct (implicit_step o polA solver name t k dt a) as [r a1].
      destruct (implicit_step o polB solver name t k dt b) as [r' b1]. cbn [fst snd] in E, S1. subst r'.
      assert (HI : forall t k, fst (perform o (implicit_step o polA solver name) put_ode t_y evs t k a1) =
        fst (perform o (implicit_step o polB solver name) put_ode t_y evs t k b1) /\
        same_stepper (snd (perform o (implicit_step o polA solver name) put_ode t_y evs t k a1))
                 (snd (perform o (implicit_step o polB solver name) put_ode t_y evs t k b1))) by (intros; apply IH; exact S1).
      destruct r as [x|x|x|].
      + destruct (HI (sadd o t dt) (k + 1)) as [IE IS].
        destruct (perform _ _ _ _ evs (sadd o t dt) (k + 1) a1), (perform _ _ _ _ evs (sadd o t dt) (k + 1) b1).
        cbn [fst snd] in *. subst. destruct S1 as [-> _]. split; [reflexivity|exact IS].
      + destruct (HI t k) as [IE IS].
        destruct (perform _ _ _ _ evs t k a1), (perform _ _ _ _ evs t k b1).
        cbn [fst snd] in *. subst. destruct S1 as [-> _]. split; [reflexivity|exact IS].
      + destruct (HI t k) as [IE IS].
        destruct (perform _ _ _ _ evs t k a1), (perform _ _ _ _ evs t k b1).
        cbn [fst snd] in *. subst. destruct S1 as [-> _]. split; [reflexivity|exact IS].
      + destruct (HI t k) as [IE IS].
        destruct (perform _ _ _ _ evs t k a1), (perform _ _ _ _ evs t k b1).
        cbn [fst snd] in *. subst. destruct S1 as [-> _]. split; [reflexivity|exact IS].
  Qed.
End StepSim.

(** Systems that cannot be told apart give such policies. *)
Section SysSim.
  Context {S V J WA WB : Type} (o : sops S) (vo : vops S V) (jo : vops S J).
  Variable jid : J.
  Variable japp : J -> V -> V.
  Variable uA : isys (S:=S) (V:=V) (J:=J) (W:=WA).
  Variable uB : isys (S:=S) (V:=V) (J:=J) (W:=WB).
  Variable Rel : WA -> WB -> Prop.
  Definition ssim : Prop := forall y t r j a b, Rel a b ->
    exists e r' j' a' b', is_eval uA y t r j a = (e, (r', j', a')) /\ is_eval uB y t r j b = (e, (r', j', b')) /\ Rel a' b'.
  Definition ssim_mm : Prop := forall y t m r j a b, Rel a b ->
    exists e m' r' j' a' b', is_mmeval uA y t m r j a = (e, (m', r', j', a')) /\
      is_mmeval uB y t m r j b = (e, (m', r', j', b')) /\ Rel a' b'.
  Definition prel (a : ppol (W:=WA)) (b : ppol (W:=WB)) : Prop := pp_trk a = pp_trk b /\ Rel (pp_w a) (pp_w b).
  Definition mrel (a : mpol (V:=V) (J:=J) (W:=WA)) (b : mpol (V:=V) (J:=J) (W:=WB)) : Prop :=
    mp_M a = mp_M b /\ mp_scr a = mp_scr b /\ mp_f a = mp_f b /\ mp_trk a = mp_trk b /\ Rel (mp_w a) (mp_w b).
  Ltac fin := do 6 eexists; split; [reflexivity|]; split; [reflexivity|]; first [assumption|repeat split; assumption].
  Lemma policy_std_sim : ssim -> psim (policy_std o vo jo jid uA) (policy_std o vo jo jid uB) prel.
  Proof.
    intros HS.
    assert (H1 : forall y st fs t k dt r j a b, prel a b ->
      exists e fs' r' j' a' b', pol_bdf1 o vo jo jid uA y st fs t k dt r j a = (e, (fs', r', j', a')) /\
        pol_bdf1 o vo jo jid uB y st fs t k dt r j b = (e, (fs', r', j', b')) /\ prel a' b').
    { intros y st fs t k dt r j [ta wa] [tb wb] [ET HR]. cbn in ET, HR. subst tb. unfold pol_bdf1. cbn [pp_w].
      destruct (HS y t r j wa wb HR) as (e & r' & j' & a' & b' & EA & EB & HR'). rewrite EA, EB.
      destruct e; try fin. destruct st; fin. }
    intros name y st fs t k dt r j a b HR. destruct name; cbn [policy_std]; try fin.
    - apply H1. exact HR.
    - unfold pol_bdf2. destruct (k =? 1); [apply H1; exact HR|].
      destruct a as [ta wa], b as [tb wb], HR as [ET HR]. cbn in ET, HR. subst tb. cbn [pp_w].
      destruct (HS y t r j wa wb HR) as (e & r' & j' & a' & b' & EA & EB & HR'). rewrite EA, EB.
      destruct e; try fin. destruct st as [|y_n [|y_m st]]; fin.
    - unfold pol_cn. destruct st as [|y_n st]; [fin|]. destruct fs as [|f_np1 [|f_n fs]]; try fin.
      destruct a as [ta wa], b as [tb wb], HR as [ET HR]. cbn in ET, HR. subst tb.
      unfold cn_refresh. cbn [pp_w pp_trk]. destruct (negb (ta =? k)).
      + destruct (HS y_n (ssub o t dt) f_n None wa wb HR) as (e & r' & j' & a' & b' & EA & EB & HR'). rewrite EA, EB.
        destruct e; try fin. cbn [pp_w pp_trk].
        destruct (HS y t f_np1 j a' b' HR') as (e & r2 & j2 & a2 & b2 & EA2 & EB2 & HR2). rewrite EA2, EB2.
        destruct e; fin.
      + cbn [pp_w pp_trk]. destruct (HS y t f_np1 j wa wb HR) as (e & r2 & j2 & a2 & b2 & EA2 & EB2 & HR2). rewrite EA2, EB2.
        destruct e; fin.
  Qed.
  Lemma policy_mm_sim : ssim_mm -> psim (policy_mm o vo jo japp uA) (policy_mm o vo jo japp uB) mrel.
  Proof.
    intros HS.
    assert (H1 : forall y st fs t k dt r j a b, mrel a b ->
      exists e fs' r' j' a' b', mpol_bdf1 o vo jo japp uA y st fs t k dt r j a = (e, (fs', r', j', a')) /\
        mpol_bdf1 o vo jo japp uB y st fs t k dt r j b = (e, (fs', r', j', b')) /\ mrel a' b').
    { intros y st fs t k dt r j [ma sa fa ta wa] [mb sb fb tb wb] (EM & ES & EF & ET & HR).
      cbn in EM, ES, EF, ET, HR. subst. unfold mpol_bdf1. cbn [mp_M mp_f mp_w mp_scr].
      destruct (HS y t mb fb j wa wb HR) as (e & m' & r' & j' & a' & b' & EA & EB & HR'). rewrite EA, EB.
      destruct e; try fin. destruct st; fin. }
    intros name y st fs t k dt r j a b HR. destruct name; cbn [policy_mm]; try fin.
    - apply H1. exact HR.
    - unfold mpol_bdf2. destruct (k =? 1); [apply H1; exact HR|].
      destruct a as [ma sa fa ta wa], b as [mb sb fb tb wb], HR as (EM & ES & EF & ET & HR).
      cbn in EM, ES, EF, ET, HR. subst. cbn [mp_M mp_f mp_w mp_scr].
      destruct (HS y t mb fb j wa wb HR) as (e & m' & r' & j' & a' & b' & EA & EB & HR'). rewrite EA, EB.
      destruct e; try fin. destruct st as [|y_n [|y_m st]]; fin.
  Qed.
End SysSim.

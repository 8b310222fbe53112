(** Runs of the implicit steppers: from creation, through failures (C16 - C19,
    C46), and under the advancers (C48). *)
From Coq Require Import ZArith List Bool Lia Field.
From Verif Require Import Base Laws AdvanceModel AdvanceSpec AdvanceProofs TargetProofs Track
  ExplicitModel ImplicitModel ImplicitSpec ImplicitProofs ImplicitRefine ImplicitExtra.
Import ListNotations.
Local Open Scope Z_scope.

(** * Every sequence of events has a history until a step is attempted without a run *)
Section Exists.
  Context {S V R J Ws Q : Type} (o : sops S).
  Variable solver : Ws -> V -> sol V R J Ws.
  Variable problem : list V -> prun S V -> S -> V -> R -> option J -> Q ->
                     outcome unit * (R * option J * Q).
  Definition live (rn : option (prun S V)) : Prop :=
    match rn with Some r => r_hist r <> [] | None => True end.
  Lemma history_exists : forall evs rn tape ws q, live rn ->
    exists pre suf res rn' tape' ws' q', evs = pre ++ suf /\
      history o solver problem rn tape ws q pre res rn' tape' ws' q' /\
      (suf = [] \/ rn' = None /\ exists dt suf', suf = Attempt dt :: suf').
  Proof.
    induction evs as [|e evs IH]; intros rn tape ws q L.
    - exists [], [], []. do 4 eexists. split; [reflexivity|]. split; [apply HNil|]. left. reflexivity.
    - destruct e as [t0 y0|dt].
      + destruct (IH (Some (mk_prun t0 [y0])) tape ws q) as (pre & suf & res & rn' & tape' & ws' & q' & E & H & C);
          [discriminate|].
        exists (Start t0 y0 :: pre), suf, ((Ok tt, y0) :: res), rn', tape', ws', q'.
        split; [cbn; rewrite E; reflexivity|]. split; [apply HStart; exact H|exact C].
      + destruct rn as [[t [|y hist]]|].
        * elim L. reflexivity.
        * destruct (run_solver (problem (y :: tape) (mk_prun t (y :: hist)) dt) (solver ws y) y ws q)
            as [r [[y1 ws1] q1]] eqn:ER.
          assert (D : r = Ok tt \/ r = Throw ENonlinearSolve \/ (r <> Ok tt /\ r <> Throw ENonlinearSolve)).
          { destruct r as [[]|x|x|]; [left; reflexivity| | |]; right;
              [destruct x; try (left; reflexivity)| |]; right; split; discriminate. }
          destruct D as [->|[->|[D1 D2]]].
          -- destruct (IH (Some (mk_prun (sadd o t dt) (y1 :: y :: hist))) (y :: tape) ws1 q1)
               as (pre & suf & res & rn' & tape' & ws' & q' & E & H & C); [discriminate|].
             exists (Attempt dt :: pre), suf, ((Ok tt, y1) :: res), rn', tape', ws', q'.
             split; [cbn; rewrite E; reflexivity|]. split; [eapply HAccept; eassumption|exact C].
          -- destruct (IH (Some (mk_prun t (y :: hist))) tape ws1 q1)
               as (pre & suf & res & rn' & tape' & ws' & q' & E & H & C); [discriminate|].
             exists (Attempt dt :: pre), suf, ((Throw ETimeStep, y) :: res), rn', tape', ws', q'.
             split; [cbn; rewrite E; reflexivity|]. split; [eapply HReject; eassumption|exact C].
          -- destruct (IH None (y :: tape) ws1 q1)
               as (pre & suf & res & rn' & tape' & ws' & q' & E & H & C); [exact I|].
             exists (Attempt dt :: pre), suf, ((r, y1) :: res), rn', tape', ws', q'.
             split; [cbn; rewrite E; reflexivity|]. split; [eapply HAbort; eassumption|exact C].
        * exists [], (Attempt dt :: evs), []. do 4 eexists. split; [reflexivity|]. split; [apply HNil|].
          right. split; [reflexivity|]. eauto.
  Qed.
End Exists.

(** * From creation *)
Section Created.
  Context {S V J W Ws : Type} (o : sops S) (vo : vops S V) (jo : vops S J).
  Variable jid : J.
  Variable japp : J -> V -> V.
  Variable u : isys (S:=S) (V:=V) (J:=J) (W:=W).
  Variable solver : Ws -> V -> sol V V J Ws.
  Hypotheses (HF : sfield o) (HC : schar0 o) (HV : vspace o vo) (HJ : vspace o jo).
  Add Field SFrun : (sfield_th o HF).

  Lemma bdf1_history cs cr p y0 ws g : implicit_create o BDF1 cs cr p y0 ws = Ok g ->
    forall evs res rn' tape' ws' w',
    history o solver (problem_bdf1 o vo jo jid u) None [] ws (pp_w p) evs res rn' tape' ws' w' ->
    forall t k, exists g',
      perform o (implicit_step o (policy_std o vo jo jid u) solver BDF1) put_ode t_y evs t k g
        = (res, g') /\ t_ws g' = ws' /\ pp_w (t_p g') = w'.
  Proof.
    intros E evs res rn' tape' ws' w' H t k. injection E as E'.
    edestruct (refine o solver (problem_bdf1 o vo jo jid u)
      (implicit_step o (policy_std o vo jo jid u) solver BDF1) put_ode t_y inv1 True) with (t := t) (k := k) (g := g)
      as (g' & EP & (I1 & I2 & _)).
    - intros _ rn tape g0 ws0 q t0 y1 (Ha & Hb & Hc & Hd). repeat split; try assumption. cbn. eauto.
    - apply bdf1_refines; assumption.
    - exact H.
    - left. exact I.
    - exact I.
    - rewrite <- E'. repeat split. eexists _, _. reflexivity.
    - exists g'. split; [exact EP|]. auto.
  Qed.

  Lemma bdf2_history cs cr p y0 ws g : implicit_create o BDF2 cs cr p y0 ws = Ok g ->
    forall evs res rn' tape' ws' w',
    history o solver (problem_bdf2 o vo jo jid u) None [] ws (pp_w p) evs res rn' tape' ws' w' ->
    forall t k, exists g',
      perform o (implicit_step o (policy_std o vo jo jid u) solver BDF2) put_ode t_y evs t k g
        = (res, g') /\ t_ws g' = ws' /\ pp_w (t_p g') = w'.
  Proof.
    intros E evs res rn' tape' ws' w' H t k. injection E as E'.
    edestruct (refine o solver (problem_bdf2 o vo jo jid u)
      (implicit_step o (policy_std o vo jo jid u) solver BDF2) put_ode t_y inv2 True) with (t := t) (k := k) (g := g)
      as (g' & EP & (I1 & I2 & _)).
    - intros _ rn tape g0 ws0 q t0 y1 (Ha & Hb & (a & b & st & Hc & _) & Hd).
      split; [exact Ha|]. split; [exact Hb|]. split; [exists a, b, st; split; [exact Hc|exact I]|].
      cbn. eauto.
    - apply bdf2_refines; assumption.
    - exact H.
    - left. exact I.
    - exact I.
    - rewrite <- E'. split; [reflexivity|]. split; [reflexivity|]. split; [|exact I].
      eexists _, _, _. split; [reflexivity|exact I].
    - exists g'. split; [exact EP|]. auto.
  Qed.

  Lemma bdf1_mm_history cs cr p y0 ws g : implicit_create o BDF1 cs cr p y0 ws = Ok g ->
    forall evs res rn' tape' ws' q',
    history o solver (problem_bdf1_mm o vo jo japp u) None [] ws (mp_M p, mp_f p, mp_w p)
            evs res rn' tape' ws' q' ->
    forall t k, exists g',
      perform o (implicit_step o (policy_mm o vo jo japp u) solver BDF1) put_ode t_y evs t k g
        = (res, g') /\ t_ws g' = ws' /\ (mp_M (t_p g'), mp_f (t_p g'), mp_w (t_p g')) = q'.
  Proof.
    intros E evs res rn' tape' ws' q' H t k. injection E as E'.
    edestruct (refine o solver (problem_bdf1_mm o vo jo japp u)
      (implicit_step o (policy_mm o vo jo japp u) solver BDF1) put_ode t_y inv1m True) with (t := t) (k := k) (g := g)
      as (g' & EP & (I1 & I2 & _)).
    - intros _ rn tape g0 ws0 q t0 y1 (Ha & Hb & Hc & Hd). repeat split; try assumption. cbn. eauto.
    - apply bdf1_mm_refines; assumption.
    - exact H.
    - left. exact I.
    - exact I.
    - rewrite <- E'. repeat split. eexists _, _. reflexivity.
    - exists g'. split; [exact EP|]. auto.
  Qed.

  Lemma bdf2_mm_history cs cr p y0 ws g : implicit_create o BDF2 cs cr p y0 ws = Ok g ->
    forall evs res rn' tape' ws' q',
    history o solver (problem_bdf2_mm o vo jo japp u) None [] ws (mp_M p, mp_f p, mp_w p)
            evs res rn' tape' ws' q' ->
    forall t k, exists g',
      perform o (implicit_step o (policy_mm o vo jo japp u) solver BDF2) put_ode t_y evs t k g
        = (res, g') /\ t_ws g' = ws' /\ (mp_M (t_p g'), mp_f (t_p g'), mp_w (t_p g')) = q'.
  Proof.
    intros E evs res rn' tape' ws' q' H t k. injection E as E'.
    edestruct (refine o solver (problem_bdf2_mm o vo jo japp u)
      (implicit_step o (policy_mm o vo jo japp u) solver BDF2) put_ode t_y inv2m True) with (t := t) (k := k) (g := g)
      as (g' & EP & (I1 & I2 & _)).
    - intros _ rn tape g0 ws0 q t0 y1 (Ha & Hb & (a & b & st & Hc & _) & Hd).
      split; [exact Ha|]. split; [exact Hb|]. split; [exists a, b, st; split; [exact Hc|exact I]|].
      cbn. eauto.
    - apply bdf2_mm_refines; assumption.
    - exact H.
    - left. exact I.
    - exact I.
    - rewrite <- E'. split; [reflexivity|]. split; [reflexivity|]. split; [|exact I].
      eexists _, _, _. split; [reflexivity|exact I].
    - exists g'. split; [exact EP|]. auto.
  Qed.

  (** The tracker of a new policy object is -1. *)
  Lemma cn_history Q (view : W -> Q) F fj cs cr w y0 ws g : pure_but u view F fj ->
    implicit_create o CrankNicolson cs cr (mk_ppol (-1) w) y0 ws = Ok g ->
    forall t0 y1 evs res rn' tape' ws' w',
    history o solver (problem_cn o vo jo jid F fj) None [] ws (view w)
            (Start t0 y1 :: evs) res rn' tape' ws' w' ->
    Forall (fun e => is_start e = false) evs ->
    forall t k, exists g',
      perform o (implicit_step o (policy_std o vo jo jid u) solver CrankNicolson) put_ode t_y
              (Start t0 y1 :: evs) t k g
        = (res, g') /\ t_ws g' = ws' /\ view (pp_w (t_p g')) = w'.
  Proof.
    intros HP E t0 y1 evs res rn' tape' ws' w' H HS t k. injection E as <-.
    inversion H as [|rn1 tape1 ws1 q1 t1 y2 evs1 res1 rn2 tape2 ws2 q2 H1| | |]; subst.
    edestruct (refine o solver (problem_cn o vo jo jid F fj)
      (implicit_step o (policy_std o vo jo jid u) solver CrankNicolson) put_ode t_y (invcn F view) False) with (t := t0) (k := 1)
        (g := put_ode y1 (@mk_sst S V V (@ppol W) Ws y0 [cs] [cr; cr] (s0 o) (s0 o) 0 (mk_ppol (-1) w) ws))
      as (g' & EP & (I1 & I2 & _)).
    - intros [].
    - apply cn_refines; assumption.
    - exact H1.
    - right. exact HS.
    - split; reflexivity.
    - split; [reflexivity|]. split; [reflexivity|]. split; [eexists _, _; reflexivity|].
      split; [cbn; eexists; reflexivity|]. cbn [t_p pp_trk r_hist length r_t t_fs].
      split; [cbn; lia|]. eexists _, _, _. split; [reflexivity|]. cbn. lia.
    - exists g'. split; [|auto]. cbn [perform]. cbn [repeat]. rewrite EP. reflexivity.
  Qed.
End Created.

Section CreatedArb.
  Context {S V R J W Ws Sys : Type} (o : sops S).
  Variable du : Z -> S -> S -> R -> option J -> V -> list V -> W -> outcome unit * (R * option J * W).
  Variable solver : Ws -> V -> sol V R J Ws.
  Lemma arb_history n tape rc y0 tm d sp w ws : (n = 1 \/ n = 2 \/ n = 3)%nat -> length tape = n ->
    forall evs res rn' tape' ws' w',
    history o solver (problem_arb o du n) None tape ws w evs res rn' tape' ws' w' ->
    forall t k, exists g',
      perform o (arb_step o du solver n) put_arb a_y evs t k (mk_ast y0 tape rc tm d sp w ws)
        = (res, g') /\ a_ws g' = ws' /\ a_w g' = w'.
  Proof.
    intros Hn Hl evs res rn' tape' ws' w' H t k.
    edestruct (refine o solver (problem_arb o du n) (arb_step o du solver n) put_arb a_y (inva n) True)
        with (t := t) (k := k) (g := mk_ast y0 tape rc tm d sp w ws)
      as (g' & EP & (I1 & I2 & _)).
    - intros _ rn tape1 g ws0 q t0 y1 (Ha & Hb & Hc & Hd & He). repeat split; try assumption. cbn. eauto.
    - apply arb_refines; assumption.
    - exact H.
    - left. exact I.
    - exact I.
    - split; [reflexivity|]. split; [reflexivity|]. split; [|split; [|exact I]].
      + cbn [a_st]. symmetry. rewrite <- Hl. apply firstn_all.
      + rewrite Hl. apply le_n.
    - exists g'. split; [exact EP|]. auto.
  Qed.
End CreatedArb.

(** Runs of steppers whose solver always finds what is wanted. *)
From Coq Require Import Reals ZArith List Bool Lia.
From Verif Require Import Base RInst AdvanceModel AdvanceSpec AdvanceProofs TargetProofs Track ImplicitModel ImplicitSpec ImplicitProofs RomRunSpec RomRunProofs CompleteRun.
Import ListNotations.
Local Open Scope R_scope.

Section Exact.
  Context {S V Rs J Ws Q G U : Type} (o : sops S).
  Variable solver : Ws -> V -> sol V Rs J Ws.
  Variable problem : list V -> ImplicitSpec.prun S V -> S -> V -> Rs -> option J -> Q -> outcome unit * (Rs * option J * Q).
  Variable step : S -> Z -> S -> cmd G unit.
  Variable put : V -> G -> G.
  Variable get : G -> V.
  Variable Inv : option (ImplicitSpec.prun S V) -> list V -> G -> Ws -> Q -> Prop.
  Hypothesis put_get : forall g, put (get g) g = g.
  Hypothesis H_step : step_refines o solver problem step get Inv.
  Variable WI : Ws -> Prop.
  Variable P : list V -> S -> S -> V -> Prop.
  Hypothesis HX : forall tape t y hist dt ws q, WI ws ->
    exists y1 ws1 q1, run_solver (problem (y :: tape) (mk_prun t (y :: hist)) dt) (solver ws y) y ws q = (Ok tt, (y1, ws1, q1)) /\
      WI ws1 /\ P (y :: hist) t dt y1.
  Variables (start : S) (y0 : V).
  Notation sf := (fun y t k dt g => let '(r, g') := step t k dt (put y g) in (r, (get g', g'))).
  Definition erel (l : accepted S V) (g : G) : Prop :=
    match l with
    | (t, d, y) :: l' => (exists tape ws q, Inv (Some (mk_prun t (map snd l))) tape (put y g) ws q /\ WI ws) /\
                         linked_from (sadd o) P start y0 l
    | [] => False
    end.
  Lemma erel_step t d y l g dt : erel ((t, d, y) :: l) g ->
    exists y' g', sf y t (Z.of_nat (length ((t, d, y) :: l))) dt g = (Ok tt, (y', g')) /\
      erel ((sadd o t dt, dt, y') :: (t, d, y) :: l) g'.
  Proof.
    intros ((tape & ws & q & HI & HW) & HL). cbn [map snd] in HI.
    destruct (H_step t y (map snd l) tape (put y g) ws q dt HI) as (r & y1 & ws1 & q1 & g2 & E1 & E2 & E3).
    destruct (HX tape t y (map snd l) dt ws q HW) as (y2 & ws2 & q2 & E4 & H4 & H5).
    rewrite E1 in E4. injection E4 as -> -> -> ->. destruct E3 as [Hg HI1].
    exists y2, g2. cbv beta. replace (length ((t, d, y) :: l)) with (length (y :: map snd l)) by (cbn [length]; rewrite map_length; reflexivity).
    rewrite E2, Hg. split; [reflexivity|]. split.
    - exists (y :: tape), ws2, q2. cbn [map snd]. rewrite <- Hg, put_get, Hg. split; assumption.
    - destruct HL as [HL (d0 & l0 & Hs)]. split.
      + split; [reflexivity|]. split; [|exact HL]. cbn [map snd]. exact H5.
      + exists d0, ((sadd o t dt, dt, y2) :: l0). cbn [app]. rewrite Hs. reflexivity.
  Qed.
  Variable obs : Z -> S -> V -> U -> outcome unit * U.
  Variable g0 : G.
  Hypothesis HI0 : exists tape ws q, Inv (Some (mk_prun start [y0])) tape (put y0 g0) ws q /\ WI ws.
  Lemma erel_start : erel [(start, start, y0)] g0.
  Proof. split; [exact HI0|]. split; [exact I|]. exists start, []. reflexivity. Qed.
  Lemma exact_n_steps pol num w : (Z.of_nat num < int32_max)%Z ->
    (forall k t y u, fst (obs k t y u) = Ok tt) -> (forall k t d u, exists dt, fst (pol k t d u) = Ok dt) ->
    exists y' g' w' tr t' d' l,
      advance_n_steps o (mk_user (split_obs obs) (pol3 (split_pol pol)) noop_guess (split_step sf))
        (Z.of_nat num) start (y0, (g0, w), []) = (Ok tt, (y', (g', w'), tr)) /\
      length l = num /\ linked_from (sadd o) P start y0 ((t', d', y') :: l) /\ reports tr = numbered ((t', d', y') :: l).
  Proof.
    intros Hn Ho Hp.
    destruct (complete_n_steps o sf obs erel erel_step pol Ho Hp num start y0 g0 w start Hn erel_start)
      as (y' & g' & w' & tr & t' & d' & l & E & Hl & [_ HL] & HR).
    exists y', g', w', tr, t', d', l. auto.
  Qed.
  Lemma exact_target pol recovery fuel final w y' g' w' tr :
    to_target o (mk_user (split_obs obs) (split_pol pol) noop_guess (split_step sf)) recovery fuel
      start final (y0, (g0, w), []) = (Ok tt, (y', (g', w'), tr)) ->
    seqb o final start = false ->
    exists t' d' l, linked_from (sadd o) P start y0 ((t', d', y') :: l) /\ reports tr = numbered ((t', d', y') :: l).
  Proof.
    intros E Hne.
    destruct (target_track o sf obs erel (complete_ok o sf erel erel_step) (complete_fail o sf erel erel_step) pol recovery fuel start final
                _ _ _ _ _ _ _ E Hne start erel_start) as (t' & d' & l & [_ HL] & HR). eauto.
  Qed.
End Exact.

Section ExactReal.
  Context {V Rs J Ws Q G U : Type} (eps : R).
  Notation o := (Rops eps).
  Variable solver : Ws -> V -> sol V Rs J Ws.
  Variable problem : list V -> ImplicitSpec.prun R V -> R -> V -> Rs -> option J -> Q -> outcome unit * (Rs * option J * Q).
  Variable step : R -> Z -> R -> cmd G unit.
  Variable put : V -> G -> G.
  Variable get : G -> V.
  Variable Inv : option (ImplicitSpec.prun R V) -> list V -> G -> Ws -> Q -> Prop.
  Hypothesis put_get : forall g, put (get g) g = g.
  Hypothesis H_step : step_refines o solver problem step get Inv.
  Variable WI : Ws -> Prop.
  Variable P : list V -> R -> R -> V -> Prop.
  Hypothesis HX : forall tape t y hist dt ws q, WI ws ->
    exists y1 ws1 q1, run_solver (problem (y :: tape) (mk_prun t (y :: hist)) dt) (solver ws y) y ws q = (Ok tt, (y1, ws1, q1)) /\
      WI ws1 /\ P (y :: hist) t dt y1.
  Notation sf := (fun y t k dt g => let '(r, g') := step t k dt (put y g) in (r, (get g', g'))).
  Lemma exact_target_ends (obs : Z -> R -> V -> U -> outcome unit * U) g0 pol recovery h n fuel start final y0 w :
    (exists tape ws q, Inv (Some (mk_prun start [y0])) tape (put y0 g0) ws q /\ WI ws) ->
    0 <= eps -> (forall k t y u, fst (obs k t y u) = Ok tt) ->
    (forall k t x u, exists dt m c, fst (pol k t x u) = Ok (dt, m, c) /\ h <= dt /\ m <= dt /\ (recovery = true -> 1 < c)) ->
    start < final -> final - start <= INR n * h -> (n < fuel)%nat -> (Z.of_nat n < int32_max)%Z ->
    exists y' g' w' tr t' d' l,
      to_target o (mk_user (split_obs obs) (split_pol pol) noop_guess (split_step sf)) recovery fuel
        start final (y0, (g0, w), []) = (Ok tt, (y', (g', w'), tr)) /\
      linked_from Rplus P start y0 ((t', d', y') :: l) /\ reports tr = numbered ((t', d', y') :: l).
  Proof.
    intros HI0 He Ho Hp Hlt Hn Hf Hm.
    destruct (target_ends eps sf obs (erel o put Inv WI P start y0)
                (erel_step o solver problem step put get Inv put_get H_step WI P HX start y0) pol recovery h He Ho Hp
                n fuel start final y0 g0 w start Hlt Hn Hf Hm (erel_start o put Inv WI P start y0 g0 HI0)) as (y' & g' & w' & tr & E).
    destruct (exact_target o solver problem step put get Inv put_get H_step WI P HX start y0 obs g0 HI0 pol recovery fuel final w y' g' w' tr E)
      as (t' & d' & l & HL & HR).
    - cbn. apply Reqb_false. intros ->. exact (Rlt_irrefl _ Hlt).
    - exists y', g', w', tr, t', d', l. auto.
  Qed.
End ExactReal.

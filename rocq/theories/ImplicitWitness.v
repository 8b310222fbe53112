(** Counterexamples for the implicit steppers (C18, C19, C20, C46, C47), computed
    over the rationals, and exactness for y' = c (C47). *)
From Coq Require Import ZArith List Bool Lia QArith Qcanon Field.
From Verif Require Import Base QcInst Laws LawInst AdvanceModel AdvanceSpec ExplicitModel ExplicitExtra
  ImplicitModel ImplicitSpec ImplicitProofs ImplicitRefine ImplicitExtra.
Import ListNotations.
Local Open Scope Z_scope.

(** A careful solver: one Newton correction, then a check that the residual is 0. *)
Definition give_up {V R J Ws} (e : outcome unit) (y : V) (ws : Ws) : sol V R J Ws :=
  SEnd (match e with Throw EResidualEvaluation => Throw ENonlinearSolve | Throw x => Throw x
        | _ => Throw ENonlinearSolve end) y ws.
Definition newton1 (ws : unit) (y : Qc) : sol Qc Qc Qc unit :=
  SCall y (q 0) (Some (q 0)) (fun e r j =>
    match e, j with
    | Ok _, Some a =>
        let y' := (y - r / a)%Qc in
        SCall y' r None (fun e' r' _ =>
          match e' with
          | Ok _ => if Qc_eq_dec r' 0 then SEnd (Ok tt) y' ws else SEnd (Throw ENonlinearSolve) y' ws
          | _ => give_up e' y' ws
          end)
    | _, _ => give_up e y ws
    end).
Lemma newton1_certified ws y : certified (fun r => r = q 0) (fun _ => False) (newton1 ws y).
Proof.
  cbn. intros e r j. destruct e as [x|x|x|]; [|destruct x; exact I|exact I|exact I].
  destruct j as [a|]; [|exact I]. cbn. intros e' r' j'.
  destruct e' as [x'|x'|x'|]; [|destruct x'; exact I|exact I|exact I].
  destruct (Qc_eq_dec r' 0) as [E|E]; [|exact I]. left. split; [reflexivity|exact E].
Qed.
Lemma newton1_forwards ws y : forwards (newton1 ws y).
Proof.
  cbn. intros e r j. destruct e as [x|x|x|]; [|destruct x; cbv [give_up]; eauto|exact I|exact I].
  destruct j as [a|]; [|exact I]. cbn. intros e' r' j'.
  destruct e' as [x'|x'|x'|]; [|destruct x'; cbv [give_up]; eauto|exact I|exact I].
  destruct (Qc_eq_dec r' 0); exact I.
Qed.

(** y' = f(y), with derivative [a]; call number [n] fails with [bad n], if any. The
    world counts the calls and remembers velocity failures. *)
Definition wuser (f : Qc -> Qc) (a : Qc) (bad : nat -> option exn)
  : isys (S:=Qc) (V:=Qc) (J:=Qc) (W:=(nat * bool)) :=
  mk_isys (fun y t R Jo w =>
             match bad (fst w) with
             | Some e => (Throw e, (R, Jo, (Datatypes.S (fst w),
                                            match e with EVelocity => true | _ => snd w end)))
             | None => (Ok tt, (f y, Some a, (Datatypes.S (fst w), snd w)))
             end)
          (fun y t M R Jo w => (Ok tt, (M, R, Jo, w))).
(** ... that never fails and does not touch the world. *)
Definition puser (f : Qc -> Qc) (a : Qc) : isys (S:=Qc) (V:=Qc) (J:=Qc) (W:=(nat * bool)) :=
  mk_isys (fun y t R Jo w => (Ok tt, (f y, Some a, w)))
          (fun y t M R Jo w => (Ok tt, (M, R, Jo, w))).
Definition wstep (u : isys (S:=Qc) (V:=Qc) (J:=Qc) (W:=(nat * bool))) (name : scheme) :=
  implicit_step QcS (policy_std QcS QcV QcV (q 1) u) newton1 name.
Definition wsst (name : scheme) (y : Qc) (trk : Z)
  : outcome (@sst Qc Qc Qc (@ppol (nat * bool)) unit) :=
  implicit_create QcS name (q 0) (q 0) (mk_ppol trk (0%nat, false)) y tt.

Definition at_call (k : nat) (e : exn) (n : nat) : option exn := if Nat.eqb n k then Some e else None.
Definition half : Qc := Q2Qc (1 # 2).

(** C18: an exception other than NonlinearSolveFailure leaves the solver's iterate. *)
Definition w18 := wuser (fun y => y) (q 1) (at_call 1 (EUser 7)).
Definition w18_start : @sst Qc Qc Qc (@ppol (nat * bool)) unit :=
  mk_sst (q 1) [q 0] [] (q 0) (q 0) 0 (mk_ppol (-1) (0%nat, false)) tt.
Lemma other_exception_keeps_iterate :
  wsst BDF1 (q 1) (-1) = Ok w18_start /\
  exists g1, wstep w18 BDF1 (q 0) 1 half w18_start = (Throw (EUser 7), g1) /\ t_y g1 <> t_y w18_start.
Proof.
  split; [reflexivity|]. eexists. split; [apply surjective_pairing|].
  intros E. apply (f_equal this) in E. revert E. vm_compute. discriminate.
Qed.

(** ... and BDF2 then has lost y_n-1, even if the caller restores the state. *)
Definition w18b := wuser (fun y => y) (q 1) (at_call 3 (EUser 7)).
Definition w18b_start : @sst Qc Qc Qc (@ppol (nat * bool)) unit :=
  mk_sst (q 1) [q 0; q 0] [] (q 0) (q 0) 0 (mk_ppol (-1) (0%nat, false)) tt.
Definition w18b_1 := snd (wstep w18b BDF2 (q 0) 1 half w18b_start).
Definition w18b_2 := snd (wstep w18b BDF2 half 2 half w18b_1).
Definition w18b_redo := wstep w18b BDF2 half 2 half (put_ode (t_y w18b_1) w18b_2).
Lemma other_exception_loses_history :
  wsst BDF2 (q 1) (-1) = Ok w18b_start /\
  fst (wstep w18b BDF2 (q 0) 1 half w18b_start) = Ok tt /\
  fst (wstep w18b BDF2 half 2 half w18b_1) = Throw (EUser 7) /\
  fst w18b_redo = Ok tt /\
  ~ bdf2_eq QcS QcV (fun y => y) (t_y w18b_1) (q 1) half (t_y (snd w18b_redo)).
Proof.
  split; [reflexivity|]. split; [vm_compute; reflexivity|]. split; [vm_compute; reflexivity|].
  split; [vm_compute; reflexivity|].
  intros E. apply (f_equal this) in E. revert E. vm_compute. discriminate.
Qed.

(** C19: f_n of the first run is used in the second. *)
Definition w19 := puser (fun y => y) (q 1).
Definition w19_start : @sst Qc Qc Qc (@ppol (nat * bool)) unit :=
  mk_sst (q 9) [q 0] [q 0; q 0] (q 0) (q 0) 0 (mk_ppol (-1) (0%nat, false)) tt.
Definition w19_events : list (event Qc Qc) :=
  [Start (q 0) (q 1); Attempt (q 1); Start (q 0) (q 2); Attempt (q 1)].
Definition w19_res := fst (perform QcS (wstep w19 CrankNicolson) put_ode t_y w19_events (q 0) 0 w19_start).
Lemma cn_second_run :
  wsst CrankNicolson (q 9) (-1) = Ok w19_start /\
  exists y1 y2, w19_res = [(Ok tt, q 1); (Ok tt, y1); (Ok tt, q 2); (Ok tt, y2)] /\
  cn_eq QcS QcV (q 1) (fun y => y) (q 1) (q 1) y1 /\
  ~ cn_eq QcS QcV (q 2) (fun y => y) (q 2) (q 1) y2.
Proof.
  split; [reflexivity|].
  exists (match w19_res with [_; (_, y1); _; _] => y1 | _ => q 0 end),
         (match w19_res with [_; _; _; (_, y2)] => y2 | _ => q 0 end).
  split; [vm_compute; reflexivity|]. split.
  - apply Qc_is_canon. vm_compute. reflexivity.
  - intros E. apply (f_equal this) in E. revert E. vm_compute. discriminate.
Qed.
Lemma puser_pure f a : pure_system (puser f a) (fun y t => Ok (f y, a)) (fun _ _ j => j).
Proof. intros y t R Jo w. eexists _, _. split; [reflexivity|split; [reflexivity|intros _; reflexivity]]. Qed.

(** C20: y' = 0 with a guesser that adds 1 to the state. *)
Definition w20 := puser (fun _ => q 0) (q 0).
Definition w20_run :=
  advance_n_steps QcS
    (mk_user noop_obs (pol3 (fun _ _ _ w => (Ok (q 1), w)))
             (fun _ _ y w => (Ok tt, ((y + q 1)%Qc, w)))
             (implicit_fn (wstep w20 BDF1)))
    1 (q 0) (q 1, w18_start, []).
Lemma guess_becomes_previous_state :
  fst w20_run = Ok tt /\
  ~ bdf1_eq QcV (fun _ => q 0) (q 1) (q 1) (fst (fst (snd w20_run))).
Proof.
  split; [vm_compute; reflexivity|].
  intros E. apply (f_equal this) in E. revert E. vm_compute. discriminate.
Qed.

(** C46: Crank-Nicolson lets a velocity failure through. *)
Definition w46 := wuser (fun y => y) (q 1) (at_call 2 EVelocity).
Lemma cn_velocity_failure :
  exists g1, wstep w46 CrankNicolson (q 0) 1 half w19_start = (Throw EVelocity, g1) /\
  snd (pp_w (t_p w19_start)) = false /\ snd (pp_w (t_p g1)) = true /\
  t_y g1 <> t_y w19_start.
Proof.
  eexists. split; [apply surjective_pairing|]. split; [reflexivity|]. split; [vm_compute; reflexivity|].
  intros E. apply (f_equal this) in E. revert E. vm_compute. discriminate.
Qed.
Lemma wuser_hit f a bad y t R Jo w r f' j' w' : is_eval (wuser f a bad) y t R Jo w = (r, (f', j', w')) ->
  snd w' = match r with Throw EVelocity => true | _ => snd w end.
Proof.
  cbn. destruct (bad (fst w)) as [e|].
  - intros E. injection E as <- _ _ <-. cbn. destruct e; reflexivity.
  - intros E. injection E as <- _ _ <-. reflexivity.
Qed.

(** C47: BDF2 with sizes 1 and then 1/2 on y' = 1 from 0. *)
Definition w47 := puser (fun _ => q 1) (q 0).
Definition w47_res := fst (perform QcS (wstep w47 BDF2) put_ode t_y
  [Start (q 0) (q 0); Attempt (q 1); Attempt half] (q 0) 0 w18b_start).
Lemma bdf2_not_exact :
  exists y1 y2, w47_res = [(Ok tt, q 0); (Ok tt, y1); (Ok tt, y2)] /\
  y1 = q 1 /\ y2 <> (q 1 + half)%Qc.
Proof.
  exists (match w47_res with [_; (_, y1); _] => y1 | _ => q 0 end),
         (match w47_res with [_; _; (_, y2)] => y2 | _ => q 0 end).
  split; [vm_compute; reflexivity|]. split.
  - apply Qc_is_canon. vm_compute. reflexivity.
  - intros E. apply (f_equal this) in E. revert E. vm_compute. discriminate.
Qed.

(** ** y' = c is integrated exactly *)
Section Constant.
  Context {S V : Type} (o : sops S) (vo : vops S V).
  Hypotheses (HF : sfield o) (HC : schar0 o) (HV : vspace o vo).
  Add Field SFcst : (sfield_th o HF).
  Variable c : V.
  Notation line t0 y0 := (fun e : S * S * V =>
    snd e = vadd vo y0 (vscale vo (ssub o (fst (fst e)) t0) c)).
  Ltac vec := vreduce o vo HF HV; cbv [frac s_of_pos neg1]; field; nz o HF HC.

  Lemma line_start t0 y0 d : line t0 y0 (t0, d, y0).
  Proof. cbn [fst snd]. vec. Qed.
  Lemma line_step t0 y0 t d y t' d' y' : line t0 y0 (t, d, y) -> t' = sadd o t d' ->
    y' = vadd vo y (vscale vo d' c) -> line t0 y0 (t', d', y').
  Proof. cbn [fst snd]. intros -> -> ->. vec. Qed.

  Lemma line_linked (P : list V -> S -> S -> V -> Prop)
    (HP : forall y past t dt y', P (y :: past) t dt y' -> y' = vadd vo y (vscale vo dt c)) :
    forall l t0 d0 y0, linked (sadd o) P (l ++ [(t0, d0, y0)]) -> Forall (line t0 y0) (l ++ [(t0, d0, y0)]).
  Proof.
    induction l as [|[[t d] y] l IH]; intros t0 d0 y0 HL.
    - constructor; [apply line_start|constructor].
    - destruct l as [|[[t1 d1] y1] l].
      + cbn [app] in *. destruct HL as (Ht & Hp & _). constructor; [|constructor; [apply line_start|constructor]].
        eapply line_step; [apply (line_start t0 y0 d0)|exact Ht|]. cbn in Hp. eapply HP. exact Hp.
      + cbn [app] in HL. destruct HL as (Ht & Hp & HL). specialize (IH t0 d0 y0 HL).
        cbn [app] in IH |- *. constructor; [|exact IH]. inversion IH as [|? ? H1 H2]; subst.
        eapply line_step; [exact H1|reflexivity|]. cbn in Hp. eapply HP. exact Hp.
  Qed.

  Lemma bdf1_line y past t dt y' :
    accepted_bdf1 o vo (fun r => r = vzero vo) (fun _ _ => c) (y :: past) t dt y' ->
    y' = vadd vo y (vscale vo dt c).
  Proof. cbn. intros H. apply (root_bdf1 o vo HF HV (fun _ => c)) in H. exact H. Qed.
  Lemma cn_line y past t dt y' :
    accepted_cn o vo (fun r => r = vzero vo) (fun _ _ => c) (y :: past) t dt y' ->
    y' = vadd vo y (vscale vo dt c).
  Proof.
    cbn. intros H. apply (root_cn o vo HF HV (fun _ => c)) in H. cbv [cn_eq] in H. rewrite H. vec.
  Qed.
  Lemma bdf2_move y y_n y_nm1 h :
    bdf2_eq o vo (fun _ => c) y_n y_nm1 h y ->
    y = vadd vo (vadd vo (vscale vo (frac o 4 3) y_n) (vscale vo (smul o (frac o 2 3) h) c))
             (vscale vo (sopp o (frac o 1 3)) y_nm1).
  Proof.
    cbv [bdf2_eq]. intros H. rewrite <- H. vec.
  Qed.
  (** BDF2 with a constant step size. *)
  Lemma bdf2_uniform h : forall l t0 d0 y0,
    linked (sadd o) (accepted_bdf2 o vo (fun r => r = vzero vo) (fun _ _ => c)) (l ++ [(t0, d0, y0)]) ->
    Forall (fun e => snd (fst e) = h) l -> Forall (line t0 y0) (l ++ [(t0, d0, y0)]).
  Proof.
    induction l as [|[[t d] y] l IH]; intros t0 d0 y0 HL HU.
    - constructor; [apply line_start|constructor].
    - pose proof (Forall_inv HU) as Hd. pose proof (Forall_inv_tail HU) as HU'. cbn [fst snd] in Hd.
      destruct l as [|[[t1 d1] y1] l].
      + cbn [app] in *. destruct HL as (Ht & Hp & _). constructor; [|constructor; [apply line_start|constructor]].
        eapply line_step; [apply (line_start t0 y0 d0)|exact Ht|]. cbn in Hp.
        apply (root_bdf1 o vo HF HV (fun _ => c)) in Hp. exact Hp.
      + cbn [app] in HL. destruct HL as (Ht & Hp & HL). specialize (IH t0 d0 y0 HL HU').
        cbn [app] in IH |- *. constructor; [|exact IH].
        pose proof (Forall_inv IH) as H1. pose proof (Forall_inv_tail IH) as H2. pose proof (Forall_inv HU') as Hd1. cbn [fst snd] in Hd1.
        destruct l as [|[[t2 d2] y2] l]; cbn [app] in *.
        * pose proof (Forall_inv H2) as H3. destruct HL as (Ht1 & _ & _). cbn [map snd accepted_bdf2] in Hp.
          apply (root_bdf2 o vo HF HC HV (fun _ => c)) in Hp. apply bdf2_move in Hp.
          cbn [fst snd] in *. rewrite Hp, H1, Ht, Ht1, Hd, Hd1. vec.
        * pose proof (Forall_inv H2) as H3. destruct HL as (Ht1 & _ & _). cbn [map snd accepted_bdf2] in Hp.
          apply (root_bdf2 o vo HF HC HV (fun _ => c)) in Hp. apply bdf2_move in Hp.
          cbn [fst snd] in *. rewrite Hp, H1, H3, Ht, Ht1, Hd, Hd1. vec.
  Qed.
End Constant.

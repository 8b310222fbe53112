(** Each scheme of the implicit steppers refines the machine (C16, C19). *)
From Coq Require Import ZArith List Bool Lia Field.
From Verif Require Import Base Laws ExplicitModel ImplicitModel ImplicitSpec ImplicitProofs.
Import ListNotations.
Local Open Scope Z_scope.

Lemma length_pos {A} (y : A) l : Z.of_nat (length (y :: l)) = Z.of_nat (length l) + 1.
Proof. cbn [length]. lia. Qed.

(** The state and the run agree. *)
Definition run_state {S V} (rn : option (prun S V)) (y : V) : Prop :=
  match rn with Some r => exists h, r_hist r = y :: h | None => True end.

Section Std.
  Context {S V J W Ws : Type} (o : sops S) (vo : vops S V) (jo : vops S J).
  Variable jid : J.
  Variable japp : J -> V -> V.
  Variable u : isys (S:=S) (V:=V) (J:=J) (W:=W).
  Variable solver : Ws -> V -> sol V V J Ws.
  Hypotheses (HF : sfield o) (HC : schar0 o) (HV : vspace o vo) (HJ : vspace o jo).
  Add Field SFimp : (sfield_th o HF).

  (** ** Without mass matrix: BDF1, BDF2 *)
  Notation pst := (@policy_std S V J W o vo jo jid u).
  Definition relw (a : list V * ppol) (w : W) : Prop := pp_w (snd a) = w.

  Lemma sim_bdf1 tape t y_n h k dt st :
    sim_call (std_rj pst BDF1 (y_n :: st) (sadd o t dt) k dt)
             (problem_bdf1 o vo jo jid u tape (mk_prun t (y_n :: h)) dt) relw.
  Proof.
    intros y r j [fs p] w HR. cbv [relw] in HR. cbn [snd] in HR. subst w.
    cbv [std_rj policy_std pol_bdf1 problem_bdf1 r_hist seen r_t fst snd].
    destruct (is_eval u y (sadd o t dt) r j (pp_w p)) as [e [[f j1] w]].
    destruct e as [x|x|x|]; do 5 eexists; (split; [reflexivity|]).
    - split; [|reflexivity]. repeat f_equal.
      + symmetry. apply res_bdf1; assumption.
      + symmetry. apply on_jac_ext. intros a. apply jac_bdf1; assumption.
    - split; [|reflexivity]. destruct x; reflexivity.
    - split; reflexivity.
    - split; reflexivity.
  Qed.

  Lemma sim_bdf2 tape t y_n y_nm1 h k dt st : k <> 1 ->
    sim_call (std_rj pst BDF2 (y_n :: y_nm1 :: st) (sadd o t dt) k dt)
             (problem_bdf2 o vo jo jid u tape (mk_prun t (y_n :: y_nm1 :: h)) dt) relw.
  Proof.
    intros Hk y r j [fs p] w HR. cbv [relw] in HR. cbn [snd] in HR. subst w.
    cbv [std_rj policy_std pol_bdf2 problem_bdf2 r_hist seen r_t fst snd].
    rewrite (proj2 (Z.eqb_neq k 1)) by exact Hk.
    destruct (is_eval u y (sadd o t dt) r j (pp_w p)) as [e [[f j1] w]].
    destruct e as [x|x|x|]; do 5 eexists; (split; [reflexivity|]).
    - split; [|reflexivity]. repeat f_equal.
      + symmetry. apply res_bdf2; assumption.
      + symmetry. apply on_jac_ext. intros a. apply jac_bdf2; assumption.
    - split; [|reflexivity]. destruct x; reflexivity.
    - split; reflexivity.
    - split; reflexivity.
  Qed.

  Lemma sim_bdf2_first tape t y_n dt st :
    sim_call (std_rj pst BDF2 (y_n :: st) (sadd o t dt) 1 dt)
             (problem_bdf2 o vo jo jid u tape (mk_prun t [y_n]) dt) relw.
  Proof. exact (sim_bdf1 tape t y_n [] 1 dt st). Qed.

  Definition inv1 (rn : option (prun S V)) (tape : list V)
             (g : @sst S V V ppol Ws) (ws : Ws) (w : W) : Prop :=
    t_ws g = ws /\ pp_w (t_p g) = w /\ (exists a st, t_st g = a :: st) /\ run_state rn (t_y g).

  Lemma bdf1_refines :
    step_refines o solver (problem_bdf1 o vo jo jid u) (implicit_step o pst solver BDF1) t_y inv1.
  Proof.
    intros t y hist tape g ws w dt (Hws & Hw & (a & st & Hst) & (h & Hh)).
    cbn [r_hist] in Hh. injection Hh as Hy _.
    cbv [implicit_step]. rewrite (step_one_state_eq o pst solver BDF1 t _ dt g a st Hst).
    rewrite <- Hy, Hws.
    destruct (run_solver_sim _ _ _ (sim_bdf1 (y :: tape) t y hist (Z.of_nat (length (y :: hist))) dt st)
                (solver ws y) y ws (t_fs g, t_p g) w Hw) as (r & y1 & ws1 & a1 & b1 & E1 & E2 & HR).
    rewrite E1, E2. destruct a1 as [fs1 p1]. cbv [relw] in HR. cbn [snd] in HR.
    assert (Fin : forall y2 rn, run_state rn y2 ->
      inv1 rn tape (mk_sst y2 (y :: st) fs1 (sadd o t dt) dt (Z.of_nat (length (y :: hist))) p1 ws1) ws1 b1).
    { intros y2 rn Hrn. repeat split; cbn; [exact HR| |exact Hrn]. eexists _, _. reflexivity. }
    destruct r as [[]|e|b|]; [| destruct e | |]; do 5 eexists; (split; [reflexivity|]);
      (split; [reflexivity|]); cbn [t_y]; (split; [reflexivity|]); apply Fin;
      try exact I; cbn [run_state]; eexists; cbn [r_hist]; reflexivity.
  Qed.

  (** BDF2: the stencil holds the state accepted before the current one. *)
  Definition inv2 (rn : option (prun S V)) (tape : list V)
             (g : @sst S V V ppol Ws) (ws : Ws) (w : W) : Prop :=
    t_ws g = ws /\ pp_w (t_p g) = w /\
    (exists a b st, t_st g = a :: b :: st /\
       match rn with Some r => match r_hist r with _ :: a' :: _ => a = a' | _ => True end | None => True end) /\
    run_state rn (t_y g).

  Lemma bdf2_refines :
    step_refines o solver (problem_bdf2 o vo jo jid u) (implicit_step o pst solver BDF2) t_y inv2.
  Proof.
    intros t y hist tape g ws w dt (Hws & Hw & (a & b & st & Hst & Ha) & (h & Hh)).
    cbn [r_hist] in Hh, Ha. injection Hh as Hy _.
    cbv [implicit_step]. rewrite (step_two_states_eq o pst solver BDF2 t _ dt g a b st Hst).
    rewrite <- Hy, Hws. destruct hist as [|a' hist].
    - change (Z.of_nat (length [y]) =? 1) with true. cbv iota zeta.
      destruct (run_solver_sim _ _ _ (sim_bdf2_first (y :: tape) t y dt (b :: st))
                  (solver ws y) y ws (t_fs g, t_p g) w Hw) as (r & y1 & ws1 & a1 & b1 & E1 & E2 & HR).
      change (Z.of_nat (length [y])) with 1. rewrite E1, E2. destruct a1 as [fs1 p1].
      cbv [relw] in HR. cbn [snd] in HR.
      destruct r as [[]|e|b0|]; [| destruct e | |]; do 5 eexists; (split; [reflexivity|]);
        (split; [reflexivity|]); cbn [t_y]; (split; [reflexivity|]); (split; [reflexivity|]);
        (split; [exact HR|]); (split; [eexists _, _, _; split; [reflexivity|] |]);
        cbn [r_hist run_state]; try exact I; try reflexivity; eexists; reflexivity.
    - subst a'. rewrite (proj2 (Z.eqb_neq _ 1)) by (cbn [length]; lia). cbv iota zeta.
      destruct (run_solver_sim _ _ _ (sim_bdf2 (y :: tape) t y a hist (Z.of_nat (length (y :: a :: hist))) dt st
                   ltac:(cbn [length]; lia))
                  (solver ws y) y ws (t_fs g, t_p g) w Hw) as (r & y1 & ws1 & a1 & b1 & E1 & E2 & HR).
      rewrite E1, E2. destruct a1 as [fs1 p1]. cbv [relw] in HR. cbn [snd] in HR.
      destruct r as [[]|e|b0|]; [| destruct e | |]; do 5 eexists; (split; [reflexivity|]);
        (split; [reflexivity|]); cbn [t_y]; (split; [reflexivity|]); (split; [reflexivity|]);
        (split; [exact HR|]); (split; [eexists _, _, _; split; [reflexivity|] |]);
        cbn [r_hist run_state]; try exact I; try reflexivity; eexists; reflexivity.
  Qed.

  (** ** Crank-Nicolson, within one run *)
  Variable F : V -> S -> outcome (V * J).
  Variable fj : V -> S -> option J -> option J.
  Context {Q : Type} (view : W -> Q).
  Hypothesis Hpure : pure_but u view F fj.

  Definition cached (k : Z) (y_n : V) (tn : S) (fs : list V) (p : @ppol W) : Prop :=
    exists f_np1 f_n rest, fs = f_np1 :: f_n :: rest /\
      (pp_trk p = k -> exists j, F y_n tn = Ok (f_n, j)).
  Definition relcn (k : Z) (y_n : V) (tn : S) (a : list V * ppol) (w : Q) : Prop :=
    view (pp_w (snd a)) = w /\ pp_trk (snd a) <= k /\ cached k y_n tn (fst a) (snd a).

  Lemma sim_cn tape t y_n h k dt st :
    sim_call (std_rj pst CrankNicolson (y_n :: st) (sadd o t dt) k dt)
             (problem_cn o vo jo jid F fj tape (mk_prun t (y_n :: h)) dt) (relcn k y_n t).
  Proof.
    intros y r j [fs p] w (Hw & Hk & (f_np1 & f_n & rest & Hfs & Hc)). cbn [fst snd] in *. subst w fs.
    assert (Ht : ssub o (sadd o t dt) dt = t) by field.
    cbv [std_rj policy_std pol_cn problem_cn r_hist seen_cn r_t fst snd cn_refresh].
    rewrite Ht. destruct (pp_trk p =? k) eqn:Ek; cbn [negb].
    - apply Z.eqb_eq in Ek. destruct (Hc Ek) as [j0 HFn]. rewrite HFn.
      pose proof (Hpure y (sadd o t dt) f_np1 j (pp_w p)) as Hp.
      destruct (F y (sadd o t dt)) as [[f j1]|e|b|].
      + destruct Hp as (j' & w' & Hp & Hv & Hj). rewrite Hp. do 5 eexists. split; [reflexivity|]. split.
        * repeat f_equal.
          -- symmetry. apply res_cn; assumption.
          -- destruct j; cbn; [|reflexivity]. rewrite (Hj ltac:(discriminate)). cbn. f_equal. symmetry. apply jac_cn; assumption.
        * split; [cbn; congruence|]. split; [cbn; lia|]. eexists _, _, _. split; [reflexivity|].
          intros _. exists j0. exact HFn.
      + destruct Hp as (f & w' & Hp & Hv). rewrite Hp. do 5 eexists. split; [reflexivity|]. split; [reflexivity|].
        split; [cbn; congruence|]. split; [cbn; lia|]. eexists _, _, _. split; [reflexivity|]. exact Hc.
      + destruct Hp as (f & w' & Hp & Hv). rewrite Hp. do 5 eexists. split; [reflexivity|]. split; [reflexivity|].
        split; [cbn; congruence|]. split; [cbn; lia|]. eexists _, _, _. split; [reflexivity|]. exact Hc.
      + destruct Hp as (f & w' & Hp & Hv). rewrite Hp. do 5 eexists. split; [reflexivity|]. split; [reflexivity|].
        split; [cbn; congruence|]. split; [cbn; lia|]. eexists _, _, _. split; [reflexivity|]. exact Hc.
    - apply Z.eqb_neq in Ek. pose proof (Hpure y_n t f_n None (pp_w p)) as Hn.
      destruct (F y_n t) as [[f0 j0]|e|b|] eqn:EF.
      + destruct Hn as (jn & wn & Hn & Hvn & _). rewrite Hn. cbn [pp_w pp_trk].
        pose proof (Hpure y (sadd o t dt) f_np1 j wn) as Hp.
        destruct (F y (sadd o t dt)) as [[f j1]|e|b|].
        * destruct Hp as (j' & w' & Hp & Hv & Hj). rewrite Hp. do 5 eexists. split; [reflexivity|]. split.
          -- repeat f_equal.
             ++ symmetry. apply res_cn; assumption.
             ++ destruct j; cbn; [|reflexivity]. rewrite (Hj ltac:(discriminate)). cbn. f_equal. symmetry. apply jac_cn; assumption.
          -- split; [cbn; congruence|]. split; [cbn; lia|]. eexists _, _, _. split; [reflexivity|].
             intros _. exists j0. exact EF.
        * destruct Hp as (f & w' & Hp & Hv). rewrite Hp. do 5 eexists. split; [reflexivity|]. split; [reflexivity|].
          split; [cbn; congruence|]. split; [cbn; lia|]. eexists _, _, _. split; [reflexivity|].
          intros _. exists j0. exact EF.
        * destruct Hp as (f & w' & Hp & Hv). rewrite Hp. do 5 eexists. split; [reflexivity|]. split; [reflexivity|].
          split; [cbn; congruence|]. split; [cbn; lia|]. eexists _, _, _. split; [reflexivity|].
          intros _. exists j0. exact EF.
        * destruct Hp as (f & w' & Hp & Hv). rewrite Hp. do 5 eexists. split; [reflexivity|]. split; [reflexivity|].
          split; [cbn; congruence|]. split; [cbn; lia|]. eexists _, _, _. split; [reflexivity|].
          intros _. exists j0. exact EF.
      + destruct Hn as (f & wn & Hn & Hvn). rewrite Hn. do 5 eexists. split; [reflexivity|]. split; [reflexivity|].
        split; [cbn; congruence|]. split; [cbn; lia|]. eexists _, _, _. split; [reflexivity|].
        cbn. intros E. contradiction.
      + destruct Hn as (f & wn & Hn & Hvn). rewrite Hn. do 5 eexists. split; [reflexivity|]. split; [reflexivity|].
        split; [cbn; congruence|]. split; [cbn; lia|]. eexists _, _, _. split; [reflexivity|].
        cbn. intros E. contradiction.
      + destruct Hn as (f & wn & Hn & Hvn). rewrite Hn. do 5 eexists. split; [reflexivity|]. split; [reflexivity|].
        split; [cbn; congruence|]. split; [cbn; lia|]. eexists _, _, _. split; [reflexivity|].
        cbn. intros E. contradiction.
  Qed.

  Definition invcn (rn : option (prun S V)) (tape : list V)
             (g : @sst S V V ppol Ws) (ws : Ws) (w : Q) : Prop :=
    t_ws g = ws /\ view (pp_w (t_p g)) = w /\ (exists a st, t_st g = a :: st) /\ run_state rn (t_y g) /\
    match rn with
    | Some r => pp_trk (t_p g) <= Z.of_nat (length (r_hist r)) /\
                match r_hist r with
                | y :: _ => cached (Z.of_nat (length (r_hist r))) y (r_t r) (t_fs g) (t_p g)
                | [] => True
                end
    | None => True
    end.

  Lemma cn_refines :
    step_refines o solver (problem_cn o vo jo jid F fj) (implicit_step o pst solver CrankNicolson)
                 t_y invcn.
  Proof.
    intros t y hist tape g ws w dt (Hws & Hw & (a & st & Hst) & (h & Hh) & Hk & Hc).
    cbn [r_hist r_t] in Hh, Hk, Hc. injection Hh as Hy _.
    cbv [implicit_step]. rewrite (step_one_state_eq o pst solver CrankNicolson t _ dt g a st Hst).
    rewrite <- Hy, Hws.
    destruct (run_solver_sim _ _ _ (sim_cn (y :: tape) t y hist (Z.of_nat (length (y :: hist))) dt st)
                (solver ws y) y ws (t_fs g, t_p g) w (conj Hw (conj Hk Hc)))
      as (r & y1 & ws1 & a1 & b1 & E1 & E2 & HR).
    rewrite E1, E2. destruct a1 as [fs1 p1]. destruct HR as (HR & Hk1 & Hc1). cbn [fst snd] in HR, Hk1, Hc1.
    pose proof Hc1 as Hc2. destruct Hc2 as (f1 & f2 & rest & Hfs & _).
    destruct r as [[]|e|b|]; [| destruct e | |]; do 5 eexists; (split; [reflexivity|]);
      (split; [reflexivity|]); cbn [t_y]; (split; [reflexivity|]);
      (split; [reflexivity|]); (split; [exact HR|]);
      (split; [eexists _, _; reflexivity|]); cbn [run_state r_hist t_p t_fs r_t];
      try (split; exact I); (split; [eexists; reflexivity|]).
    - split; [cbn [length] in *; lia|]. exists f1, f2, rest. split; [exact Hfs|]. cbn [length] in *. lia.
    - split; [exact Hk1|exact Hc1].
  Qed.
End Std.

(** * With mass matrix *)
Section MM.
  Context {S V J W Ws : Type} (o : sops S) (vo : vops S V) (jo : vops S J).
  Variable japp : J -> V -> V.
  Variable u : isys (S:=S) (V:=V) (J:=J) (W:=W).
  Variable solver : Ws -> V -> sol V V J Ws.
  Hypotheses (HF : sfield o) (HC : schar0 o) (HV : vspace o vo) (HJ : vspace o jo).
  Notation pmm := (@policy_mm S V J W o vo jo japp u).
  Definition relm (a : list V * @mpol V J W) (q : J * V * W) : Prop :=
    (mp_M (snd a), mp_f (snd a), mp_w (snd a)) = q.

  Lemma sim_bdf1_mm tape t y_n h k dt st :
    sim_call (std_rj pmm BDF1 (y_n :: st) (sadd o t dt) k dt)
             (problem_bdf1_mm o vo jo japp u tape (mk_prun t (y_n :: h)) dt) relm.
  Proof.
    intros y r j [fs p] q HR. cbv [relm] in HR. cbn [snd] in HR. subst q.
    cbv [std_rj policy_mm mpol_bdf1 problem_bdf1_mm r_hist seen_mm r_t fst snd].
    destruct (is_mmeval u y (sadd o t dt) (mp_M p) (mp_f p) j (mp_w p)) as [e [[[M f] j1] w]].
    destruct e as [x|x|x|]; do 5 eexists; (split; [reflexivity|]).
    - split; [|reflexivity]. repeat f_equal.
      + symmetry. apply res_bdf1_mm; assumption.
      + symmetry. apply on_jac_ext. intros a. apply jac_bdf1_mm; assumption.
    - split; [|reflexivity]. destruct x; reflexivity.
    - split; reflexivity.
    - split; reflexivity.
  Qed.
  Lemma sim_bdf2_mm tape t y_n y_nm1 h k dt st : k <> 1 ->
    sim_call (std_rj pmm BDF2 (y_n :: y_nm1 :: st) (sadd o t dt) k dt)
             (problem_bdf2_mm o vo jo japp u tape (mk_prun t (y_n :: y_nm1 :: h)) dt) relm.
  Proof.
    intros Hk y r j [fs p] q HR. cbv [relm] in HR. cbn [snd] in HR. subst q.
    cbv [std_rj policy_mm mpol_bdf2 problem_bdf2_mm r_hist seen_mm r_t fst snd].
    rewrite (proj2 (Z.eqb_neq k 1)) by exact Hk.
    destruct (is_mmeval u y (sadd o t dt) (mp_M p) (mp_f p) j (mp_w p)) as [e [[[M f] j1] w]].
    destruct e as [x|x|x|]; do 5 eexists; (split; [reflexivity|]).
    - split; [|reflexivity]. repeat f_equal.
      + symmetry. apply res_bdf2_mm; assumption.
      + symmetry. apply on_jac_ext. intros a. apply jac_bdf2_mm; assumption.
    - split; [|reflexivity]. destruct x; reflexivity.
    - split; reflexivity.
    - split; reflexivity.
  Qed.
  Lemma sim_bdf2_mm_first tape t y_n dt st :
    sim_call (std_rj pmm BDF2 (y_n :: st) (sadd o t dt) 1 dt)
             (problem_bdf2_mm o vo jo japp u tape (mk_prun t [y_n]) dt) relm.
  Proof. exact (sim_bdf1_mm tape t y_n [] 1 dt st). Qed.

  Definition inv1m (rn : option (prun S V)) (tape : list V)
             (g : @sst S V V (@mpol V J W) Ws) (ws : Ws) (q : J * V * W) : Prop :=
    t_ws g = ws /\ relm (t_fs g, t_p g) q /\ (exists a st, t_st g = a :: st) /\ run_state rn (t_y g).
  Lemma bdf1_mm_refines :
    step_refines o solver (problem_bdf1_mm o vo jo japp u) (implicit_step o pmm solver BDF1) t_y inv1m.
  Proof.
    intros t y hist tape g ws q dt (Hws & Hw & (a & st & Hst) & (h & Hh)).
    cbn [r_hist] in Hh. injection Hh as Hy _.
    cbv [implicit_step]. rewrite (step_one_state_eq o pmm solver BDF1 t _ dt g a st Hst).
    rewrite <- Hy, Hws.
    destruct (run_solver_sim _ _ _ (sim_bdf1_mm (y :: tape) t y hist (Z.of_nat (length (y :: hist))) dt st)
                (solver ws y) y ws (t_fs g, t_p g) q Hw) as (r & y1 & ws1 & a1 & b1 & E1 & E2 & HR).
    rewrite E1, E2. destruct a1 as [fs1 p1].
    destruct r as [[]|e|b|]; [| destruct e | |]; do 5 eexists; (split; [reflexivity|]);
      (split; [reflexivity|]); cbn [t_y]; (split; [reflexivity|]); (split; [reflexivity|]);
      (split; [exact HR|]); (split; [eexists _, _; reflexivity|]);
      try exact I; cbn [run_state]; eexists; cbn [r_hist]; reflexivity.
  Qed.

  Definition inv2m (rn : option (prun S V)) (tape : list V)
             (g : @sst S V V (@mpol V J W) Ws) (ws : Ws) (q : J * V * W) : Prop :=
    t_ws g = ws /\ relm (t_fs g, t_p g) q /\
    (exists a b st, t_st g = a :: b :: st /\
       match rn with Some r => match r_hist r with _ :: a' :: _ => a = a' | _ => True end | None => True end) /\
    run_state rn (t_y g).
  Lemma bdf2_mm_refines :
    step_refines o solver (problem_bdf2_mm o vo jo japp u) (implicit_step o pmm solver BDF2) t_y inv2m.
  Proof.
    intros t y hist tape g ws q dt (Hws & Hw & (a & b & st & Hst & Ha) & (h & Hh)).
    cbn [r_hist] in Hh, Ha. injection Hh as Hy _.
    cbv [implicit_step]. rewrite (step_two_states_eq o pmm solver BDF2 t _ dt g a b st Hst).
    rewrite <- Hy, Hws. destruct hist as [|a' hist].
    - change (Z.of_nat (length [y]) =? 1) with true. cbv iota zeta.
      destruct (run_solver_sim _ _ _ (sim_bdf2_mm_first (y :: tape) t y dt (b :: st))
                  (solver ws y) y ws (t_fs g, t_p g) q Hw) as (r & y1 & ws1 & a1 & b1 & E1 & E2 & HR).
      change (Z.of_nat (length [y])) with 1. rewrite E1, E2. destruct a1 as [fs1 p1].
      destruct r as [[]|e|b0|]; [| destruct e | |]; do 5 eexists; (split; [reflexivity|]);
        (split; [reflexivity|]); cbn [t_y]; (split; [reflexivity|]); (split; [reflexivity|]);
        (split; [exact HR|]); (split; [eexists _, _, _; split; [reflexivity|] |]);
        cbn [r_hist run_state]; try exact I; try reflexivity; eexists; reflexivity.
    - subst a'. rewrite (proj2 (Z.eqb_neq _ 1)) by (cbn [length]; lia). cbv iota zeta.
      destruct (run_solver_sim _ _ _ (sim_bdf2_mm (y :: tape) t y a hist (Z.of_nat (length (y :: a :: hist))) dt st
                   ltac:(cbn [length]; lia))
                  (solver ws y) y ws (t_fs g, t_p g) q Hw) as (r & y1 & ws1 & a1 & b1 & E1 & E2 & HR).
      rewrite E1, E2. destruct a1 as [fs1 p1].
      destruct r as [[]|e|b0|]; [| destruct e | |]; do 5 eexists; (split; [reflexivity|]);
        (split; [reflexivity|]); cbn [t_y]; (split; [reflexivity|]); (split; [reflexivity|]);
        (split; [exact HR|]); (split; [eexists _, _, _; split; [reflexivity|] |]);
        cbn [r_hist run_state]; try exact I; try reflexivity; eexists; reflexivity.
  Qed.
End MM.

(** * Fully discrete systems *)
Section Arb.
  Context {S V R J W Ws : Type} (o : sops S).
  Variable du : Z -> S -> S -> R -> option J -> V -> list V -> W -> outcome unit * (R * option J * W).
  Variable solver : Ws -> V -> sol V R J Ws.

  Definition inva (n : nat) (rn : option (prun S V)) (tape : list V)
             (g : @ast S V W Ws) (ws : Ws) (w : W) : Prop :=
    a_ws g = ws /\ a_w g = w /\ a_st g = firstn n tape /\ (n <= length tape)%nat /\ run_state rn (a_y g).

  Lemma sim_arb n tape t y h dt :
    sim_call (arb_rj du (firstn n tape) (sadd o t dt) (Z.of_nat (length (y :: h))) dt)
             (problem_arb o du n tape (mk_prun t (y :: h)) dt) (@eq W).
  Proof.
    intros z r j a b <-. cbv [arb_rj problem_arb r_hist r_t].
    destruct (du (Z.of_nat (length (y :: h))) (sadd o t dt) dt r j z (firstn n tape) a) as [e [[r1 j1] w1]].
    do 5 eexists. split; [reflexivity|]. split; reflexivity.
  Qed.

  (** One step, for each number of auxiliary states. *)
  Lemma arb_step_eq n t k dt (g : @ast S V W Ws) tape :
    (n = 1 \/ n = 2 \/ n = 3)%nat -> a_st g = firstn n tape -> (n <= length tape)%nat ->
    exists rc, forall r y1 ws1 w1,
    run_solver (arb_rj du (firstn n (a_y g :: tape)) (sadd o t dt) k dt) (solver (a_ws g) (a_y g)) (a_y g) (a_ws g) (a_w g)
      = (r, (y1, ws1, w1)) ->
    arb_step o du solver n t k dt g =
    match r with
    | Throw ENonlinearSolve =>
        (Throw ETimeStep, mk_ast (a_y g) (firstn n tape) rc (sadd o t dt) dt k w1 ws1)
    | _ => (r, mk_ast y1 (firstn n (a_y g :: tape)) rc (sadd o t dt) dt k w1 ws1)
    end.
  Proof.
    intros Hn Hst Hl. destruct g as [y st rc0 tm d sp w ws]. cbn [a_st a_y a_ws a_w] in *. subst st.
    destruct Hn as [->|[->| ->]].
    - destruct tape as [|a tape]; [cbn in Hl; lia|]. exists a. intros r y1 ws1 w1 E. cbn [firstn] in E |- *.
      cbv beta iota zeta delta [arb_step bind a_info a_update_aux a_get_st a_set_rec a_get a_set_st catch
        a_solve a_rollback a_set a_get_rec throw ImplicitModel.a_y ImplicitModel.a_st a_rec a_time a_dt a_step a_w a_ws
        nth_error list_set].
      cbn [firstn] in E. rewrite E. destruct r as [x|x|x|]; try reflexivity. destruct x; reflexivity.
    - destruct tape as [|a [|b tape]]; try (cbn in Hl; lia). exists b. intros r y1 ws1 w1 E. cbn [firstn] in E |- *.
      cbv beta iota zeta delta [arb_step bind a_info a_update_aux a_get_st a_set_rec a_get a_set_st catch
        a_solve a_rollback a_set a_get_rec throw ImplicitModel.a_y ImplicitModel.a_st a_rec a_time a_dt a_step a_w a_ws
        nth_error list_set].
      rewrite E. destruct r as [x|x|x|]; try reflexivity. destruct x; reflexivity.
    - destruct tape as [|a [|b [|c tape]]]; try (cbn in Hl; lia). exists c. intros r y1 ws1 w1 E. cbn [firstn] in E |- *.
      cbv beta iota zeta delta [arb_step bind a_info a_update_aux a_get_st a_set_rec a_get a_set_st catch
        a_solve a_rollback a_set a_get_rec throw ImplicitModel.a_y ImplicitModel.a_st a_rec a_time a_dt a_step a_w a_ws
        nth_error list_set].
      rewrite E. destruct r as [x|x|x|]; try reflexivity. destruct x; reflexivity.
  Qed.

  Lemma arb_refines n : (n = 1 \/ n = 2 \/ n = 3)%nat ->
    step_refines o solver (problem_arb o du n) (arb_step o du solver n) a_y (inva n).
  Proof.
    intros Hn t y hist tape g ws w dt (Hws & Hw & Hst & Hl & (h & Hh)).
    cbn [r_hist] in Hh. injection Hh as Hy _.
    destruct (arb_step_eq n t (Z.of_nat (length (y :: hist))) dt g tape Hn Hst Hl) as [rc HE].
    rewrite <- Hy, Hws, Hw in HE.
    destruct (run_solver_sim _ _ _ (sim_arb n (y :: tape) t y hist dt) (solver ws y) y ws w w eq_refl)
      as (r & y1 & ws1 & a1 & b1 & E1 & E2 & HR). subst b1.
    rewrite (HE _ _ _ _ E1). rewrite E2.
    destruct r as [[]|e|b|]; [| destruct e | |]; do 5 eexists; (split; [reflexivity|]);
      (split; [reflexivity|]); cbn [a_y];
      (split; [reflexivity|]); (split; [reflexivity|]); (split; [reflexivity|]);
      (split; [reflexivity|]); (split; [cbn [length]; lia|]); try exact I; cbn [run_state];
      eexists; cbn [r_hist]; reflexivity.
  Qed.
End Arb.

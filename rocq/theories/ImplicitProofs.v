(** Proofs about the implicit steppers: they refine the machine of [ImplicitSpec]. *)
From Coq Require Import ZArith List Bool Lia Field.
From Verif Require Import Base Laws ExplicitModel ImplicitModel ImplicitSpec.
Import ListNotations.
Local Open Scope Z_scope.

(** * The solver cannot tell two related objects apart *)
Section Sim.
  Context {V R J Ws GA GB : Type}.
  Variable rjA : V -> R -> option J -> GA -> outcome unit * (R * option J * GA).
  Variable rjB : V -> R -> option J -> GB -> outcome unit * (R * option J * GB).
  Variable Rel : GA -> GB -> Prop.
  Definition sim_call : Prop := forall y r j a b, Rel a b ->
    exists e r' j' a' b', rjA y r j a = (e, (r', j', a')) /\ rjB y r j b = (e, (r', j', b')) /\
                          Rel a' b'.
  Lemma run_solver_sim : sim_call -> forall (s : sol V R J Ws) y0 ws0 a b, Rel a b ->
    exists e y ws a' b', run_solver rjA s y0 ws0 a = (e, (y, ws, a')) /\
                         run_solver rjB s y0 ws0 b = (e, (y, ws, b')) /\ Rel a' b'.
  Proof.
    intros HS s. induction s as [e y ws|y r j k IH]; intros y0 ws0 a b HR.
    - cbn. do 5 eexists. repeat split. exact HR.
    - cbn. destruct (HS y r j a b HR) as (e & r' & j' & a' & b' & EA & EB & HR').
      rewrite EA, EB. destruct e as [x|x|x|].
      + apply IH. exact HR'.
      + apply IH. exact HR'.
      + do 5 eexists. repeat split. exact HR'.
      + do 5 eexists. repeat split. exact HR'.
  Qed.
End Sim.

(** * One step of the standard stepper, for any policy *)
Section StdStep.
  Context {S V R J P Ws : Type} (o : sops S).
  Variable pol : policy S V R J P.
  Variable solver : Ws -> V -> sol V R J Ws.
  Notation sst := (@sst S V R P Ws).
  Notation solve_on name st t k dt g :=
    (run_solver (std_rj pol name st (sadd o t dt) k dt) (solver (t_ws g) (t_y g)) (t_y g) (t_ws g)
                (t_fs g, t_p g)).

  (** BDF1 and Crank-Nicolson *)
  Lemma step_one_state_eq name t k dt (g : sst) a st : t_st g = a :: st ->
    step_one_state o pol solver name t k dt g =
    let '(r, (y', ws', (fs', p'))) := solve_on name (t_y g :: st) t k dt g in
    match r with
    | Throw ENonlinearSolve =>
        (Throw ETimeStep, mk_sst (t_y g) (t_y g :: st) fs' (sadd o t dt) dt k p' ws')
    | _ => (r, mk_sst y' (t_y g :: st) fs' (sadd o t dt) dt k p' ws')
    end.
  Proof.
    intros E.
    cbv beta iota zeta delta [step_one_state bind set_info get_ode set_st catch do_solve get_st
      set_ode throw ImplicitModel.t_y ImplicitModel.t_st t_fs t_time t_dt t_step t_p t_ws].
    destruct g as [y st0 fs tm d sp p ws]. cbn [t_st] in E. subst st0. cbn [list_set t_y t_ws t_fs t_p].
    destruct (run_solver _ _ _ _ _) as [r [[y' ws'] [fs' p']]].
    destruct r as [x|x|x|]; try reflexivity. destruct x; reflexivity.
  Qed.

  (** BDF2 *)
  Lemma step_two_states_eq name t k dt (g : sst) a b st : t_st g = a :: b :: st ->
    step_two_states o pol solver name t k dt g =
    let st' := if k =? 1 then t_y g :: b :: st else t_y g :: a :: st in
    let '(r, (y', ws', (fs', p'))) := solve_on name st' t k dt g in
    match r with
    | Throw ENonlinearSolve =>
        (Throw ETimeStep,
         mk_sst (t_y g) (if k =? 1 then t_y g :: b :: st else a :: a :: st)
                fs' (sadd o t dt) dt k p' ws')
    | _ => (r, mk_sst y' st' fs' (sadd o t dt) dt k p' ws')
    end.
  Proof.
    intros E.
    cbv beta iota zeta delta [step_two_states bind set_info get_ode set_st catch do_solve get_st
      set_ode throw ImplicitModel.t_y ImplicitModel.t_st t_fs t_time t_dt t_step t_p t_ws].
    destruct g as [y st0 fs tm d sp p ws]. cbn [t_st] in E. subst st0.
    destruct (k =? 1); cbn [list_set t_y t_ws t_fs t_p t_st t_time t_step t_dt nth_error];
      destruct (run_solver _ _ _ _ _) as [r [[y' ws'] [fs' p']]];
      destruct r as [x|x|x|]; try reflexivity; destruct x; reflexivity.
  Qed.
End StdStep.

(** * Refinement: an object that keeps an invariant behaves like the machine *)
Section Refine.
  Context {S V R J Ws Q G : Type} (o : sops S).
  Variable solver : Ws -> V -> sol V R J Ws.
  Variable problem : list V -> prun S V -> S -> V -> R -> option J -> Q ->
                     outcome unit * (R * option J * Q).
  Variable step : S -> Z -> S -> cmd G unit.
  Variable put : V -> G -> G.
  Variable get : G -> V.
  Variable Inv : option (prun S V) -> list V -> G -> Ws -> Q -> Prop.
  Variable starts : Prop.  (* may runs be started? *)
  Hypothesis H_start : starts -> forall rn tape g ws q t0 y0, Inv rn tape g ws q ->
    Inv (Some (mk_prun t0 [y0])) tape (put y0 g) ws q.
  Definition step_refines : Prop := forall t y hist tape g ws q dt,
    Inv (Some (mk_prun t (y :: hist))) tape g ws q ->
    exists r y1 ws1 q1 g',
    run_solver (problem (y :: tape) (mk_prun t (y :: hist)) dt) (solver ws y) y ws q
      = (r, (y1, ws1, q1)) /\
    step t (Z.of_nat (length (y :: hist))) dt g
      = (match r with Throw ENonlinearSolve => Throw ETimeStep | _ => r end, g') /\
    match r with
    | Ok _ => get g' = y1 /\ Inv (Some (mk_prun (sadd o t dt) (y1 :: y :: hist))) (y :: tape) g' ws1 q1
    | Throw ENonlinearSolve => get g' = y /\ Inv (Some (mk_prun t (y :: hist))) tape g' ws1 q1
    | _ => get g' = y1 /\ Inv None (y :: tape) g' ws1 q1
    end.
  Hypothesis H_step : step_refines.

  Definition run_pos (rn : option (prun S V)) (t : S) (k : Z) : Prop :=
    match rn with
    | Some r => t = r_t r /\ k = Z.of_nat (length (r_hist r))
    | None => True
    end.
  Definition is_start (e : event S V) : bool := match e with Start _ _ => true | _ => false end.

  Lemma refine : forall rn tape ws q evs res rn' tape' ws' q',
    history o solver problem rn tape ws q evs res rn' tape' ws' q' ->
    starts \/ Forall (fun e => is_start e = false) evs ->
    forall t k g, run_pos rn t k -> Inv rn tape g ws q ->
    exists g', perform o step put get evs t k g = (res, g') /\ Inv rn' tape' g' ws' q'.
  Proof.
    intros rn tape ws q evs res rn' tape' ws' q' H.
    induction H as [rn tape ws q
      |rn tape ws q t0 y0 evs res rn' tape' ws' q' H IH
      |t y hist tape ws q dt evs y1 ws1 q1 res rn' tape' ws' q' HR H IH
      |t y hist tape ws q dt evs y1 ws1 q1 res rn' tape' ws' q' HR H IH
      |t y hist tape ws q dt evs r y1 ws1 q1 res rn' tape' ws' q' HR Hr1 Hr2 H IH];
      intros HS t' k g HP HI.
    - exists g. split; [reflexivity|exact HI].
    - destruct HS as [HS|HS]; [|inversion HS; discriminate].
      destruct (IH (or_introl HS) t0 1 (put y0 g)) as (g' & E & HI').
      + split; reflexivity.
      + apply H_start with (rn := rn); assumption.
      + exists g'. split; [|exact HI']. cbn. rewrite E. reflexivity.
    - destruct HP as [-> ->]. cbn [r_t r_hist].
      assert (HS' : starts \/ Forall (fun e => is_start e = false) evs)
        by (destruct HS as [HS|HS]; [left; exact HS|right; inversion HS; assumption]).
      destruct (H_step _ _ _ _ _ _ _ dt HI) as (r & y2 & ws2 & q2 & g1 & E1 & E2 & E3).
      rewrite HR in E1. injection E1 as <- <- <- <-. destruct E3 as [Hg HI1].
      destruct (IH HS' (sadd o t dt) (Z.of_nat (length (y1 :: y :: hist))) g1) as (g' & E & HI');
        [split; reflexivity|exact HI1|].
      exists g'. split; [|exact HI']. cbn [perform]. rewrite E2.
      replace (Z.of_nat (length (y :: hist)) + 1) with (Z.of_nat (length (y1 :: y :: hist)))
        by (cbn [length]; lia).
      rewrite E, Hg. reflexivity.
    - destruct HP as [-> ->]. cbn [r_t r_hist].
      assert (HS' : starts \/ Forall (fun e => is_start e = false) evs)
        by (destruct HS as [HS|HS]; [left; exact HS|right; inversion HS; assumption]).
      destruct (H_step _ _ _ _ _ _ _ dt HI) as (r & y2 & ws2 & q2 & g1 & E1 & E2 & E3).
      rewrite HR in E1. injection E1 as <- <- <- <-. destruct E3 as [Hg HI1].
      destruct (IH HS' t (Z.of_nat (length (y :: hist))) g1) as (g' & E & HI');
        [split; reflexivity|exact HI1|].
      exists g'. split; [|exact HI']. cbn [perform]. rewrite E2, E, Hg. reflexivity.
    - destruct HP as [-> ->]. cbn [r_t r_hist].
      assert (HS' : starts \/ Forall (fun e => is_start e = false) evs)
        by (destruct HS as [HS|HS]; [left; exact HS|right; inversion HS; assumption]).
      destruct (H_step _ _ _ _ _ _ _ dt HI) as (r2 & y2 & ws2 & q2 & g1 & E1 & E2 & E3).
      rewrite HR in E1. injection E1 as <- <- <- <-.
      assert (E3' : get g1 = y1 /\ Inv None (y :: tape) g1 ws1 q1).
      { destruct r as [[]|e|b|]; try exact E3; [congruence|]. destruct e; try exact E3. congruence. }
      assert (E2' : step t (Z.of_nat (length (y :: hist))) dt g = (r, g1)).
      { rewrite E2. destruct r as [[]|e|b|]; try reflexivity. destruct e; try reflexivity. congruence. }
      destruct E3' as [Hg HI1].
      destruct (IH HS' t (Z.of_nat (length (y :: hist))) g1) as (g' & E & HI'); [exact I|exact HI1|].
      exists g'. split; [|exact HI']. cbn [perform]. rewrite E2'.
      destruct r as [[]|e|b|]; [congruence| | |]; rewrite E, Hg; reflexivity.
  Qed.
End Refine.

(** * The standard policies *)
Section Std.
  Context {S V J W Ws : Type} (o : sops S) (vo : vops S V) (jo : vops S J).
  Variable jid : J.
  Variable japp : J -> V -> V.
  Variable u : isys (S:=S) (V:=V) (J:=J) (W:=W).
  Variable solver : Ws -> V -> sol V V J Ws.
  Hypotheses (HF : sfield o) (HC : schar0 o) (HV : vspace o vo) (HJ : vspace o jo).
  Hypothesis Happ : forall M, linear vo vo (japp M).
  Add Field SFimp : (sfield_th o HF).

  Ltac coef := cbv beta iota zeta delta [bdf1_c_np1 bdf1_c_n bdf1_c_f bdf2_c_np1 bdf2_c_n bdf2_c_nm1
    bdf2_c_f cn_c_np1 cn_c_n cn_c_fnp1 cn_c_fn k_one k_negOne k_two k_three k_four k_negOneHalf
    k_oneOvThree k_twoOvThree k_fourOvThree neg1 frac sZ s_of_pos]; field; nz o HF HC.
  Ltac vec := cbv delta [dres_bdf1 dres_bdf2 dres_cn dscratch_bdf1 dscratch_bdf2
    bdf1_R bdf2_R cn_R vminus upd1 upd2 upd3 upd1_0 upd2_0 upd3_0] beta iota zeta;
    vreduce o vo HF HV; coef.
  Ltac mat := cbv delta [djac_bdf1 djac_bdf2 djac_cn djac_bdf1_mm djac_bdf2_mm scale_add_diag
    scheme_J jminus upd1] beta iota zeta;
    vreduce o jo HF HJ; coef.

  Lemma res_bdf1 y f y_n h : dres_bdf1 o vo y f y_n h = bdf1_R o vo y_n h f y.
  Proof. vec. Qed.
  Lemma res_bdf2 y f y_n y_nm1 h : dres_bdf2 o vo y f y_n y_nm1 h = bdf2_R o vo y_n y_nm1 h f y.
  Proof. vec. Qed.
  Lemma res_cn y y_n f_n f h : dres_cn o vo y y_n f_n f h = cn_R o vo y_n f_n h f y.
  Proof. vec. Qed.
  Lemma jac_bdf1 j h : djac_bdf1 o jo jid j h = scheme_J o jo jid (s1 o) h j.
  Proof. mat. Qed.
  Lemma jac_bdf2 j h : djac_bdf2 o jo jid j h = scheme_J o jo jid (frac o 2 3) h j.
  Proof. mat. Qed.
  Lemma jac_cn j h : djac_cn o jo jid j h = scheme_J o jo jid (frac o 1 2) h j.
  Proof. mat. Qed.
  Lemma jac_bdf1_mm j M h : djac_bdf1_mm o jo j M h = scheme_J o jo M (s1 o) h j.
  Proof. mat. Qed.
  Lemma jac_bdf2_mm j M h : djac_bdf2_mm o jo j M h = scheme_J o jo M (frac o 2 3) h j.
  Proof. mat. Qed.
  Lemma scr_bdf1 y y_n : dscratch_bdf1 o vo y y_n = vminus o vo y y_n.
  Proof. vec. Qed.
  Lemma scr_bdf2 y y_n y_nm1 : dscratch_bdf2 o vo y y_n y_nm1 =
    vadd vo (vminus o vo y (vscale vo (frac o 4 3) y_n)) (vscale vo (frac o 1 3) y_nm1).
  Proof. vec. Qed.
  Lemma res_bdf1_mm M y y_n f h :
    dres_bdf1_mm o vo japp M (dscratch_bdf1 o vo y y_n) f h = bdf1_R_mm o vo japp y_n h M f y.
  Proof.
    rewrite scr_bdf1. cbv delta [dres_bdf1_mm bdf1_R_mm upd1] beta.
    generalize (japp M (vminus o vo y y_n)). intros x. vec.
  Qed.
  Lemma res_bdf2_mm M y y_n y_nm1 f h :
    dres_bdf2_mm o vo japp M (dscratch_bdf2 o vo y y_n y_nm1) f h
    = bdf2_R_mm o vo japp y_n y_nm1 h M f y.
  Proof.
    rewrite scr_bdf2. cbv delta [dres_bdf2_mm bdf2_R_mm upd1] beta.
    match goal with |- context [japp M ?a] => generalize (japp M a) end. intros x. vec.
  Qed.
  Lemma on_jac_ext (f g : J -> J) j : (forall a, f a = g a) -> on_jac f j = option_map g j.
  Proof. intros H. destruct j; cbn; [rewrite H|]; reflexivity. Qed.
End Std.

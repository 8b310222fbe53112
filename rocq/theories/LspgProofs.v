(** The unsteady problems with FOM histories refine the machine (C34, C35). *)
From Coq Require Import ZArith List Bool Lia Field.
From Verif Require Import Base Laws ExplicitModel ImplicitModel ImplicitSpec ImplicitProofs ImplicitRefine
  LspgModel LspgSpec.
Import ListNotations.
Local Open Scope Z_scope.

(** * Solvers that evaluate at least once *)
Section Sim.
  Context {V R J Ws GA GB : Type}.
  Variable rjA : V -> R -> option J -> GA -> outcome unit * (R * option J * GA).
  Variable rjB : V -> R -> option J -> GB -> outcome unit * (R * option J * GB).
  Variables Rel Rel1 : GA -> GB -> Prop.
  Hypothesis Hsub : forall a b, Rel1 a b -> Rel a b.
  Hypothesis HS : forall y r j a b, Rel a b ->
    exists e r' j' a' b', rjA y r j a = (e, (r', j', a')) /\ rjB y r j b = (e, (r', j', b')) /\ Rel1 a' b'.
  Lemma run_solver_sim1 : forall (s : sol V R J Ws) y0 ws0 a b,
    Rel1 a b \/ Rel a b /\ match s with SEnd _ _ _ => False | _ => True end ->
    exists e y ws a' b', run_solver rjA s y0 ws0 a = (e, (y, ws, a')) /\
                         run_solver rjB s y0 ws0 b = (e, (y, ws, b')) /\ Rel1 a' b'.
  Proof.
    intros s. induction s as [e y ws|y r j k IH]; intros y0 ws0 a b HR.
    - destruct HR as [HR|[_ []]]. cbn. do 5 eexists. repeat split. exact HR.
    - assert (HR0 : Rel a b) by (destruct HR as [HR|[HR _]]; [apply Hsub|]; exact HR).
      cbn. destruct (HS y r j a b HR0) as (e & r' & j' & a' & b' & EA & EB & HR').
      rewrite EA, EB. destruct e as [x|x|x|].
      + apply IH. left. exact HR'.
      + apply IH. left. exact HR'.
      + do 5 eexists. repeat split. exact HR'.
      + do 5 eexists. repeat split. exact HR'.
  Qed.
End Sim.

(** * Refinement with the number of the last attempt in the invariant *)
Section Refine.
  Context {S V R J Ws Q G : Type} (o : sops S).
  Variable solver : Ws -> V -> sol V R J Ws.
  Variable problem : list V -> prun S V -> S -> V -> R -> option J -> Q ->
                     outcome unit * (R * option J * Q).
  Variable step : S -> Z -> S -> cmd G unit.
  Variable put : V -> G -> G.
  Variable get : G -> V.
  Variable Inv : Z -> option (prun S V) -> list V -> G -> Ws -> Q -> Prop.
  Variable starts : Prop.
  Hypothesis H_start : starts -> forall last rn tape g ws q t0 y0, last <> 1 -> Inv last rn tape g ws q ->
    Inv last (Some (mk_prun t0 [y0])) tape (put y0 g) ws q.
  Definition step_refines_last : Prop := forall last t y hist tape g ws q dt,
    Inv last (Some (mk_prun t (y :: hist))) tape g ws q ->
    let k := Z.of_nat (length (y :: hist)) in
    exists r y1 ws1 q1 g',
    run_solver (problem (y :: tape) (mk_prun t (y :: hist)) dt) (solver ws y) y ws q
      = (r, (y1, ws1, q1)) /\
    step t k dt g = (match r with Throw ENonlinearSolve => Throw ETimeStep | _ => r end, g') /\
    match r with
    | Ok _ => get g' = y1 /\ Inv k (Some (mk_prun (sadd o t dt) (y1 :: y :: hist))) (y :: tape) g' ws1 q1
    | Throw ENonlinearSolve => get g' = y /\ Inv k (Some (mk_prun t (y :: hist))) tape g' ws1 q1
    | _ => get g' = y1 /\ Inv k None (y :: tape) g' ws1 q1
    end.
  Hypothesis H_step : step_refines_last.

  Lemma refine_last : forall rn tape ws q evs res rn' tape' ws' q',
    history o solver problem rn tape ws q evs res rn' tape' ws' q' ->
    forall last t k g, run_pos rn t k ->
    starts /\ fresh_starts last k evs res \/ Forall (fun e => is_start e = false) evs ->
    Inv last rn tape g ws q ->
    exists last' g', perform o step put get evs t k g = (res, g') /\ Inv last' rn' tape' g' ws' q'.
  Proof.
    intros rn tape ws q evs res rn' tape' ws' q' H.
    induction H as [rn tape ws q
      |rn tape ws q t0 y0 evs res rn' tape' ws' q' H IH
      |t y hist tape ws q dt evs y1 ws1 q1 res rn' tape' ws' q' HR H IH
      |t y hist tape ws q dt evs y1 ws1 q1 res rn' tape' ws' q' HR H IH
      |t y hist tape ws q dt evs r y1 ws1 q1 res rn' tape' ws' q' HR Hr1 Hr2 H IH];
      intros last t' k g HP HS HI.
    - exists last, g. split; [reflexivity|exact HI].
    - destruct HS as [[HS [Hl HS2]]|HS]; [|inversion HS; discriminate].
      destruct (IH last t0 1 (put y0 g)) as (last' & g' & E & HI').
      + split; reflexivity.
      + left. split; assumption.
      + apply H_start with (rn := rn); assumption.
      + exists last', g'. split; [|exact HI']. cbn. rewrite E. reflexivity.
    - destruct HP as [-> ->]. cbn [r_t r_hist].
      destruct (H_step _ _ _ _ _ _ _ _ dt HI) as (r & y2 & ws2 & q2 & g1 & E1 & E2 & E3).
      rewrite HR in E1. injection E1 as <- <- <- <-. destruct E3 as [Hg HI1].
      assert (EK : Z.of_nat (length (y :: hist)) + 1 = Z.of_nat (length (y1 :: y :: hist)))
        by (cbn [length]; lia).
      destruct (IH (Z.of_nat (length (y :: hist))) (sadd o t dt) (Z.of_nat (length (y1 :: y :: hist))) g1)
        as (last' & g' & E & HI'); [split; reflexivity| |exact HI1|].
      { destruct HS as [[HS HS2]|HS]; [left|right; inversion HS; assumption]. split; [exact HS|].
        cbn [fresh_starts r_hist] in HS2. rewrite EK in HS2. exact HS2. }
      exists last', g'. split; [|exact HI']. cbn [perform]. rewrite E2, EK, E, Hg. reflexivity.
    - destruct HP as [-> ->]. cbn [r_t r_hist].
      destruct (H_step _ _ _ _ _ _ _ _ dt HI) as (r & y2 & ws2 & q2 & g1 & E1 & E2 & E3).
      rewrite HR in E1. injection E1 as <- <- <- <-. destruct E3 as [Hg HI1].
      destruct (IH (Z.of_nat (length (y :: hist))) t (Z.of_nat (length (y :: hist))) g1) as (last' & g' & E & HI');
        [split; reflexivity| |exact HI1|].
      { destruct HS as [[HS HS2]|HS]; [left|right; inversion HS; assumption]. split; [exact HS|exact HS2]. }
      exists last', g'. split; [|exact HI']. cbn [perform]. rewrite E2, E, Hg. reflexivity.
    - destruct HP as [-> ->]. cbn [r_t r_hist].
      destruct (H_step _ _ _ _ _ _ _ _ dt HI) as (r2 & y2 & ws2 & q2 & g1 & E1 & E2 & E3).
      rewrite HR in E1. injection E1 as <- <- <- <-.
      assert (E3' : get g1 = y1 /\ Inv (Z.of_nat (length (y :: hist))) None (y :: tape) g1 ws1 q1).
      { destruct r as [[]|e|b|]; try exact E3; [congruence|]. destruct e; try exact E3. congruence. }
      assert (E2' : step t (Z.of_nat (length (y :: hist))) dt g = (r, g1)).
      { rewrite E2. destruct r as [[]|e|b|]; try reflexivity. destruct e; try reflexivity. congruence. }
      destruct E3' as [Hg HI1].
      destruct (IH (Z.of_nat (length (y :: hist))) t (Z.of_nat (length (y :: hist))) g1)
        as (last' & g' & E & HI'); [exact I| |exact HI1|].
      { destruct HS as [[HS HS2]|HS]; [left|right; inversion HS; assumption]. split; [exact HS|].
        cbn [fresh_starts r_hist] in HS2. destruct r as [[]|e|b|]; [congruence|..]; exact HS2. }
      exists last', g'. split; [|exact HI']. cbn [perform]. rewrite E2'.
      destruct r as [[]|e|b|]; [congruence| | |]; rewrite E, Hg; reflexivity.
  Qed.
End Refine.

(** * The FOM states the manager holds *)
Section Hist.
  Context {X Y : Type}.
  Variable recon : X -> Y.
  Variable P : Y -> Prop.     (* what may be in the place of y_n-1 in the first step *)
  (** [three]: as many FOM states; [k], [xs]: number of the step and the states accepted *)
  Definition shaped (three : bool) (h : fomhist) : Prop :=
    if three then exists a b c, fh_data h = [a; b; c] else exists a b, fh_data (Y:=Y) h = [a; b].
  Definition second_ok (xs : list X) (c : Y) : Prop :=
    match xs with x' :: _ => c = recon x' | [] => P c end.
  Definition hinv (three : bool) (k : Z) (xs : list X) (h : fomhist) : Prop :=
    match xs with
    | x :: r =>
        if three then exists a b c, fh_data h = [a; b; c] /\
          (fh_trk h = k -> b = recon x /\ second_ok r c) /\ (fh_trk h <> k -> second_ok r b)
        else exists a b, fh_data h = [a; b] /\ (fh_trk h = k -> b = recon x)
    | [] => False
    end.
  Definition older_ok (three : bool) (xs : list X) (older : list Y) : Prop :=
    match xs with
    | x :: r => if three then exists c, older = [recon x; c] /\ second_ok r c else older = [recon x]
    | [] => False
    end.

  Lemma hinv_shaped three k xs h : hinv three k xs h -> shaped three h.
  Proof.
    destruct xs as [|x r]; [intros []|]. destruct three; cbn.
    - intros (a & b & c & E & _). exists a, b, c. exact E.
    - intros (a & b & E & _). exists a, b. exact E.
  Qed.
  Lemma reconstruct_ok three k x r y st h : hinv three k (x :: r) h ->
    exists h' older, reconstruct recon y (x :: st) k h = (Ok tt, h') /\
      fh_data h' = recon y :: older /\ older_ok three (x :: r) older /\
      fh_trk h' = k /\ hinv three k (x :: r) h'.
  Proof.
    destruct three; cbn [hinv older_ok].
    - intros (a & b & c & E & H1 & H2). cbv [reconstruct recon_at write_index]. rewrite E. cbn [list_set].
      destruct (fh_trk h =? k) eqn:Ek.
      + apply Z.eqb_eq in Ek. destruct (H1 Ek) as [-> Hc].
        eexists _, [recon x; c]. split; [reflexivity|]. cbn [fh_data fh_trk]. split; [reflexivity|].
        split; [exists c; split; [reflexivity|exact Hc]|]. split; [exact Ek|].
        exists (recon y), (recon x), c. split; [reflexivity|]. split; [intros _; split; [reflexivity|exact Hc]|].
        intros Hn. elim Hn. exact Ek.
      + apply Z.eqb_neq in Ek. cbn [recon_shift].
        eexists _, [recon x; b]. split; [reflexivity|]. cbn [fh_data fh_trk]. split; [reflexivity|].
        split; [exists b; split; [reflexivity|exact (H2 Ek)]|]. split; [reflexivity|].
        exists (recon y), (recon x), b. split; [reflexivity|].
        split; [intros _; split; [reflexivity|exact (H2 Ek)]|]. intros Hn. elim Hn. reflexivity.
    - intros (a & b & E & H1). cbv [reconstruct recon_at write_index]. rewrite E. cbn [list_set].
      destruct (fh_trk h =? k) eqn:Ek.
      + apply Z.eqb_eq in Ek. rewrite (H1 Ek).
        eexists _, [recon x]. split; [reflexivity|]. cbn [fh_data fh_trk]. split; [reflexivity|].
        split; [reflexivity|]. split; [exact Ek|]. exists (recon y), (recon x). split; reflexivity.
      + cbn [recon_shift].
        eexists _, [recon x]. split; [reflexivity|]. cbn [fh_data fh_trk]. split; [reflexivity|].
        split; [reflexivity|]. split; [reflexivity|]. exists (recon y), (recon x). split; reflexivity.
  Qed.
  Lemma hinv_next three k x r y1 h : hinv three k (x :: r) h -> fh_trk h = k ->
    hinv three (k + 1) (y1 :: x :: r) h.
  Proof.
    destruct three; cbn [hinv].
    - intros (a & b & c & E & H1 & _) Hk. exists a, b, c. split; [exact E|].
      split; [intros Hx; lia|]. intros _. exact (proj1 (H1 Hk)).
    - intros (a & b & E & H1) Hk. exists a, b. split; [exact E|]. intros Hx. lia.
  Qed.
  Lemma hinv_start three y0 h : shaped three h -> fh_trk h <> 1 -> (forall y, P y) -> hinv three 1 [y0] h.
  Proof.
    destruct three; cbn [hinv shaped second_ok].
    - intros (a & b & c & E) Hn HP. exists a, b, c. split; [exact E|].
      split; [intros Hx; elim (Hn Hx)|]. intros _. apply HP.
    - intros (a & b & E) Hn _. exists a, b. split; [exact E|]. intros Hx; elim (Hn Hx).
  Qed.
  Lemma hinv_first three y0 z : P z ->
    hinv three 1 [y0] (mk_fomhist (if three then [z; z; z] else [z; z]) (-1)).
  Proof.
    intros HP. destruct three; cbn [hinv second_ok fh_data fh_trk].
    - exists z, z, z. split; [reflexivity|]. split; [intros Hx; discriminate Hx|]. intros _. exact HP.
    - exists z, z. split; [reflexivity|]. intros Hx; discriminate Hx.
  Qed.
End Hist.

(** * Objects that reconstruct first *)
Section Objects.
  Context {S X Y R J PA Q Ws : Type} (o : sops S).
  Variable recon : X -> Y.
  Variable P : Y -> Prop.
  Variable three : bool.
  Variable hist_of : PA -> fomhist (Y:=Y).
  Variable rest : PA -> Q.
  (** a call, with the stencil [st], in step [k] *)
  Variable call : list X -> S -> Z -> S -> X -> R -> option J -> PA -> outcome unit * (R * option J * PA).
  Variable problem : list X -> prun S X -> S -> X -> R -> option J -> Q -> outcome unit * (R * option J * Q).
  (** After reconstruction the call does what the problem says. *)
  Definition through : Prop := forall tape t x r st dt y res Jo a h' older,
    let k := Z.of_nat (length (x :: r)) in
    reconstruct recon y (x :: st) k (hist_of a) = (Ok tt, h') ->
    fh_data h' = recon y :: older -> older_ok recon P three (x :: r) older ->
    exists e res' j' a', call (x :: st) (sadd o t dt) k dt y res Jo a = (e, (res', j', a')) /\
      problem tape (mk_prun t (x :: r)) dt y res Jo (rest a) = (e, (res', j', rest a')) /\
      hist_of a' = h'.
  Hypothesis Hcall : through.
  Variable solver : Ws -> X -> sol X R J Ws.
  Hypothesis Hasks : asks solver.

  Definition rel0 (k : Z) (xs : list X) (a : PA) (q : Q) : Prop :=
    rest a = q /\ hinv recon P three k xs (hist_of a).
  Definition rel1 (k : Z) (xs : list X) (a : PA) (q : Q) : Prop :=
    rel0 k xs a q /\ fh_trk (hist_of a) = k.

  Lemma solve_sim tape t x r st dt a q y0 ws0 ws :
    let k := Z.of_nat (length (x :: r)) in
    rel0 k (x :: r) a q ->
    exists e y w a' q',
      run_solver (call (x :: st) (sadd o t dt) k dt) (solver ws x) y0 ws0 a = (e, (y, w, a')) /\
      run_solver (problem tape (mk_prun t (x :: r)) dt) (solver ws x) y0 ws0 q = (e, (y, w, q')) /\
      rel1 k (x :: r) a' q'.
  Proof.
    intros k HR. apply (run_solver_sim1 _ _ (rel0 k (x :: r)) (rel1 k (x :: r))).
    - intros b c [H _]. exact H.
    - intros y res Jo b c [Hq Hh]. subst c.
      destruct (reconstruct_ok recon P three k x r y st (hist_of b) Hh) as (h' & older & E & Ed & Ho & Ht & Hi).
      destruct (Hcall tape t x r st dt y res Jo b h' older E Ed Ho) as (e & res' & j' & a' & EA & EB & Hh').
      exists e, res', j', a', (rest a'). split; [exact EA|]. split; [exact EB|].
      split; [split; [reflexivity|]|]; rewrite Hh'; assumption.
    - right. split; [exact HR|apply Hasks].
  Qed.
End Objects.

Lemma asks_root {V R J Ws} (solver : Ws -> V -> sol V R J Ws) : asks solver -> asks solver.
Proof. exact (fun H => H). Qed.

(** * With the standard stepper *)
Section Standard.
  Context {S X Y R J Pp Q Ws : Type} (o : sops S).
  Variable recon : X -> Y.
  Variable P : Y -> Prop.
  Variable hist_of : Pp -> fomhist (Y:=Y).
  Variable rest : Pp -> Q.
  Variable pol : policy S X R J Pp.
  Variable solver : Ws -> X -> sol X R J Ws.
  Hypothesis Hasks : asks solver.
  Variable problem : list X -> prun S X -> S -> X -> R -> option J -> Q -> outcome unit * (R * option J * Q).
  Notation hist2 := (fun a : list R * Pp => hist_of (snd a)).
  Notation rest2 := (fun a : list R * Pp => rest (snd a)).

  Definition inv_lspg (three : bool) (last : Z) (rn : option (prun S X)) (tape : list X)
             (g : @sst S X R Pp Ws) (ws : Ws) (q : Q) : Prop :=
    t_ws g = ws /\ rest (t_p g) = q /\
    (if three then exists a b st, t_st g = a :: b :: st else exists a st, t_st g = a :: st) /\
    run_state rn (t_y g) /\ fh_trk (hist_of (t_p g)) = last /\
    match rn with
    | Some r => hinv recon P three (Z.of_nat (length (r_hist r))) (r_hist r) (hist_of (t_p g))
    | None => shaped three (hist_of (t_p g))
    end.

  Lemma one_state_refines :
    through o recon P false hist2 rest2 (std_rj pol BDF1) problem ->
    step_refines_last o solver problem (implicit_step o pol solver BDF1) t_y (inv_lspg false).
  Proof.
    intros Hc last t y hist tape g ws q dt (Hws & Hq & (a & st & Hst) & (h & Hh) & Hl & Hi) k.
    cbn [r_hist] in Hh, Hi. injection Hh as Hy _.
    cbv [implicit_step]. rewrite (step_one_state_eq o pol solver BDF1 t _ dt g a st Hst).
    rewrite <- Hy, Hws.
    destruct (solve_sim o recon P false hist2 rest2 (std_rj pol BDF1) problem Hc solver Hasks
                (y :: tape) t y hist st dt (t_fs g, t_p g) q y ws ws) as (r & y1 & ws1 & a1 & b1 & E1 & E2 & [[HR1 HR2] HR3]).
    { split; [exact Hq|exact Hi]. }
    fold k in E1. rewrite E1, E2. destruct a1 as [fs1 p1]. cbn [snd] in HR1, HR2, HR3.
    assert (Fin : forall y2 rn tp, run_state rn y2 ->
      match rn with Some r => hinv recon P false (Z.of_nat (length (r_hist r))) (r_hist r) (hist_of p1) | None => True end ->
      inv_lspg false k rn tp (mk_sst y2 (y :: st) fs1 (sadd o t dt) dt k p1 ws1) ws1 b1).
    { intros y2 rn tp Hrn Hx. repeat split; cbn; [exact HR1| |exact Hrn|exact HR3|].
      - eexists _, _. reflexivity.
      - destruct rn; [exact Hx|]. apply (hinv_shaped _ _ _ _ _ _ HR2). }
    destruct r as [[]|e|b|]; [| destruct e | |]; do 5 eexists; (split; [reflexivity|]);
      (split; [reflexivity|]); cbn [t_y]; (split; [reflexivity|]); apply Fin;
      try exact I; try (eexists; cbn [r_hist]; reflexivity).
    - cbn [r_hist]. rewrite length_pos. apply (hinv_next _ _ _ _ _ _ _ _ HR2). exact HR3.
    - exact HR2.
  Qed.

  Lemma two_states_refines :
    through o recon P true hist2 rest2 (std_rj pol BDF2) problem ->
    step_refines_last o solver problem (implicit_step o pol solver BDF2) t_y (inv_lspg true).
  Proof.
    intros Hc last t y hist tape g ws q dt (Hws & Hq & (a & b & st & Hst) & (h & Hh) & Hl & Hi) k.
    cbn [r_hist] in Hh, Hi. injection Hh as Hy _.
    cbv [implicit_step]. rewrite (step_two_states_eq o pol solver BDF2 t _ dt g a b st Hst).
    rewrite <- Hy, Hws. cbv zeta.
    assert (ES : exists st0, (if k =? 1 then y :: b :: st else y :: a :: st) = y :: st0 /\ exists c st1, st0 = c :: st1)
      by (destruct (k =? 1); eexists; (split; [reflexivity|eexists _, _; reflexivity])).
    assert (ES2 : exists c d st2, (if k =? 1 then y :: b :: st else a :: a :: st) = c :: d :: st2)
      by (destruct (k =? 1); eexists _, _, _; reflexivity).
    destruct ES as (st0 & -> & c0 & st1 & ->). destruct ES2 as (c2 & d2 & st2 & ->).
    destruct (solve_sim o recon P true hist2 rest2 (std_rj pol BDF2) problem Hc solver Hasks
                (y :: tape) t y hist (c0 :: st1) dt (t_fs g, t_p g) q y ws ws)
      as (r & y1 & ws1 & a1 & b1 & E1 & E2 & [[HR1 HR2] HR3]).
    { split; [exact Hq|exact Hi]. }
    fold k in E1. rewrite E1, E2. destruct a1 as [fs1 p1]. cbn [snd] in HR1, HR2, HR3.
    assert (Fin : forall y2 rn tp c d st3, run_state rn y2 ->
      match rn with Some r => hinv recon P true (Z.of_nat (length (r_hist r))) (r_hist r) (hist_of p1) | None => True end ->
      inv_lspg true k rn tp (mk_sst y2 (c :: d :: st3) fs1 (sadd o t dt) dt k p1 ws1) ws1 b1).
    { intros y2 rn tp c d st3 Hrn Hx. repeat split; cbn; [exact HR1| |exact Hrn|exact HR3|].
      - eexists _, _, _. reflexivity.
      - destruct rn; [exact Hx|]. apply (hinv_shaped _ _ _ _ _ _ HR2). }
    destruct r as [[]|e|b0|]; [| destruct e | |]; do 5 eexists; (split; [reflexivity|]);
      (split; [reflexivity|]); cbn [t_y]; (split; [reflexivity|]); apply Fin;
      try exact I; try (eexists; cbn [r_hist]; reflexivity).
    - cbn [r_hist]. rewrite length_pos. apply (hinv_next _ _ _ _ _ _ _ _ HR2). exact HR3.
    - exact HR2.
  Qed.

  Lemma lspg_start three : (forall y, P y) -> forall last rn tape g ws q t0 y0, last <> 1 ->
    inv_lspg three last rn tape g ws q ->
    inv_lspg three last (Some (mk_prun t0 [y0])) tape (put_ode y0 g) ws q.
  Proof.
    intros HP last rn tape g ws q t0 y0 Hl (Ha & Hb & Hc & _ & He & Hf).
    split; [exact Ha|]. split; [exact Hb|]. split; [exact Hc|]. split; [exists []; reflexivity|].
    split; [exact He|]. cbn [r_hist length Z.of_nat]. change (t_p (put_ode y0 g)) with (t_p g).
    apply hinv_start; [|rewrite He; exact Hl|exact HP].
    destruct rn; [exact (hinv_shaped _ _ _ _ _ _ Hf)|exact Hf].
  Qed.
End Standard.

(** * With the arbitrary stepper *)
Section Arbitrary.
  Context {S X Y R J Q Ws : Type} (o : sops S).
  Variable recon : X -> Y.
  Variable P : Y -> Prop.
  Variable three : bool.
  Notation Pp := (fomhist (Y:=Y) * Q)%type.
  Variable du : Z -> S -> S -> R -> option J -> X -> list X -> Pp -> outcome unit * (R * option J * Pp).
  Variable solver : Ws -> X -> sol X R J Ws.
  Hypothesis Hasks : asks solver.
  Variable problem : list X -> prun S X -> S -> X -> R -> option J -> Q -> outcome unit * (R * option J * Q).

  Definition inv_arb (n : nat) (last : Z) (rn : option (prun S X)) (tape : list X)
             (g : @ast S X Pp Ws) (ws : Ws) (q : Q) : Prop :=
    a_ws g = ws /\ snd (a_w g) = q /\ length (a_st g) = n /\
    run_state rn (a_y g) /\ fh_trk (fst (a_w g)) = last /\
    match rn with
    | Some r => hinv recon P three (Z.of_nat (length (r_hist r))) (r_hist r) (fst (a_w g))
    | None => shaped three (fst (a_w g))
    end.
  Lemma arb_refines_last n : (n = 1 \/ n = 2 \/ n = 3)%nat ->
    through o recon P three fst snd (arb_rj du) problem ->
    step_refines_last o solver problem (arb_step o du solver n) a_y (inv_arb n).
  Proof.
    intros Hn Hc last t y hist tape g ws q dt (Hws & Hq & Hst & (h & Hh) & Hl & Hi) k.
    cbn [r_hist] in Hh, Hi. injection Hh as Hy _.
    destruct (arb_step_eq o du solver n t k dt g (a_st g) Hn) as [rc HE].
    { symmetry. apply firstn_all2. lia. }
    { lia. }
    rewrite <- Hy, Hws in HE.
    assert (ES : exists st0, firstn n (y :: a_st g) = y :: st0 /\ length (y :: st0) = n).
    { destruct n as [|n]; [lia|]. cbn [firstn]. eexists. split; [reflexivity|]. cbn [length].
      rewrite firstn_length. lia. }
    destruct ES as (st0 & ES & HL). rewrite ES in HE.
    destruct (solve_sim o recon P three fst snd (arb_rj du) problem Hc solver Hasks
                (y :: tape) t y hist st0 dt (a_w g) q y ws ws)
      as (r & y1 & ws1 & a1 & b1 & E1 & E2 & [[HR1 HR2] HR3]).
    { split; [exact Hq|exact Hi]. }
    fold k in E1. rewrite (HE _ _ _ _ E1), E2.
    assert (HL0 : length (firstn n (a_st g)) = n) by (rewrite firstn_length; lia).
    assert (Fin : forall y2 rn tp st3, length st3 = n -> run_state rn y2 ->
      match rn with Some r => hinv recon P three (Z.of_nat (length (r_hist r))) (r_hist r) (fst a1) | None => True end ->
      inv_arb n k rn tp (mk_ast y2 st3 rc (sadd o t dt) dt k a1 ws1) ws1 b1).
    { intros y2 rn tp st3 Hst3 Hrn Hx. repeat split; cbn; [exact HR1|exact Hst3|exact Hrn|exact HR3|].
      destruct rn; [exact Hx|]. apply (hinv_shaped _ _ _ _ _ _ HR2). }
    destruct r as [[]|e|b0|]; [| destruct e | |]; do 5 eexists; (split; [reflexivity|]);
      (split; [reflexivity|]); cbn [a_y]; (split; [reflexivity|]); apply Fin; try assumption;
      try exact I; try (eexists; cbn [r_hist]; reflexivity).
    cbn [r_hist]. rewrite length_pos. apply (hinv_next _ _ _ _ _ _ _ _ HR2). exact HR3.
  Qed.
  Lemma arb_start n : (forall y, P y) -> forall last rn tape g ws q t0 y0, last <> 1 ->
    inv_arb n last rn tape g ws q ->
    inv_arb n last (Some (mk_prun t0 [y0])) tape (put_arb y0 g) ws q.
  Proof.
    intros HP last rn tape g ws q t0 y0 Hl (Ha & Hb & Hc & _ & He & Hf).
    split; [exact Ha|]. split; [exact Hb|]. split; [exact Hc|]. split; [exists []; reflexivity|].
    split; [exact He|]. cbn [r_hist length Z.of_nat]. change (a_w (put_arb y0 g)) with (a_w g).
    apply hinv_start; [|rewrite He; exact Hl|exact HP].
    destruct rn; [exact (hinv_shaped _ _ _ _ _ _ Hf)|exact Hf].
  Qed.
End Arbitrary.

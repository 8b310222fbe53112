(** Specification of the implicit steppers, independent of the model's own
    helpers: the textbook equations, and a machine that keeps the whole list of
    accepted states instead of a stencil. *)
From Coq Require Import ZArith List Bool Reals.
From Verif Require Import Base ExplicitModel ImplicitModel.
Import ListNotations.
Local Open Scope Z_scope.

(** ** Textbook residuals and Jacobians *)
Section Textbook.
  Context {S V J : Type} (o : sops S) (vo : vops S V) (jo : vops S J).
  Variable jid : J.
  Variable japp : J -> V -> V.
  Notation "x ++ y" := (vadd vo x y).
  Notation "a ** x" := (vscale vo a x) (at level 40).
  Definition neg1 := sopp o (s1 o).
  Definition vminus (x y : V) : V := x ++ neg1 ** y.
  Definition jminus (a b : J) : J := vadd jo a (vscale jo neg1 b).
  Definition frac (a b : positive) : S := sdiv o (s_of_pos o a) (s_of_pos o b).

  (** y - y_n - h f *)
  Definition bdf1_R (y_n : V) (h : S) (f y : V) : V := vminus (vminus y y_n) (h ** f).
  (** y - 4/3 y_n + 1/3 y_n-1 - 2/3 h f *)
  Definition bdf2_R (y_n y_nm1 : V) (h : S) (f y : V) : V :=
    vminus (vminus y (frac 4 3 ** y_n) ++ frac 1 3 ** y_nm1) (smul o (frac 2 3) h ** f).
  (** y - y_n - h/2 (f_n + f) *)
  Definition cn_R (y_n f_n : V) (h : S) (f y : V) : V :=
    vminus (vminus y y_n) (smul o (frac 1 2) h ** (f_n ++ f)).
  (** M (y - y_n) - h f and M (y - 4/3 y_n + 1/3 y_n-1) - 2/3 h f *)
  Definition bdf1_R_mm (y_n : V) (h : S) (M : J) (f y : V) : V :=
    vminus (japp M (vminus y y_n)) (h ** f).
  Definition bdf2_R_mm (y_n y_nm1 : V) (h : S) (M : J) (f y : V) : V :=
    vminus (japp M (vminus y (frac 4 3 ** y_n) ++ frac 1 3 ** y_nm1)) (smul o (frac 2 3) h ** f).

  (** I - c h df/dy and M - c h df/dy, with c = 1, 2/3, 1/2 *)
  Definition scheme_J (lead : J) (c h : S) (j : J) : J := jminus lead (vscale jo (smul o c h) j).

  (** The implicit equations a step is meant to solve. *)
  Definition bdf1_eq (f : V -> V) (y_n : V) (h : S) (y : V) : Prop := y = y_n ++ h ** f y.
  Definition bdf2_eq (f : V -> V) (y_n y_nm1 : V) (h : S) (y : V) : Prop :=
    y ++ frac 1 3 ** y_nm1 = frac 4 3 ** y_n ++ smul o (frac 2 3) h ** f y.
  Definition cn_eq (f_n : V) (f : V -> V) (y_n : V) (h : S) (y : V) : Prop :=
    y = y_n ++ smul o (frac 1 2) h ** (f_n ++ f y).
End Textbook.

(** ** Fréchet derivative in a normed space over the reals *)
Record normed {V : Type} (vo : vops R V) (norm : V -> R) : Prop := {
  n_pos : forall x, (0 <= norm x)%R;
  n_tri : forall x y, (norm (vadd vo x y) <= norm x + norm y)%R;
  n_scale : forall a x, norm (vscale vo a x) = (Rabs a * norm x)%R
}.
(** F (x+d) = F x + L d + o(|d|) *)
Definition derivative {V : Type} (vo : vops R V) (norm : V -> R)
           (F : V -> V) (x : V) (L : V -> V) : Prop :=
  forall eps, (0 < eps)%R -> exists del, (0 < del)%R /\ forall d, (norm d < del)%R ->
    (norm (vadd vo (F (vadd vo x d)) (vscale vo (-1) (vadd vo (F x) (L d)))) <= eps * norm d)%R.

(** ** What a nonlinear solver is given to solve
    One call of the user's system, then the textbook formula; a velocity failure
    is reported as a residual failure. *)
Section Seen.
  Context {S V J W : Type} (u : isys (S:=S) (V:=V) (J:=J) (W:=W)).
  Definition reported (r : outcome unit) : outcome unit :=
    match r with Throw EVelocity => Throw EResidualEvaluation | _ => r end.
  Definition seen (res : V -> V -> V) (jac : J -> J) (t : S)
             (y R : V) (Jo : option J) (w : W) : outcome unit * (V * option J * W) :=
    let '(r, (f, j, w')) := is_eval u y t R Jo w in
    match r with
    | Ok _ => (Ok tt, (res f y, option_map jac (mask Jo j), w'))
    | _ => (reported r, (f, mask Jo j, w'))
    end.
  (** ... with mass matrix; the policy's buffers for M and f belong to the memory
      the user's system may read and write. *)
  Definition seen_mm (res : J -> V -> V -> V) (jac : J -> J -> J) (t : S)
             (y R : V) (Jo : option J) (q : J * V * W) : outcome unit * (V * option J * (J * V * W)) :=
    let '(M0, f0, w) := q in
    let '(r, (M, f, j, w')) := is_mmeval u y t M0 f0 Jo w in
    match r with
    | Ok _ => (Ok tt, (res M f y, option_map (jac M) (mask Jo j), (M, f, w')))
    | _ => (reported r, (R, mask Jo j, (M, f, w')))
    end.
  (** A system whose result does not depend on the world or on what the buffers
      held; [view]: the part of the world it leaves alone; [fj] says what a failing call
      leaves in the Jacobian. *)
  Definition pure_but {Q} (view : W -> Q) (F : V -> S -> outcome (V * J))
             (fj : V -> S -> option J -> option J) : Prop :=
    forall y t R Jo w,
      match F y t with
      | Ok (f, j) => exists j' w', is_eval u y t R Jo w = (Ok tt, (f, j', w')) /\ view w' = view w /\ (Jo <> None -> j' = Some j)
      | Throw e => exists f w', is_eval u y t R Jo w = (Throw e, (f, fj y t Jo, w')) /\ view w' = view w
      | Undef b => exists f w', is_eval u y t R Jo w = (Undef b, (f, fj y t Jo, w')) /\ view w' = view w
      | NoFuel => exists f w', is_eval u y t R Jo w = (NoFuel, (f, fj y t Jo, w')) /\ view w' = view w
      end.
  Definition pure_system := pure_but (fun w => w).
  (** ... it may count its calls, keep caches or write logs *)
  Definition repeatable := pure_but (fun _ => tt).
  (** Crank-Nicolson with f_n evaluated afresh in every call. *)
  Definition seen_cn (F : V -> S -> outcome (V * J)) (fj : V -> S -> option J -> option J)
             (res : V -> V -> V -> V) (jac : J -> J) (y_n : V) (tn tnp1 : S)
             (y R : V) (Jo : option J) (w : W) : outcome unit * (V * option J * W) :=
    match F y_n tn with
    | Ok (f_n, _) =>
        match F y tnp1 with
        | Ok (f, j) => (Ok tt, (res f_n f y, option_map (fun _ => jac j) Jo, w))
        | Throw e => (Throw e, (R, mask Jo (fj y tnp1 Jo), w))
        | Undef b => (Undef b, (R, mask Jo (fj y tnp1 Jo), w))
        | NoFuel => (NoFuel, (R, mask Jo (fj y tnp1 Jo), w))
        end
    | Throw e => (Throw e, (R, Jo, w))
    | Undef b => (Undef b, (R, Jo, w))
    | NoFuel => (NoFuel, (R, Jo, w))
    end.
End Seen.

(** ** Histories of step attempts
    The caller starts runs and attempts steps, as the advancers do: step numbers
    count from 1 in each run and grow with each successful attempt, and so does
    the time; a failed attempt may be repeated, with any step size. *)
Inductive event (S V : Type) := Start (t0 : S) (y0 : V) | Attempt (dt : S).
Arguments Start {S V}. Arguments Attempt {S V}.

(** A run in progress: its time and the states accepted so far, newest first (the
    last one is the initial condition). *)
Record prun (S V : Type) := mk_prun { r_t : S; r_hist : list V }.
Arguments mk_prun {S V}. Arguments r_t {S V}. Arguments r_hist {S V}.

Section Machine.
  Context {S V R J Ws Q : Type} (o : sops S).
  Variable solver : Ws -> V -> sol V R J Ws.
  (** The problem given to the solver for the next step, from: the states at the
      start of this and all earlier steps not rolled back, newest first; the run;
      the step size. *)
  Variable problem : list V -> prun S V -> S -> V -> R -> option J -> Q ->
                     outcome unit * (R * option J * Q).

  (** [history rn tape ws q evs res rn' tape' ws' q']: events [evs] have the results
      [res]: how each ended, and the caller's state afterwards. After an
      exception other than TimeStepFailure the run is over ([None]). *)
  Inductive history : option (prun S V) -> list V -> Ws -> Q -> list (event S V) ->
    list (outcome unit * V) -> option (prun S V) -> list V -> Ws -> Q -> Prop :=
  | HNil rn tape ws q : history rn tape ws q [] [] rn tape ws q
  | HStart rn tape ws q t0 y0 evs res rn' tape' ws' q' :
      history (Some (mk_prun t0 [y0])) tape ws q evs res rn' tape' ws' q' ->
      history rn tape ws q (Start t0 y0 :: evs) ((Ok tt, y0) :: res) rn' tape' ws' q'
  | HAccept t y hist tape ws q dt evs y1 ws1 q1 res rn' tape' ws' q' :
      run_solver (problem (y :: tape) (mk_prun t (y :: hist)) dt) (solver ws y) y ws q
        = (Ok tt, (y1, ws1, q1)) ->
      history (Some (mk_prun (sadd o t dt) (y1 :: y :: hist))) (y :: tape) ws1 q1
              evs res rn' tape' ws' q' ->
      history (Some (mk_prun t (y :: hist))) tape ws q (Attempt dt :: evs)
              ((Ok tt, y1) :: res) rn' tape' ws' q'
  | HReject t y hist tape ws q dt evs y1 ws1 q1 res rn' tape' ws' q' :
      run_solver (problem (y :: tape) (mk_prun t (y :: hist)) dt) (solver ws y) y ws q
        = (Throw ENonlinearSolve, (y1, ws1, q1)) ->
      history (Some (mk_prun t (y :: hist))) tape ws1 q1 evs res rn' tape' ws' q' ->
      history (Some (mk_prun t (y :: hist))) tape ws q (Attempt dt :: evs)
              ((Throw ETimeStep, y) :: res) rn' tape' ws' q'
  | HAbort t y hist tape ws q dt evs r y1 ws1 q1 res rn' tape' ws' q' :
      run_solver (problem (y :: tape) (mk_prun t (y :: hist)) dt) (solver ws y) y ws q
        = (r, (y1, ws1, q1)) ->
      r <> Ok tt -> r <> Throw ENonlinearSolve ->
      history None (y :: tape) ws1 q1 evs res rn' tape' ws' q' ->
      history (Some (mk_prun t (y :: hist))) tape ws q (Attempt dt :: evs)
              ((r, y1) :: res) rn' tape' ws' q'.
End Machine.

(** The same events carried out with a stepper object [G]: [step t k dt] is its
    call operator, [put] sets and [get] reads the caller's state. *)
Section Drive.
  Context {S V G : Type} (o : sops S).
  Variable step : S -> Z -> S -> cmd G unit.
  Variable put : V -> G -> G.
  Variable get : G -> V.
  Fixpoint perform (evs : list (event S V)) (t : S) (k : Z) (g : G) : list (outcome unit * V) * G :=
    match evs with
    | [] => ([], g)
    | Start t0 y0 :: evs' =>
        let '(l, g') := perform evs' t0 1 (put y0 g) in ((Ok tt, y0) :: l, g')
    | Attempt dt :: evs' =>
        let '(r, g1) := step t k dt g in
        let '(l, g') := match r with
                        | Ok _ => perform evs' (sadd o t dt) (k + 1) g1
                        | _ => perform evs' t k g1
                        end in
        ((r, get g1) :: l, g')
    end.
End Drive.

(** Problems for the schemes. BDF2 uses BDF1 while only one state is known. *)
Section Problems.
  Context {S V J W : Type} (o : sops S) (vo : vops S V) (jo : vops S J).
  Variable jid : J.
  Variable japp : J -> V -> V.
  Variable u : isys (S:=S) (V:=V) (J:=J) (W:=W).
  Definition problem_bdf1 (tape : list V) (rn : prun S V) (dt : S)
    : V -> V -> option J -> W -> outcome unit * (V * option J * W) :=
    match r_hist rn with
    | y_n :: _ => seen u (bdf1_R o vo y_n dt) (scheme_J o jo jid (s1 o) dt) (sadd o (r_t rn) dt)
    | [] => fun _ R Jo w => (NoFuel, (R, Jo, w))
    end.
  Definition problem_bdf2 (tape : list V) (rn : prun S V) (dt : S)
    : V -> V -> option J -> W -> outcome unit * (V * option J * W) :=
    match r_hist rn with
    | y_n :: y_nm1 :: _ =>
        seen u (bdf2_R o vo y_n y_nm1 dt) (scheme_J o jo jid (frac o 2 3) dt) (sadd o (r_t rn) dt)
    | _ => problem_bdf1 tape rn dt
    end.
  Definition problem_cn F fj (tape : list V) (rn : prun S V) (dt : S)
    : V -> V -> option J -> W -> outcome unit * (V * option J * W) :=
    match r_hist rn with
    | y_n :: _ => seen_cn F fj (fun f_n f y => cn_R o vo y_n f_n dt f y)
                          (scheme_J o jo jid (frac o 1 2) dt) y_n (r_t rn) (sadd o (r_t rn) dt)
    | [] => fun _ R Jo w => (NoFuel, (R, Jo, w))
    end.
  Definition problem_bdf1_mm (tape : list V) (rn : prun S V) (dt : S)
    : V -> V -> option J -> J * V * W -> outcome unit * (V * option J * (J * V * W)) :=
    match r_hist rn with
    | y_n :: _ => seen_mm u (fun M f y => bdf1_R_mm o vo japp y_n dt M f y)
                          (fun M => scheme_J o jo M (s1 o) dt) (sadd o (r_t rn) dt)
    | [] => fun _ R Jo q => (NoFuel, (R, Jo, q))
    end.
  Definition problem_bdf2_mm (tape : list V) (rn : prun S V) (dt : S)
    : V -> V -> option J -> J * V * W -> outcome unit * (V * option J * (J * V * W)) :=
    match r_hist rn with
    | y_n :: y_nm1 :: _ =>
        seen_mm u (fun M f y => bdf2_R_mm o vo japp y_n y_nm1 dt M f y)
                (fun M => scheme_J o jo M (frac o 2 3) dt) (sadd o (r_t rn) dt)
    | _ => problem_bdf1_mm tape rn dt
    end.
End Problems.

(** Fully discrete systems get the step number, the end time, the size and the
    last [n] states, newest first. *)
Definition problem_arb {S V R J W} (o : sops S)
  (du : Z -> S -> S -> R -> option J -> V -> list V -> W -> outcome unit * (R * option J * W))
  (n : nat) (tape : list V) (rn : prun S V) (dt : S)
  (y : V) (r : R) (j : option J) (w : W) : outcome unit * (R * option J * W) :=
  let '(e, (r', j', w')) :=
    du (Z.of_nat (length (r_hist rn))) (sadd o (r_t rn) dt) dt r j y (firstn n tape) w in
  (match e with Throw EDiscreteTimeResidual => Throw EResidualEvaluation | _ => e end,
   (r', mask j j', w')).

(** ** The stepper objects as the caller drives them *)
Definition put_ode {S V R P Ws} (y : V) (g : @sst S V R P Ws) : @sst S V R P Ws :=
  mk_sst y (t_st g) (t_fs g) (t_time g) (t_dt g) (t_step g) (t_p g) (t_ws g).
Definition put_arb {S V W Ws} (y : V) (g : @ast S V W Ws) : @ast S V W Ws :=
  mk_ast y (a_st g) (a_rec g) (a_time g) (a_dt g) (a_step g) (a_w g) (a_ws g).
(** ... and as the advancers see them: the state is the advancer's. *)
Definition implicit_fn {S V R P Ws} (step : S -> Z -> S -> cmd (@sst S V R P Ws) unit)
  : V -> S -> Z -> S -> @sst S V R P Ws -> outcome unit * (V * @sst S V R P Ws) :=
  fun y t k dt g => let '(r, g') := step t k dt (put_ode y g) in (r, (t_y g', g')).
Definition arb_fn {S V W Ws} (step : S -> Z -> S -> cmd (@ast S V W Ws) unit)
  : V -> S -> Z -> S -> @ast S V W Ws -> outcome unit * (V * @ast S V W Ws) :=
  fun y t k dt g => let '(r, g') := step t k dt (put_arb y g) in (r, (a_y g', g')).

(** ** Kinds of nonlinear solvers *)
Section Solvers.
  Context {V R J Ws : Type}.
  (** Whatever it is told, it ends as [P] says. *)
  Fixpoint ends (P : outcome unit -> Prop) (s : sol V R J Ws) : Prop :=
    match s with
    | SEnd r _ _ => P r
    | SCall _ _ _ k => forall e r j, ends P (k e r j)
    end.
  (** It returns normally only with a state at which it was given a residual
      that [Acc] accepts ([ok]: the states for which this is known so far). *)
  Fixpoint certified (Acc : R -> Prop) (ok : V -> Prop) (s : sol V R J Ws) : Prop :=
    match s with
    | SEnd (Ok _) y _ => ok y
    | SEnd _ _ _ => True
    | SCall y _ _ k => forall e r j,
        certified Acc (match e with Ok _ => fun z => (z = y /\ Acc r) \/ ok z | _ => ok end) (k e r j)
    end.
  (** A residual failure it is told of becomes NonlinearSolveFailure at once; any
      other exception passes through. *)
  Fixpoint forwards (s : sol V R J Ws) : Prop :=
    match s with
    | SEnd _ _ _ => True
    | SCall _ _ _ k => forall e r j,
        match e with
        | Throw EResidualEvaluation => exists y ws, k e r j = SEnd (Throw ENonlinearSolve) y ws
        | Throw x => exists y ws, k e r j = SEnd (Throw x) y ws
        | _ => forwards (k e r j)
        end
    end.
End Solvers.

(** The value of the right-hand side, whenever the user's system returns. *)
Definition rhs_is {S V J W} (u : isys (S:=S) (V:=V) (J:=J) (W:=W)) (f : V -> S -> V) : Prop :=
  forall y t R Jo w f' j' w', is_eval u y t R Jo w = (Ok tt, (f', j', w')) -> f' = f y t.
Definition rhs_mass_is {S V J W} (u : isys (S:=S) (V:=V) (J:=J) (W:=W))
           (M : V -> S -> J) (f : V -> S -> V) : Prop :=
  forall y t M0 f0 Jo w M' f' j' w',
    is_mmeval u y t M0 f0 Jo w = (Ok tt, (M', f', j', w')) -> M' = M y t /\ f' = f y t.

(** A state [y] accepted by a solver that stops when [Acc] holds of the residual;
    [past]: the states accepted before, newest first. *)
Section Accepted.
  Context {S V J : Type} (o : sops S) (vo : vops S V).
  Variable japp : J -> V -> V.
  Variable Acc : V -> Prop.
  Variables (M : V -> S -> J) (f : V -> S -> V).
  Definition accepted_bdf1 (past : list V) (t dt : S) (y : V) : Prop :=
    match past with
    | y_n :: _ => Acc (bdf1_R o vo y_n dt (f y (sadd o t dt)) y)
    | [] => False
    end.
  Definition accepted_bdf2 (past : list V) (t dt : S) (y : V) : Prop :=
    match past with
    | y_n :: y_nm1 :: _ => Acc (bdf2_R o vo y_n y_nm1 dt (f y (sadd o t dt)) y)
    | _ => accepted_bdf1 past t dt y
    end.
  Definition accepted_cn (past : list V) (t dt : S) (y : V) : Prop :=
    match past with
    | y_n :: _ => Acc (cn_R o vo y_n (f y_n t) dt (f y (sadd o t dt)) y)
    | [] => False
    end.
  Definition accepted_bdf1_mm (past : list V) (t dt : S) (y : V) : Prop :=
    match past with
    | y_n :: _ => Acc (bdf1_R_mm o vo japp y_n dt (M y (sadd o t dt)) (f y (sadd o t dt)) y)
    | [] => False
    end.
  Definition accepted_bdf2_mm (past : list V) (t dt : S) (y : V) : Prop :=
    match past with
    | y_n :: y_nm1 :: _ =>
        Acc (bdf2_R_mm o vo japp y_n y_nm1 dt (M y (sadd o t dt)) (f y (sadd o t dt)) y)
    | _ => accepted_bdf1_mm past t dt y
    end.
End Accepted.

(** The Jacobian (and mass matrix) of the user's system, whenever it returns. *)
Definition jac_is {S V J W} (u : isys (S:=S) (V:=V) (J:=J) (W:=W)) (jac : V -> S -> J) : Prop :=
  forall y t R j w f' j' w', is_eval u y t R (Some j) w = (Ok tt, (f', j', w')) -> j' = Some (jac y t).
Definition jac_mass_is {S V J W} (u : isys (S:=S) (V:=V) (J:=J) (W:=W)) (jac : V -> S -> J) : Prop :=
  forall y t M0 f0 j w M' f' j' w',
    is_mmeval u y t M0 f0 (Some j) w = (Ok tt, (M', f', j', w')) -> j' = Some (jac y t).

(** Matrices as linear maps with the identity [jid]. *)
Record matrices {S V J} (vo : vops S V) (jo : vops S J) (jid : J) (japp : J -> V -> V) : Prop := {
  m_add : forall a b x, japp (vadd jo a b) x = vadd vo (japp a x) (japp b x);
  m_scale : forall c a x, japp (vscale jo c a) x = vscale vo c (japp a x);
  m_id : forall x, japp jid x = x;
  m_linear : forall a x y, japp a (vadd vo x y) = vadd vo (japp a x) (japp a y);
  m_linear_scale : forall a c x, japp a (vscale vo c x) = vscale vo c (japp a x)
}.

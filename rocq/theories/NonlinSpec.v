(** Specification of the nonlinear solvers: the textbook iteration as a relation
    between consecutive iterates, and what is reported about it. *)
From Coq Require Import ZArith List Bool.
From Verif Require Import Base NonlinDiag NonlinModel NonlinDiagProofs.
Import ListNotations.
Local Open Scope Z_scope.

(** Norms of correction, residual and gradient, and value of the objective, at one
    iteration. *)
Record meas (S : Type) := mk_meas { m_corr : S; m_res : S; m_grad : S; m_obj : S }.
Arguments mk_meas {S}. Arguments m_corr {S}. Arguments m_res {S}. Arguments m_grad {S}. Arguments m_obj {S}.

(** What a diagnostic reads, given the measurements at the first and at the
    current iteration. *)
Definition reading {S} (o : sops S) (m1 m : meas S) (d : diag) : S :=
  match d with
  | CorrectionAbs => m_corr m
  | CorrectionRel => sdiv o (m_corr m) (m_corr m1)
  | ResidualAbs => m_res m
  | ResidualRel => sdiv o (m_res m) (m_res m1)
  | GradientAbs => m_grad m
  | GradientRel => sdiv o (m_grad m) (m_grad m1)
  | ObjectiveAbs => m_obj m
  | ObjectiveRel => sdiv o (m_obj m) (m_obj m1)
  | InvalidDiag => s0 o
  end.
(** The stop criterion is met at iteration [k]. *)
Definition met {S} (o : sops S) (cf : config S) (k : Z) (m1 m : meas S) : Prop :=
  let below d := sltb o (reading o m1 m d) (f_tol cf) = true in
  match f_stop cf with
  | WhenAbsCorrection => below CorrectionAbs
  | WhenRelCorrection => below CorrectionRel
  | WhenAbsResidual => below ResidualAbs
  | WhenRelResidual => below ResidualRel
  | WhenAbsGradient => below GradientAbs
  | WhenRelGradient => below GradientRel
  | WhenAbsObjective => below ObjectiveAbs
  | WhenRelObjective => below ObjectiveRel
  | AfterMaxIters => k = f_max cf
  end.

(** One iteration: state, residual, Jacobian, solution [d] of the linear problem
    (the correction is -d), and the Levenberg-Marquardt damping and growth
    factor. *)
Record info (S V R J : Type) := mk_info { i_x : V; i_r : R; i_j : J; i_d : V; i_mu : S; i_nu : S }.
Arguments mk_info {S V R J}. Arguments i_x {S V R J}. Arguments i_r {S V R J}. Arguments i_j {S V R J}.
Arguments i_d {S V R J}. Arguments i_mu {S V R J}. Arguments i_nu {S V R J}.

Section Spec.
  Context {S V R J H L : Type}.
  Variable o : sops S.
  Variable no : nlops S V R J H.
  Notation vo := (n_vo no).
  Notation info := (info S V R J).
  Notation point := (V * S * S)%type.    (* state, damping, growth factor *)

  Definition i_c (i : info) : V := vscale vo (sopp o (s1 o)) (i_d i).
  (** x + a c *)
  Definition along (x c : V) (a : S) : V := vadd vo (vscale vo (s1 o) x) (vscale vo a c).

  (** Weights, as functions *)
  Variable wr : R -> R.
  Variable wj : J -> J.
  Definition halved (x : S) : S := smul o x (sdiv o (s1 o) (sZ o 2)).
  Definition ls_objective (tag : lstag) (r : R) : S :=
    match tag with
    | GaussNewton | GaussNewtonQr | LevMar => halved (smul o (n_rnorm no r) (n_rnorm no r))
    | WeightedGN => halved (n_rdot no r (wr r))
    | CompactWeightedGN => halved (n_rdot no (wr r) (wr r))
    end.
  Definition ls_gradient (tag : lstag) (j : J) (r : R) : V :=
    match tag with
    | GaussNewton | GaussNewtonQr | LevMar => n_jtr no j r
    | WeightedGN => n_jtr no j (wr r)
    | CompactWeightedGN => n_jtr no (wj j) (wr r)
    end.
  Definition ls_matrix (tag : lstag) (mu : S) (j : J) : H :=
    match tag with
    | GaussNewton | GaussNewtonQr => n_jtj no j j
    | WeightedGN => n_jtj no j (wj j)
    | CompactWeightedGN => n_jtj no (wj j) (wj j)
    | LevMar => n_adddiag no (n_jtj no j j) mu
    end.

  (** What is known of the external parts: residuals and Jacobians the system
      returns, and solutions the linear (or QR) solver returns. *)
  Variable gr : V -> R -> Prop.
  Variable gj : V -> J -> Prop.
  Variable glin : H -> V -> V -> Prop.
  Variable gqr : J -> R -> V -> Prop.
  Variable gnewt : J -> R -> V -> Prop.

  Definition ls_valid (tag : lstag) (i : info) : Prop :=
    gr (i_x i) (i_r i) /\ gj (i_x i) (i_j i) /\
    match tag with
    | GaussNewtonQr => gqr (i_j i) (i_r i) (i_d i)
    | _ => glin (ls_matrix tag (i_mu i) (i_j i)) (ls_gradient tag (i_j i) (i_r i)) (i_d i)
    end.
  Definition root_valid (i : info) : Prop :=
    gr (i_x i) (i_r i) /\ gj (i_x i) (i_j i) /\ gnewt (i_j i) (i_r i) (i_d i).
  Definition ls_meas (tag : lstag) (i : info) : meas S :=
    mk_meas (n_norm no (i_c i)) (n_rnorm no (i_r i))
            (n_norm no (ls_gradient tag (i_j i) (i_r i))) (ls_objective tag (i_r i)).
  (** The root finder measures no gradient and no objective. *)
  Definition root_meas (i : info) : meas S :=
    mk_meas (n_norm no (i_c i)) (n_rnorm no (i_r i)) (s0 o) (s0 o).

  (** ** Moves from one iterate to the next. [f]: the objective of a residual. *)
  Variable f : R -> S.
  Definition move_full (i : info) (p : point) : Prop := p = (along (i_x i) (i_c i) (s1 o), i_mu i, i_nu i).
  Fixpoint halvings (n : nat) : S :=
    match n with O => s1 o | Datatypes.S m => smul o (halvings m) (sdiv o (s1 o) (sZ o 2)) end.
  Definition too_small (a : S) : bool := sleb o (sabs o a) (sdiv o (s1 o) (sZ o 1000)).
  (** The test of the backtracking line search with reduction factor [zeta], at
      step length 2^-n: it was carried out and has result [b]. *)
  Definition bt_test (zeta : S) (i : info) (n : nat) (b : bool) : Prop :=
    too_small (halvings n) = false /\
    exists r, gr (along (i_x i) (i_c i) (halvings n)) r /\ sleb o (f r) (smul o zeta (f (i_r i))) = b.
  (** Repeated halving gets to a step length that is too small. *)
  Definition halving_ends : Prop := exists n, (n < 32)%nat /\ too_small (halvings n) = true.
  Definition move_backtrack (zeta : S) (i : info) (p : point) : Prop :=
    exists n, (forall m, (m < n)%nat -> bt_test zeta i m false) /\ bt_test zeta i n true /\
      p = (along (i_x i) (i_c i) (halvings n), i_mu i, i_nu i).
  Definition stuck_backtrack (zeta : S) (i : info) : Prop :=
    exists n, (forall m, (m < n)%nat -> bt_test zeta i m false) /\ too_small (halvings n) = true.
  (** Armijo *)
  Definition armijo_test (slope : S) (i : info) (n : nat) (b : bool) : Prop :=
    too_small (halvings n) = false /\
    exists r, gr (along (i_x i) (i_c i) (halvings n)) r /\
      sleb o (ssub o (f r) (f (i_r i)))
             (smul o (smul o (halvings n) (sdiv o (s1 o) (sZ o 10000))) slope) = b.
  Definition move_armijo (slope : S) (i : info) (p : point) : Prop :=
    exists n, (forall m, (m < n)%nat -> armijo_test slope i m false) /\ armijo_test slope i n true /\
      p = (along (i_x i) (i_c i) (halvings n), i_mu i, i_nu i).
  (** Levenberg-Marquardt: the gain the code computes (see C29), and the two
      damping schedules. *)
  Definition gain (i : info) (r : R) : S :=
    let h := n_jtj no (i_j i) (i_j i) in
    sdiv o (ssub o (f r) (f (i_r i)))
      (smul o (sdiv o (s1 o) (sZ o 2))
        (sadd o (smul o (i_mu i) (n_dot no (i_c i) (n_diagmul no h (i_c i))))
                (n_dot no (i_c i) (n_jtr no (i_j i) (i_r i))))).
  Definition larger (a b : S) : S := if sltb o a b then b else a.
  Definition smaller (a b : S) : S := if sltb o b a then b else a.
  Definition schedule1 (mu nu rho : S) : S * S :=
    if sltb o (s0 o) rho
    then let q := ssub o (smul o (sZ o 2) rho) (s1 o) in
         (smul o mu (larger (sdiv o (s1 o) (sZ o 3))
                            (ssub o (s1 o) (smul o (ssub o (sZ o 2) (s1 o)) (smul o (smul o q q) q)))), sZ o 2)
    else (smul o mu nu, smul o nu (sZ o 2)).
  Definition schedule2 (mu rho : S) : S :=
    let mu' := if sltb o rho (sdiv o (s1 o) (sZ o 5))
               then smaller (smul o mu (sZ o 2)) (sZ o 10000000) else mu in
    if sltb o (sdiv o (sZ o 4) (sZ o 5)) rho
    then larger (sdiv o (s1 o) (sZ o 10000000)) (smul o mu' (sdiv o (s1 o) (sZ o 3))) else mu'.
  Definition lm_state (i : info) (rho : S) : V :=
    if sltb o (s0 o) rho then along (i_x i) (i_c i) (s1 o) else i_x i.
  Definition move_lm1 (i : info) (p : point) : Prop :=
    exists r, gr (along (i_x i) (i_c i) (s1 o)) r /\
      let '(mu, nu) := schedule1 (i_mu i) (i_nu i) (gain i r) in p = (lm_state i (gain i r), mu, nu).
  Definition move_lm2 (i : info) (p : point) : Prop :=
    exists r, gr (along (i_x i) (i_c i) (s1 o)) r /\
      p = (lm_state i (gain i r), schedule2 (i_mu i) (gain i r), i_nu i).

  (** ** Runs
      [steps is p]: the iterations [is], none of which met the criterion, lead from
      [p0] to [p]. *)
  Variable cf : config S.
  Variable valid : info -> Prop.
  Variable measure : info -> meas S.
  Variable move : info -> point -> Prop.
  Variable p0 : point.
  Definition at_point (i : info) (p : point) : Prop := p = (i_x i, i_mu i, i_nu i).
  (** measurements at the first iteration, if [i] comes after [is] *)
  Definition first (is : list info) (i : info) : meas S := measure (hd i is).
  Definition number (is : list info) : Z := Z.of_nat (length is) + 1.
  Inductive steps : list info -> point -> Prop :=
  | steps_nil : steps [] p0
  | steps_snoc is p i p' :
      steps is p -> at_point i p -> valid i ->
      ~ met o cf (number is) (first is i) (measure i) -> move i p' -> steps (is ++ [i]) p'.

  (** What the logger prints at these iterations; [pub]: the diagnostics. *)
  Fixpoint printed_from (pub : list diag) (m1 : meas S) (k : Z) (is : list info) : list (line S V) :=
    match is with
    | [] => []
    | i :: t => mk_line k (i_x i) (map (fun d => (d, reading o m1 (measure i) d)) pub)
                :: printed_from pub m1 (k + 1) t
    end.
  Definition printed (pub : list diag) (is : list info) : list (line S V) :=
    match is with
    | [] => []
    | i :: _ => printed_from pub (measure i) 1 is
    end.

  (** ** How a solve ends
      [fsys], [flin]: the ways in which the system (and weighting operator) and the
      linear solver fail; [ftrial]: how an evaluation at a trial state may. [reports]: whether the termination file is written;
      [file0]: its content before the solve. *)
  Variable stuck : info -> Prop.
  Variable fsys flin ftrial : outcome unit -> Prop.
  Variable residual_failure linesearch_failure : exn -> Prop.
  Variable pub : list diag.
  Variable reports : bool.
  Variable file0 : option report.
  Definition report_of (r : report) : option report := if reports then Some r else file0.

  (** result, point reached, lines printed, content of the file *)
  Inductive solve_ends : outcome unit -> point -> list (line S V) -> option report -> Prop :=
  | ends_converged is i p :
      number is <= f_max cf -> steps is p -> at_point i p -> valid i ->
      met o cf (number is) (first is i) (measure i) ->
      solve_ends (Ok tt) p (printed pub (is ++ [i])) file0
  | ends_stuck is i p e :
      number is <= f_max cf -> steps is p -> at_point i p -> valid i ->
      ~ met o cf (number is) (first is i) (measure i) -> stuck i -> linesearch_failure e ->
      solve_ends (Ok tt) p (printed pub (is ++ [i])) (report_of (RError e))
  | ends_at_max is p :
      Z.of_nat (length is) = Z.max 0 (f_max cf) -> f_max cf < int32_max -> steps is p ->
      solve_ends (Ok tt) p (printed pub is) (match is with [] => file0 | _ => report_of RMaxIters end)
  | ends_overflow is p :
      Z.of_nat (length is) = int32_max -> int32_max <= f_max cf -> steps is p ->
      solve_ends (Undef UIntOverflow) p (printed pub is)
                 (if f_max cf <=? int32_max then report_of RMaxIters else file0)
  | ends_residual_failure is p e :
      number is <= f_max cf -> steps is p -> residual_failure e -> fsys (Throw e) ->
      solve_ends (Throw ENonlinearSolve) p (printed pub is) (report_of (RError e))
  | ends_system_failure is p r :
      number is <= f_max cf -> steps is p -> r <> Ok tt -> fsys r ->
      (forall e, r = Throw e -> ~ residual_failure e) ->
      solve_ends r p (printed pub is) file0
  | ends_linear_failure is p r :
      number is <= f_max cf -> steps is p -> r <> Ok tt -> flin r ->
      solve_ends r p (printed pub is) file0
  | ends_trial_failure is i p r :
      number is <= f_max cf -> steps is p -> at_point i p -> valid i ->
      ~ met o cf (number is) (first is i) (measure i) -> r <> Ok tt -> ftrial r ->
      solve_ends r p (printed pub (is ++ [i]))
                 (if f_max cf <=? number is then report_of RMaxIters else file0).
End Spec.

(** The update rules a least-squares solve follows, by [Update] setting. *)
Section Rules.
  Context {S V R J H : Type}.
  Variable o : sops S.
  Variable no : nlops S V R J H.
  Variable gr : V -> R -> Prop.
  Definition reduction_factor (cf : config S) : S :=
    match f_params cf with Some (z :: _) => z | _ => s1 o end.
  Definition ls_move (f : R -> S) (cf : config S) : info S V R J -> V * S * S -> Prop :=
    match f_update cf with
    | UStandard => move_full o no
    | UBacktrack | UArmijo => move_backtrack o no gr f (reduction_factor cf)
    | ULMSchedule1 => move_lm1 o no gr f
    | ULMSchedule2 => move_lm2 o no gr f
    | UCustom => fun _ _ => False
    end.
  Definition line_search_stuck (f : R -> S) (cf : config S) : info S V R J -> Prop :=
    match f_update cf with
    | UBacktrack | UArmijo => stuck_backtrack o no gr f (reduction_factor cf)
    | _ => fun _ => False
    end.
  (** The standard update evaluates nothing; the others evaluate the residual at
      trial states. *)
  Definition trial_failures (cf : config S) (fsys : outcome unit -> Prop) : outcome unit -> Prop :=
    match f_update cf with UStandard => fun _ => False | _ => fsys end.
  (** Settings that make sense *)
  Definition ls_supported (tag : lstag) (cf : config S) : Prop :=
    match f_update cf with
    | UStandard => True
    | UBacktrack | UArmijo => f_params cf <> Some []
    | ULMSchedule1 | ULMSchedule2 => tag = LevMar
    | UCustom => False
    end.
  Definition root_supported (cf : config S) : Prop :=
    match f_update cf with
    | UStandard => True
    | UBacktrack => f_params cf <> Some []
    | _ => False
    end /\
    match f_stop cf with
    | WhenAbsCorrection | WhenRelCorrection | WhenAbsResidual | WhenRelResidual => True
    | _ => False
    end.
  (** Levenberg-Marquardt starts with damping 1 and growth factor 2. *)
  Definition start (tag : lstag) (cf : config S) (x : V) (mu nu : S) : V * S * S :=
    (x, match tag with LevMar => sZ o 1 | _ => mu end,
        match f_update cf with ULMSchedule1 => sZ o 2 | _ => nu end).
  Definition residual_exn (e : exn) : Prop := e = EResidualEvaluation \/ e = EResidualHasNans.
  Definition linesearch_exn (e : exn) : Prop := e = ELineSearchStepTooSmall \/ e = ELineSearchObjChangeTooSmall.
End Rules.

(** ** What a user sees of a solve: the printed lines *)
Definition value_of {S V} (d : diag) (l : line S V) : option S :=
  match find (fun p => diag_eqb d (fst p)) (l_vals l) with Some p => Some (snd p) | None => None end.
(** the metric a stop criterion is about *)
Definition named (st : stop) : option diag :=
  match st with
  | WhenAbsCorrection => Some CorrectionAbs
  | WhenRelCorrection => Some CorrectionRel
  | WhenAbsResidual => Some ResidualAbs
  | WhenRelResidual => Some ResidualRel
  | WhenAbsGradient => Some GradientAbs
  | WhenRelGradient => Some GradientRel
  | WhenAbsObjective => Some ObjectiveAbs
  | WhenRelObjective => Some ObjectiveRel
  | AfterMaxIters => None
  end.
(** the stop criterion holds of what was printed *)
Definition line_met {S V} (o : sops S) (cf : config S) (l : line S V) : Prop :=
  match named (f_stop cf) with
  | None => l_iter l = f_max cf
  | Some d => exists v, value_of d l = Some v /\ sltb o v (f_tol cf) = true
  end.
(** [x0]: initial state, [r]: result, [x]: state returned, [ls]: lines printed *)
Record well_run {S V} (o : sops S) (cf : config S) (gave_up : V -> Prop)
       (x0 : V) (r : outcome unit) (x : V) (ls : list (line S V)) : Prop := {
  wr_numbers : map l_iter ls = map (fun n => Z.of_nat n + 1) (seq 0 (length ls));
  wr_bound : Z.of_nat (length ls) <= Z.max 0 (f_max cf);
  wr_start : forall l t, ls = l :: t -> l_state l = x0;
  wr_none : ls = [] -> x = x0;
  wr_earlier : forall a l b, ls = a ++ l :: b -> b <> [] -> ~ line_met o cf l;
  wr_exit : r = Ok tt ->
    (exists a l, ls = a ++ [l] /\ l_state l = x /\
       (line_met o cf l \/ (~ line_met o cf l /\ gave_up x))) \/
    (Z.of_nat (length ls) = Z.max 0 (f_max cf) /\ forall l, In l ls -> ~ line_met o cf l) }.
(** relative values are with respect to the first line *)
Definition relative_of (d : diag) : option diag :=
  match d with
  | CorrectionRel => Some CorrectionAbs | ResidualRel => Some ResidualAbs
  | GradientRel => Some GradientAbs | ObjectiveRel => Some ObjectiveAbs
  | _ => None
  end.
Definition relative_to_first {S V} (o : sops S) (pub : list diag) (ls : list (line S V)) : Prop :=
  forall l1 t l dr da, ls = l1 :: t -> In l ls -> In dr pub -> relative_of dr = Some da ->
    exists v1 v, value_of da l1 = Some v1 /\ value_of da l = Some v /\ value_of dr l = Some (sdiv o v v1).

(** ** Assumptions about the external parts
    [gr], [gj]: residuals and Jacobians the system returns when it returns normally;
    [wr], [wj]: what the weighting operator computes; [glin], [gqr], [gnewt]: what is
    known of the output of the linear solvers; [fsys], [flin]: possible failures. *)
Section External.
  Context {S V R J H L W : Type}.
  Variable xt : exts V R J H L.
  Variable sys : V -> R -> option J -> W -> outcome unit -> R -> option J -> W -> Prop.
  Variable wr : R -> R.
  Variable wj : J -> J.
  Variable gr : V -> R -> Prop.
  Variable gj : V -> J -> Prop.
  Variable glin : H -> V -> V -> Prop.
  Variable gqr : J -> R -> V -> Prop.
  Variable gnewt : J -> R -> V -> Prop.
  Variable fsys flin : outcome unit -> Prop.
  Record sys_ok : Prop := {
    sk_r : forall y r j w r' j' w', sys y r j w (Ok tt) r' j' w' -> gr y r';
    sk_j : forall y r j w r' j' w', sys y r (Some j) w (Ok tt) r' j' w' ->
             gj y (match j' with Some a => a | None => j end);
    sk_f : forall y r j w e r' j' w', sys y r j w e r' j' w' -> e <> Ok tt -> fsys e }.
  Record weights_ok : Prop := {
    wk_r : forall r v l v' l', x_wr xt r v l = (Ok tt, (v', l')) -> v' = wr r;
    wk_j : forall j v l v' l', x_wj xt j v l = (Ok tt, (v', l')) -> v' = wj j;
    wk_fr : forall r v l e z, x_wr xt r v l = (e, z) -> e <> Ok tt -> fsys e;
    wk_fj : forall j v l e z, x_wj xt j v l = (e, z) -> e <> Ok tt -> fsys e }.
  Record linear_ok : Prop := {
    lk_lin : forall h g c l d l', x_normal xt h g c l = (Ok tt, (d, l')) -> glin h g d;
    lk_qr : forall j r v c l l1 q l2 d l3,
      x_thin xt j l = (Ok tt, l1) -> x_qtr xt r v l1 = (Ok tt, (q, l2)) ->
      x_rsolve xt q c l2 = (Ok tt, (d, l3)) -> gqr j r d;
    lk_newt : forall j r c l d l', x_newton xt j r c l = (Ok tt, (d, l')) -> gnewt j r d;
    lk_f1 : forall h g c l e z, x_normal xt h g c l = (e, z) -> e <> Ok tt -> flin e;
    lk_f2 : forall j l e z, x_thin xt j l = (e, z) -> e <> Ok tt -> flin e;
    lk_f3 : forall j l0 r v l e z, x_thin xt j l0 = (Ok tt, l) -> x_qtr xt r v l = (e, z) -> e <> Ok tt -> flin e;
    lk_f4 : forall j l0 r v l1 q c l e z, x_thin xt j l0 = (Ok tt, l1) -> x_qtr xt r v l1 = (Ok tt, (q, l)) ->
      x_rsolve xt q c l = (e, z) -> e <> Ok tt -> flin e;
    lk_f5 : forall j r c l e z, x_newton xt j r c l = (e, z) -> e <> Ok tt -> flin e }.
End External.
Arguments sk_r {V R J W sys gr gj fsys}.
Arguments sk_j {V R J W sys gr gj fsys}.
Arguments sk_f {V R J W sys gr gj fsys}.
Arguments wk_r {V R J H L xt wr wj fsys}.
Arguments wk_j {V R J H L xt wr wj fsys}.
Arguments wk_fr {V R J H L xt wr wj fsys}.
Arguments wk_fj {V R J H L xt wr wj fsys}.
Arguments lk_lin {V R J H L xt glin gqr gnewt flin}.
Arguments lk_qr {V R J H L xt glin gqr gnewt flin}.
Arguments lk_newt {V R J H L xt glin gqr gnewt flin}.
Arguments lk_f1 {V R J H L xt glin gqr gnewt flin}.
Arguments lk_f2 {V R J H L xt glin gqr gnewt flin}.
Arguments lk_f3 {V R J H L xt glin gqr gnewt flin}.
Arguments lk_f4 {V R J H L xt glin gqr gnewt flin}.
Arguments lk_f5 {V R J H L xt glin gqr gnewt flin}.

(** A least-squares solver object made by create_gauss_newton_solver or
    create_levenberg_marquardt_solver, new or used; a root finder made by
    create_newton_solver, new or used. *)
Definition ls_object {S V R J H L} (o : sops S) (s : reg S V R J H L) : Prop :=
  same_names (make_container o ls_diags) (g_diags s).
Definition root_object {S V R J H L} (o : sops S) (s : reg S V R J H L) : Prop :=
  same_names (make_container o root_diags) (g_diags s).

(** ** Vocabulary for statements about executions *)
Section Vocabulary.
  Context {V R J W : Type}.
  Variable rj : V -> R -> option J -> W -> outcome unit * (R * option J * W).
  (** the system may return residual [r'], Jacobian [j'], at [y] *)
  Definition returns_r (y : V) (r' : R) : Prop :=
    exists r j w j' w', rj y r j w = (Ok tt, (r', j', w')).
  Definition returns_j (y : V) (j' : J) : Prop :=
    exists r j w r' jo w', rj y r (Some j) w = (Ok tt, (r', jo, w')) /\
      j' = match jo with Some a => a | None => j end.
  (** any failure but the exceptions reserved to the line search *)
  Definition no_linesearch (r : outcome unit) : Prop :=
    match r with Throw e => ~ linesearch_exn e | _ => True end.
  Definition anything (r : outcome unit) : Prop := True.
  Definition nothing (r : outcome unit) : Prop := False.
  Definition plain_system : Prop := forall y r j w e z, rj y r j w = (e, z) -> no_linesearch e.
  (** a system that computes [F] and [DF] and does not fail *)
  Definition computes (F : V -> R) (DF : V -> J) : Prop :=
    forall y r j w, exists j' w', rj y r j w = (Ok tt, (F y, j', w')) /\
      match j with Some _ => j' = Some (DF y) | None => True end.
End Vocabulary.
(** at most [n] calls to the system, whatever it answers *)
Fixpoint calls_at_most {V R J X} (t : ptree V R J X) (n : nat) : Prop :=
  match t with
  | PDone _ => True
  | PCall _ _ _ k => match n with O => False | Datatypes.S m => forall e r j, calls_at_most (k e r j) m end
  end.
(** 2^-10 is the first step length that is too small *)
Definition ten_halvings {S} (o : sops S) : Prop :=
  too_small o (halvings o 10) = true /\ forall n, (n < 10)%nat -> too_small o (halvings o n) = false.

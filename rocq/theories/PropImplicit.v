(** C14 - C20, C46 - C48: implicit steppers. *)
From Coq Require Import ZArith List Bool Reals QArith Qcanon.
From Verif Require Import Base QcInst RInst Laws LawInst AdvanceModel AdvanceSpec ExplicitModel ExplicitExtra ImplicitModel
  ImplicitSpec ImplicitProofs ImplicitRefine ImplicitExtra ImplicitRun ImplicitMore ImplicitClaims
  ImplicitWitness Track.
Import ListNotations.
Local Open Scope Z_scope.

(** C14. *)
Theorem C14_residual_bdf1 :
  forall (S V J W : Type) (o : sops S) (vo : vops S V) (jo : vops S J) (jid : J)
    (u : isys (S:=S) (V:=V) (J:=J) (W:=W)),
  sfield o -> vspace o vo -> vspace o jo -> forall f : V -> S -> V, rhs_is u f ->
  forall y_n st t k dt y R Jo g r jo' g',
  std_rj (policy_std o vo jo jid u) BDF1 (y_n :: st) t k dt y R Jo g = (Ok tt, (r, jo', g')) ->
  (r = vzero vo <-> bdf1_eq vo (fun x => f x t) y_n dt y).
Proof. exact (fun S V J W o vo jo jid u HF HV HJ f => root_shown_bdf1 o vo jo jid u HF HV HJ f (fun _ _ => jid)). Qed.
Print Assumptions C14_residual_bdf1.

Theorem C14_residual_bdf2_first_step :
  forall (S V J W : Type) (o : sops S) (vo : vops S V) (jo : vops S J) (jid : J)
    (u : isys (S:=S) (V:=V) (J:=J) (W:=W)),
  sfield o -> vspace o vo -> vspace o jo -> forall f : V -> S -> V, rhs_is u f ->
  forall y_n st t dt y R Jo g r jo' g',
  std_rj (policy_std o vo jo jid u) BDF2 (y_n :: st) t 1 dt y R Jo g = (Ok tt, (r, jo', g')) ->
  (r = vzero vo <-> bdf1_eq vo (fun x => f x t) y_n dt y).
Proof. exact (fun S V J W o vo jo jid u HF HV HJ f => root_shown_bdf2_first o vo jo jid u HF HV HJ f (fun _ _ => jid)). Qed.
Print Assumptions C14_residual_bdf2_first_step.

Theorem C14_residual_bdf2 :
  forall (S V J W : Type) (o : sops S) (vo : vops S V) (jo : vops S J) (jid : J)
    (u : isys (S:=S) (V:=V) (J:=J) (W:=W)),
  sfield o -> schar0 o -> vspace o vo -> vspace o jo -> forall f : V -> S -> V, rhs_is u f ->
  forall y_n y_nm1 st t k dt y R Jo g r jo' g', k <> 1 ->
  std_rj (policy_std o vo jo jid u) BDF2 (y_n :: y_nm1 :: st) t k dt y R Jo g = (Ok tt, (r, jo', g')) ->
  (r = vzero vo <-> bdf2_eq o vo (fun x => f x t) y_n y_nm1 dt y).
Proof. exact (fun S V J W o vo jo jid u HF HC HV HJ f => root_shown_bdf2 o vo jo jid u HF HC HV HJ f (fun _ _ => jid)). Qed.
Print Assumptions C14_residual_bdf2.

(** [pp_trk] is the number of the last step seen by the policy object. *)
Theorem C14_residual_crank_nicolson :
  forall (S V J W : Type) (o : sops S) (vo : vops S V) (jo : vops S J) (jid : J)
    (u : isys (S:=S) (V:=V) (J:=J) (W:=W)),
  sfield o -> schar0 o -> vspace o vo -> vspace o jo -> forall f : V -> S -> V, rhs_is u f ->
  forall y_n st t k dt y R Jo g r jo' g', pp_trk (snd g) <> k ->
  std_rj (policy_std o vo jo jid u) CrankNicolson (y_n :: st) t k dt y R Jo g = (Ok tt, (r, jo', g')) ->
  (r = vzero vo <-> cn_eq o vo (f y_n (ssub o t dt)) (fun x => f x t) y_n dt y).
Proof. exact (fun S V J W o vo jo jid u HF HC HV HJ f => root_shown_cn o vo jo jid u HF HC HV HJ f (fun _ _ => jid)). Qed.
Print Assumptions C14_residual_crank_nicolson.

Theorem C14_residual_bdf1_mass_matrix :
  forall (S V J W : Type) (o : sops S) (vo : vops S V) (jo : vops S J) (japp : J -> V -> V)
    (u : isys (S:=S) (V:=V) (J:=J) (W:=W)),
  sfield o -> vspace o vo -> vspace o jo -> forall (f : V -> S -> V) (M : V -> S -> J), rhs_mass_is u M f ->
  forall y_n st t k dt y R Jo g r jo' g',
  std_rj (policy_mm o vo jo japp u) BDF1 (y_n :: st) t k dt y R Jo g = (Ok tt, (r, jo', g')) ->
  (r = vzero vo <-> japp (M y t) (vminus o vo y y_n) = vscale vo dt (f y t)).
Proof. exact (fun S V J W o vo jo japp u HF HV HJ f M => root_shown_bdf1_mm o vo jo japp u HF HV HJ f M M). Qed.
Print Assumptions C14_residual_bdf1_mass_matrix.

Theorem C14_residual_bdf2_mass_matrix_first_step :
  forall (S V J W : Type) (o : sops S) (vo : vops S V) (jo : vops S J) (japp : J -> V -> V)
    (u : isys (S:=S) (V:=V) (J:=J) (W:=W)),
  sfield o -> vspace o vo -> vspace o jo -> forall (f : V -> S -> V) (M : V -> S -> J), rhs_mass_is u M f ->
  forall y_n st t dt y R Jo g r jo' g',
  std_rj (policy_mm o vo jo japp u) BDF2 (y_n :: st) t 1 dt y R Jo g = (Ok tt, (r, jo', g')) ->
  (r = vzero vo <-> japp (M y t) (vminus o vo y y_n) = vscale vo dt (f y t)).
Proof. exact (fun S V J W o vo jo japp u HF HV HJ f M => root_shown_bdf2_mm_first o vo jo japp u HF HV HJ f M M). Qed.
Print Assumptions C14_residual_bdf2_mass_matrix_first_step.

Theorem C14_residual_bdf2_mass_matrix :
  forall (S V J W : Type) (o : sops S) (vo : vops S V) (jo : vops S J) (japp : J -> V -> V)
    (u : isys (S:=S) (V:=V) (J:=J) (W:=W)),
  sfield o -> schar0 o -> vspace o vo -> vspace o jo ->
  forall (f : V -> S -> V) (M : V -> S -> J), rhs_mass_is u M f ->
  forall y_n y_nm1 st t k dt y R Jo g r jo' g', k <> 1 ->
  std_rj (policy_mm o vo jo japp u) BDF2 (y_n :: y_nm1 :: st) t k dt y R Jo g = (Ok tt, (r, jo', g')) ->
  (r = vzero vo <->
   japp (M y t) (vadd vo (vminus o vo y (vscale vo (frac o 4 3) y_n)) (vscale vo (frac o 1 3) y_nm1))
   = vscale vo (smul o (frac o 2 3) dt) (f y t)).
Proof. exact (fun S V J W o vo jo japp u HF HC HV HJ f M => root_shown_bdf2_mm o vo jo japp u HF HC HV HJ f M M). Qed.
Print Assumptions C14_residual_bdf2_mass_matrix.

(** C15. *)
Theorem C15_jacobian_bdf1 :
  forall (V J W : Type) (eps0 : R) (vo : vops R V) (jo : vops R J) (jid : J) (japp : J -> V -> V)
    (norm : V -> R) (u : isys (S:=R) (V:=V) (J:=J) (W:=W)),
  vspace (Rops eps0) vo -> vspace (Rops eps0) jo -> matrices vo jo jid japp -> normed vo norm ->
  forall (f : V -> R -> V) (jac : V -> R -> J),
  (forall y t, derivative vo norm (fun x => f x t) y (japp (jac y t))) ->
  forall y_n st t k dt y Rb j0 g r jo' g', rhs_is u f -> jac_is u jac ->
  std_rj (policy_std (Rops eps0) vo jo jid u) BDF1 (y_n :: st) t k dt y Rb (Some j0) g = (Ok tt, (r, jo', g')) ->
  exists a, jo' = Some a /\ r = bdf1_R (Rops eps0) vo y_n dt (f y t) y /\
    derivative vo norm (fun x => bdf1_R (Rops eps0) vo y_n dt (f x t) x) y (japp a).
Proof. exact @shown_derivative_bdf1. Qed.
Print Assumptions C15_jacobian_bdf1.

Theorem C15_jacobian_bdf2 :
  forall (V J W : Type) (eps0 : R) (vo : vops R V) (jo : vops R J) (jid : J) (japp : J -> V -> V)
    (norm : V -> R) (u : isys (S:=R) (V:=V) (J:=J) (W:=W)),
  vspace (Rops eps0) vo -> vspace (Rops eps0) jo -> matrices vo jo jid japp -> normed vo norm ->
  forall (f : V -> R -> V) (jac : V -> R -> J),
  (forall y t, derivative vo norm (fun x => f x t) y (japp (jac y t))) ->
  forall y_n y_nm1 st t k dt y Rb j0 g r jo' g', rhs_is u f -> jac_is u jac -> k <> 1 ->
  std_rj (policy_std (Rops eps0) vo jo jid u) BDF2 (y_n :: y_nm1 :: st) t k dt y Rb (Some j0) g
    = (Ok tt, (r, jo', g')) ->
  exists a, jo' = Some a /\ r = bdf2_R (Rops eps0) vo y_n y_nm1 dt (f y t) y /\
    derivative vo norm (fun x => bdf2_R (Rops eps0) vo y_n y_nm1 dt (f x t) x) y (japp a).
Proof. exact @shown_derivative_bdf2. Qed.
Print Assumptions C15_jacobian_bdf2.

(** [f_n] is the right-hand side the object holds for the start of the step. *)
Theorem C15_jacobian_crank_nicolson :
  forall (V J W : Type) (eps0 : R) (vo : vops R V) (jo : vops R J) (jid : J) (japp : J -> V -> V)
    (norm : V -> R) (u : isys (S:=R) (V:=V) (J:=J) (W:=W)),
  vspace (Rops eps0) vo -> vspace (Rops eps0) jo -> matrices vo jo jid japp -> normed vo norm ->
  forall (f : V -> R -> V) (jac : V -> R -> J),
  (forall y t, derivative vo norm (fun x => f x t) y (japp (jac y t))) ->
  forall y_n st t k dt y Rb j0 g r jo' g', rhs_is u f -> jac_is u jac ->
  std_rj (policy_std (Rops eps0) vo jo jid u) CrankNicolson (y_n :: st) t k dt y Rb (Some j0) g
    = (Ok tt, (r, jo', g')) ->
  exists a f_n, jo' = Some a /\ nth_error (fst g') 1 = Some f_n /\
    r = cn_R (Rops eps0) vo y_n f_n dt (f y t) y /\
    derivative vo norm (fun x => cn_R (Rops eps0) vo y_n f_n dt (f x t) x) y (japp a).
Proof. exact @shown_derivative_cn. Qed.
Print Assumptions C15_jacobian_crank_nicolson.

Theorem C15_jacobian_bdf1_mass_matrix :
  forall (V J W : Type) (eps0 : R) (vo : vops R V) (jo : vops R J) (jid : J) (japp : J -> V -> V)
    (norm : V -> R) (u : isys (S:=R) (V:=V) (J:=J) (W:=W)),
  vspace (Rops eps0) vo -> vspace (Rops eps0) jo -> matrices vo jo jid japp -> normed vo norm ->
  forall (f : V -> R -> V) (jac : V -> R -> J),
  (forall y t, derivative vo norm (fun x => f x t) y (japp (jac y t))) ->
  forall (M : R -> J) y_n st t k dt y Rb j0 g r jo' g', rhs_mass_is u (fun _ => M) f -> jac_mass_is u jac ->
  std_rj (policy_mm (Rops eps0) vo jo japp u) BDF1 (y_n :: st) t k dt y Rb (Some j0) g
    = (Ok tt, (r, jo', g')) ->
  exists a, jo' = Some a /\ r = bdf1_R_mm (Rops eps0) vo japp y_n dt (M t) (f y t) y /\
    derivative vo norm (fun x => bdf1_R_mm (Rops eps0) vo japp y_n dt (M t) (f x t) x) y (japp a).
Proof. exact @shown_derivative_bdf1_mm. Qed.
Print Assumptions C15_jacobian_bdf1_mass_matrix.

Theorem C15_jacobian_bdf2_mass_matrix :
  forall (V J W : Type) (eps0 : R) (vo : vops R V) (jo : vops R J) (jid : J) (japp : J -> V -> V)
    (norm : V -> R) (u : isys (S:=R) (V:=V) (J:=J) (W:=W)),
  vspace (Rops eps0) vo -> vspace (Rops eps0) jo -> matrices vo jo jid japp -> normed vo norm ->
  forall (f : V -> R -> V) (jac : V -> R -> J),
  (forall y t, derivative vo norm (fun x => f x t) y (japp (jac y t))) ->
  forall (M : R -> J) y_n y_nm1 st t k dt y Rb j0 g r jo' g',
  rhs_mass_is u (fun _ => M) f -> jac_mass_is u jac -> k <> 1 ->
  std_rj (policy_mm (Rops eps0) vo jo japp u) BDF2 (y_n :: y_nm1 :: st) t k dt y Rb (Some j0) g
    = (Ok tt, (r, jo', g')) ->
  exists a, jo' = Some a /\ r = bdf2_R_mm (Rops eps0) vo japp y_n y_nm1 dt (M t) (f y t) y /\
    derivative vo norm (fun x => bdf2_R_mm (Rops eps0) vo japp y_n y_nm1 dt (M t) (f x t) x) y (japp a).
Proof. exact @shown_derivative_bdf2_mm. Qed.
Print Assumptions C15_jacobian_bdf2_mass_matrix.

(** C16. *)
Theorem C16_every_schedule_has_a_history :
  forall (S V R J Ws Q : Type) (o : sops S) (solver : Ws -> V -> sol V R J Ws)
    (problem : list V -> prun S V -> S -> V -> R -> option J -> Q -> outcome unit * (R * option J * Q))
    evs rn tape ws q, live rn ->
  exists pre suf res rn' tape' ws' q', evs = pre ++ suf /\
    history o solver problem rn tape ws q pre res rn' tape' ws' q' /\
    (suf = [] \/ rn' = None /\ exists dt suf', suf = Attempt dt :: suf').
Proof. exact @history_exists. Qed.
Print Assumptions C16_every_schedule_has_a_history.

Theorem C16_history_bdf1 :
  forall (S V J W Ws : Type) (o : sops S) (vo : vops S V) (jo : vops S J) (jid : J)
    (u : isys (S:=S) (V:=V) (J:=J) (W:=W)) (solver : Ws -> V -> sol V V J Ws),
  sfield o -> vspace o vo -> vspace o jo ->
  forall cs cr p y0 ws g, implicit_create o BDF1 cs cr p y0 ws = Ok g ->
  forall evs res rn' tape' ws' w',
  history o solver (problem_bdf1 o vo jo jid u) None [] ws (pp_w p) evs res rn' tape' ws' w' ->
  forall t k, exists g',
    perform o (implicit_step o (policy_std o vo jo jid u) solver BDF1) put_ode t_y evs t k g = (res, g') /\
    t_ws g' = ws' /\ pp_w (t_p g') = w'.
Proof. exact @bdf1_history. Qed.
Print Assumptions C16_history_bdf1.

Theorem C16_history_bdf1_mass_matrix :
  forall (S V J W Ws : Type) (o : sops S) (vo : vops S V) (jo : vops S J) (japp : J -> V -> V)
    (u : isys (S:=S) (V:=V) (J:=J) (W:=W)) (solver : Ws -> V -> sol V V J Ws),
  sfield o -> vspace o vo -> vspace o jo ->
  forall cs cr p y0 ws g, implicit_create o BDF1 cs cr p y0 ws = Ok g ->
  forall evs res rn' tape' ws' q',
  history o solver (problem_bdf1_mm o vo jo japp u) None [] ws (mp_M p, mp_f p, mp_w p) evs res rn' tape' ws' q' ->
  forall t k, exists g',
    perform o (implicit_step o (policy_mm o vo jo japp u) solver BDF1) put_ode t_y evs t k g = (res, g') /\
    t_ws g' = ws' /\ (mp_M (t_p g'), mp_f (t_p g'), mp_w (t_p g')) = q'.
Proof. exact @bdf1_mm_history. Qed.
Print Assumptions C16_history_bdf1_mass_matrix.

Theorem C16_history_bdf2 :
  forall (S V J W Ws : Type) (o : sops S) (vo : vops S V) (jo : vops S J) (jid : J)
    (u : isys (S:=S) (V:=V) (J:=J) (W:=W)) (solver : Ws -> V -> sol V V J Ws),
  sfield o -> schar0 o -> vspace o vo -> vspace o jo ->
  forall cs cr p y0 ws g, implicit_create o BDF2 cs cr p y0 ws = Ok g ->
  forall evs res rn' tape' ws' w',
  history o solver (problem_bdf2 o vo jo jid u) None [] ws (pp_w p) evs res rn' tape' ws' w' ->
  forall t k, exists g',
    perform o (implicit_step o (policy_std o vo jo jid u) solver BDF2) put_ode t_y evs t k g = (res, g') /\
    t_ws g' = ws' /\ pp_w (t_p g') = w'.
Proof. exact @bdf2_history. Qed.
Print Assumptions C16_history_bdf2.

Theorem C16_history_bdf2_mass_matrix :
  forall (S V J W Ws : Type) (o : sops S) (vo : vops S V) (jo : vops S J) (japp : J -> V -> V)
    (u : isys (S:=S) (V:=V) (J:=J) (W:=W)) (solver : Ws -> V -> sol V V J Ws),
  sfield o -> schar0 o -> vspace o vo -> vspace o jo ->
  forall cs cr p y0 ws g, implicit_create o BDF2 cs cr p y0 ws = Ok g ->
  forall evs res rn' tape' ws' q',
  history o solver (problem_bdf2_mm o vo jo japp u) None [] ws (mp_M p, mp_f p, mp_w p) evs res rn' tape' ws' q' ->
  forall t k, exists g',
    perform o (implicit_step o (policy_mm o vo jo japp u) solver BDF2) put_ode t_y evs t k g = (res, g') /\
    t_ws g' = ws' /\ (mp_M (t_p g'), mp_f (t_p g'), mp_w (t_p g')) = q'.
Proof. exact @bdf2_mm_history. Qed.
Print Assumptions C16_history_bdf2_mass_matrix.

Theorem C16_history_fully_discrete :
  forall (S V R J W Ws : Type) (o : sops S)
    (du : Z -> S -> S -> R -> option J -> V -> list V -> W -> outcome unit * (R * option J * W))
    (solver : Ws -> V -> sol V R J Ws) (n : nat) (tape : list V) (rc y0 : V) (tm d : S) (sp : Z) (w : W) (ws : Ws),
  (n = 1 \/ n = 2 \/ n = 3)%nat -> length tape = n ->
  forall evs res rn' tape' ws' w',
  history o solver (problem_arb o du n) None tape ws w evs res rn' tape' ws' w' ->
  forall t k, exists g',
    perform o (arb_step o du solver n) put_arb a_y evs t k (mk_ast y0 tape rc tm d sp w ws) = (res, g') /\
    a_ws g' = ws' /\ a_w g' = w'.
Proof. exact @arb_history. Qed.
Print Assumptions C16_history_fully_discrete.

(** C17. [ends]: the nonlinear solver itself does not throw TimeStepFailure. *)
Theorem C17_failed_step_restores_the_state :
  forall (S V R J P Ws : Type) (o : sops S) (pol : policy S V R J P) (solver : Ws -> V -> sol V R J Ws),
  (forall ws y, ends (fun r => r <> Throw ETimeStep) (solver ws y)) ->
  forall name n m t k dt (g g1 : @sst S V R P Ws), implicit_sizes name = Ok (n, m) -> length (t_st g) = n ->
  implicit_step o pol solver name t k dt g = (Throw ETimeStep, g1) ->
  t_y g1 = t_y g /\
  forall t' dt' tm d sp,
    implicit_step o pol solver name t' k dt' g1 =
    implicit_step o pol solver name t' k dt' (mk_sst (t_y g) (t_st g) (t_fs g1) tm d sp (t_p g1) (t_ws g1)).
Proof. exact @std_strong. Qed.
Print Assumptions C17_failed_step_restores_the_state.

Theorem C17_solve_failure_is_translated :
  forall (S V R J P Ws : Type) (o : sops S) (pol : policy S V R J P) (solver : Ws -> V -> sol V R J Ws)
    name t k dt (g : @sst S V R P Ws),
  fst (implicit_step o pol solver name t k dt g) <> Throw ENonlinearSolve.
Proof. exact @std_translates. Qed.
Print Assumptions C17_solve_failure_is_translated.

Theorem C17_fully_discrete :
  forall (S V R J W Ws : Type) (o : sops S)
    (du : Z -> S -> S -> R -> option J -> V -> list V -> W -> outcome unit * (R * option J * W))
    (solver : Ws -> V -> sol V R J Ws),
  (forall ws y, ends (fun r => r <> Throw ETimeStep) (solver ws y)) ->
  forall n t k dt (g g1 : @ast S V W Ws), (n = 1 \/ n = 2 \/ n = 3)%nat -> length (a_st g) = n ->
  arb_step o du solver n t k dt g = (Throw ETimeStep, g1) ->
  a_y g1 = a_y g /\ a_st g1 = a_st g /\
  forall t' dt' rc tm d sp,
    arb_step o du solver n t' k dt' g1 =
    arb_step o du solver n t' k dt' (mk_ast (a_y g) (a_st g) rc tm d sp (a_w g1) (a_ws g1)).
Proof. exact @arb_strong. Qed.
Print Assumptions C17_fully_discrete.

(** C18 is false: the state passed in is lost ... *)
Theorem C18_state_refuted :
  wsst BDF1 (q 1) (-1) = Ok w18_start /\
  exists g1, wstep w18 BDF1 (q 0) 1 half w18_start = (Throw (EUser 7), g1) /\ t_y g1 <> t_y w18_start.
Proof. exact other_exception_keeps_iterate. Qed.
Print Assumptions C18_state_refuted.

(** ... and so is y_n-1: after putting the state back by hand, BDF2 solves a wrong equation. *)
Theorem C18_history_refuted :
  wsst BDF2 (q 1) (-1) = Ok w18b_start /\
  fst (wstep w18b BDF2 (q 0) 1 half w18b_start) = Ok tt /\
  fst (wstep w18b BDF2 half 2 half w18b_1) = Throw (EUser 7) /\
  fst w18b_redo = Ok tt /\
  ~ bdf2_eq QcS QcV (fun y => y) (t_y w18b_1) (q 1) half (t_y (snd w18b_redo)).
Proof. exact other_exception_loses_history. Qed.
Print Assumptions C18_history_refuted.

(** C19, for one run of a fresh stepper object. *)
Theorem C19_first_run_partial :
  forall (S V J W Ws : Type) (o : sops S) (vo : vops S V) (jo : vops S J) (jid : J)
    (u : isys (S:=S) (V:=V) (J:=J) (W:=W)) (solver : Ws -> V -> sol V V J Ws),
  sfield o -> schar0 o -> vspace o vo -> vspace o jo ->
  forall (Q : Type) (view : W -> Q) F fj cs cr (w : W) y0 ws g, pure_but u view F fj ->
  implicit_create o CrankNicolson cs cr (mk_ppol (-1) w) y0 ws = Ok g ->
  forall t0 y1 evs res rn' tape' ws' w',
  history o solver (problem_cn o vo jo jid F fj) None [] ws (view w) (Start t0 y1 :: evs) res rn' tape' ws' w' ->
  Forall (fun e => is_start e = false) evs ->
  forall t k, exists g',
    perform o (implicit_step o (policy_std o vo jo jid u) solver CrankNicolson) put_ode t_y
      (Start t0 y1 :: evs) t k g = (res, g') /\ t_ws g' = ws' /\ view (pp_w (t_p g')) = w'.
Proof. exact @cn_history. Qed.
Print Assumptions C19_first_run_partial.

(** The second run of the same object uses f_n of the first: y' = y from 1, then from 2. *)
Theorem C19_second_run_refuted :
  wsst CrankNicolson (q 9) (-1) = Ok w19_start /\
  exists y1 y2,
    fst (perform QcS (wstep w19 CrankNicolson) put_ode t_y
           [Start (q 0) (q 1); Attempt (q 1); Start (q 0) (q 2); Attempt (q 1)] (q 0) 0 w19_start)
      = [(Ok tt, q 1); (Ok tt, y1); (Ok tt, q 2); (Ok tt, y2)] /\
    cn_eq QcS QcV (q 1) (fun y => y) (q 1) (q 1) y1 /\
    ~ cn_eq QcS QcV (q 2) (fun y => y) (q 2) (q 1) y2.
Proof. exact cn_second_run. Qed.
Print Assumptions C19_second_run_refuted.

(** C20 is false: y' = 0 from 1; the guesser adds 1. *)
Theorem C20_refuted :
  fst w20_run = Ok tt /\ ~ bdf1_eq QcV (fun _ => q 0) (q 1) (q 1) (fst (fst (snd w20_run))).
Proof. exact guess_becomes_previous_state. Qed.
Print Assumptions C20_refuted.

(** C46. [hit]: the world remembers whether a right-hand side threw. *)
Theorem C46_velocity_failure_rolls_back :
  forall (S V J W Ws : Type) (o : sops S) (vo : vops S V) (jo : vops S J) (jid : J)
    (u : isys (S:=S) (V:=V) (J:=J) (W:=W)) (solver : Ws -> V -> sol V V J Ws),
  forall hit : W -> bool,
  (forall y t R Jo w r f j w', is_eval u y t R Jo w = (r, (f, j, w')) ->
     hit w' = match r with Throw EVelocity => true | _ => hit w end) ->
  (forall ws y, forwards (solver ws y)) ->
  forall name n m t k dt (g : @sst S V V (@ppol W) Ws) r g1, name = BDF1 \/ name = BDF2 ->
  implicit_sizes name = Ok (n, m) -> length (t_st g) = n ->
  implicit_step o (policy_std o vo jo jid u) solver name t k dt g = (r, g1) ->
  hit (pp_w (t_p g)) = false -> hit (pp_w (t_p g1)) = true ->
  r = Throw ETimeStep /\ t_y g1 = t_y g.
Proof. exact @std_hit. Qed.
Print Assumptions C46_velocity_failure_rolls_back.

Theorem C46_velocity_failure_rolls_back_mass_matrix :
  forall (S V J W Ws : Type) (o : sops S) (vo : vops S V) (jo : vops S J) (japp : J -> V -> V)
    (u : isys (S:=S) (V:=V) (J:=J) (W:=W)) (solver : Ws -> V -> sol V V J Ws),
  forall hit : W -> bool,
  (forall y t M f0 Jo w r M' f j w', is_mmeval u y t M f0 Jo w = (r, (M', f, j, w')) ->
     hit w' = match r with Throw EVelocity => true | _ => hit w end) ->
  (forall ws y, forwards (solver ws y)) ->
  forall name n m t k dt (g : @sst S V V (@mpol V J W) Ws) r g1, name = BDF1 \/ name = BDF2 ->
  implicit_sizes name = Ok (n, m) -> length (t_st g) = n ->
  implicit_step o (policy_mm o vo jo japp u) solver name t k dt g = (r, g1) ->
  hit (mp_w (t_p g)) = false -> hit (mp_w (t_p g1)) = true ->
  r = Throw ETimeStep /\ t_y g1 = t_y g.
Proof. exact @mm_hit. Qed.
Print Assumptions C46_velocity_failure_rolls_back_mass_matrix.

Theorem C46_crank_nicolson_refuted :
  exists g1, wstep w46 CrankNicolson (q 0) 1 half w19_start = (Throw EVelocity, g1) /\
  snd (pp_w (t_p w19_start)) = false /\ snd (pp_w (t_p g1)) = true /\
  t_y g1 <> t_y w19_start.
Proof. exact cn_velocity_failure. Qed.
Print Assumptions C46_crank_nicolson_refuted.

(** C47. *)
Theorem C47_constant_slope_bdf1 :
  forall (S V : Type) (o : sops S) (vo : vops S V), sfield o -> vspace o vo -> forall c : V,
  forall l t0 d0 y0,
  linked (sadd o) (accepted_bdf1 o vo (fun r => r = vzero vo) (fun _ _ => c)) (l ++ [(t0, d0, y0)]) ->
  Forall (fun e => snd e = vadd vo y0 (vscale vo (ssub o (fst (fst e)) t0) c)) (l ++ [(t0, d0, y0)]).
Proof. exact (fun S V o vo HF HV c => line_linked o vo HF HV c _ (bdf1_line o vo HF HV c)). Qed.
Print Assumptions C47_constant_slope_bdf1.

Theorem C47_constant_slope_crank_nicolson :
  forall (S V : Type) (o : sops S) (vo : vops S V), sfield o -> schar0 o -> vspace o vo -> forall c : V,
  forall l t0 d0 y0,
  linked (sadd o) (accepted_cn o vo (fun r => r = vzero vo) (fun _ _ => c)) (l ++ [(t0, d0, y0)]) ->
  Forall (fun e => snd e = vadd vo y0 (vscale vo (ssub o (fst (fst e)) t0) c)) (l ++ [(t0, d0, y0)]).
Proof. exact (fun S V o vo HF HC HV c => line_linked o vo HF HV c _ (cn_line o vo HF HC HV c)). Qed.
Print Assumptions C47_constant_slope_crank_nicolson.

Theorem C47_constant_slope_bdf2_uniform_partial :
  forall (S V : Type) (o : sops S) (vo : vops S V), sfield o -> schar0 o -> vspace o vo -> forall (c : V) (h : S),
  forall l t0 d0 y0,
  linked (sadd o) (accepted_bdf2 o vo (fun r => r = vzero vo) (fun _ _ => c)) (l ++ [(t0, d0, y0)]) ->
  Forall (fun e => snd (fst e) = h) l ->
  Forall (fun e => snd e = vadd vo y0 (vscale vo (ssub o (fst (fst e)) t0) c)) (l ++ [(t0, d0, y0)]).
Proof. exact @bdf2_uniform. Qed.
Print Assumptions C47_constant_slope_bdf2_uniform_partial.

(** y' = 1 from 0 with sizes 1 and 1/2. *)
Theorem C47_bdf2_refuted :
  exists y1 y2,
    fst (perform QcS (wstep w47 BDF2) put_ode t_y [Start (q 0) (q 0); Attempt (q 1); Attempt half] (q 0) 0 w18b_start)
      = [(Ok tt, q 0); (Ok tt, y1); (Ok tt, y2)] /\
    y1 = q 1 /\ y2 <> (q 1 + half)%Qc.
Proof. exact bdf2_not_exact. Qed.
Print Assumptions C47_bdf2_refuted.

(** C48. *)
Theorem C48_to_target_bdf1 :
  forall (S V J W Ws U : Type) (o : sops S) (vo : vops S V) (jo : vops S J) (jid : J)
    (u : isys (S:=S) (V:=V) (J:=J) (W:=W)) (solver : Ws -> V -> sol V V J Ws),
  sfield o -> vspace o vo -> vspace o jo -> forall Acc : V -> Prop,
  (forall ws y, ends (fun r => r <> Throw ETimeStep) (solver ws y)) ->
  (forall ws y, certified Acc (fun _ => False) (solver ws y)) ->
  forall obs : Z -> S -> V -> U -> outcome unit * U, forall f, rhs_is u f ->
  forall g0 : @sst S V V (@ppol W) Ws, length (t_st g0) = 1%nat ->
  forall pol recovery fuel start final y0 w y' g' w' tr,
  to_target o (mk_user (split_obs obs) (split_pol pol) noop_guess
      (split_step (implicit_fn (implicit_step o (policy_std o vo jo jid u) solver BDF1)))) recovery fuel
    start final (y0, (g0, w), []) = (Ok tt, (y', (g', w'), tr)) ->
  seqb o final start = false ->
  exists t' d' l, linked_from (sadd o) (accepted_bdf1 o vo Acc f) start y0 ((t', d', y') :: l) /\
    reports tr = numbered ((t', d', y') :: l).
Proof. exact @bdf1_target. Qed.
Print Assumptions C48_to_target_bdf1.

Theorem C48_n_steps_bdf1 :
  forall (S V J W Ws U : Type) (o : sops S) (vo : vops S V) (jo : vops S J) (jid : J)
    (u : isys (S:=S) (V:=V) (J:=J) (W:=W)) (solver : Ws -> V -> sol V V J Ws),
  sfield o -> vspace o vo -> vspace o jo -> forall Acc : V -> Prop,
  (forall ws y, certified Acc (fun _ => False) (solver ws y)) ->
  forall obs : Z -> S -> V -> U -> outcome unit * U, forall f, rhs_is u f ->
  forall g0 : @sst S V V (@ppol W) Ws, length (t_st g0) = 1%nat ->
  forall pol num start y0 w y' g' w' tr, Z.of_nat num < int32_max ->
  advance_n_steps o (mk_user (split_obs obs) (pol3 (split_pol pol)) noop_guess
      (split_step (implicit_fn (implicit_step o (policy_std o vo jo jid u) solver BDF1))))
    (Z.of_nat num) start (y0, (g0, w), []) = (Ok tt, (y', (g', w'), tr)) ->
  exists t' d' l, length l = num /\ linked_from (sadd o) (accepted_bdf1 o vo Acc f) start y0 ((t', d', y') :: l) /\
    reports tr = numbered ((t', d', y') :: l).
Proof. exact @bdf1_n_steps. Qed.
Print Assumptions C48_n_steps_bdf1.

Theorem C48_to_target_bdf2 :
  forall (S V J W Ws U : Type) (o : sops S) (vo : vops S V) (jo : vops S J) (jid : J)
    (u : isys (S:=S) (V:=V) (J:=J) (W:=W)) (solver : Ws -> V -> sol V V J Ws),
  sfield o -> schar0 o -> vspace o vo -> vspace o jo -> forall Acc : V -> Prop,
  (forall ws y, ends (fun r => r <> Throw ETimeStep) (solver ws y)) ->
  (forall ws y, certified Acc (fun _ => False) (solver ws y)) ->
  forall obs : Z -> S -> V -> U -> outcome unit * U, forall f, rhs_is u f ->
  forall g0 : @sst S V V (@ppol W) Ws, length (t_st g0) = 2%nat ->
  forall pol recovery fuel start final y0 w y' g' w' tr,
  to_target o (mk_user (split_obs obs) (split_pol pol) noop_guess
      (split_step (implicit_fn (implicit_step o (policy_std o vo jo jid u) solver BDF2)))) recovery fuel
    start final (y0, (g0, w), []) = (Ok tt, (y', (g', w'), tr)) ->
  seqb o final start = false ->
  exists t' d' l, linked_from (sadd o) (accepted_bdf2 o vo Acc f) start y0 ((t', d', y') :: l) /\
    reports tr = numbered ((t', d', y') :: l).
Proof. exact @bdf2_target. Qed.
Print Assumptions C48_to_target_bdf2.

Theorem C48_n_steps_bdf2 :
  forall (S V J W Ws U : Type) (o : sops S) (vo : vops S V) (jo : vops S J) (jid : J)
    (u : isys (S:=S) (V:=V) (J:=J) (W:=W)) (solver : Ws -> V -> sol V V J Ws),
  sfield o -> schar0 o -> vspace o vo -> vspace o jo -> forall Acc : V -> Prop,
  (forall ws y, certified Acc (fun _ => False) (solver ws y)) ->
  forall obs : Z -> S -> V -> U -> outcome unit * U, forall f, rhs_is u f ->
  forall g0 : @sst S V V (@ppol W) Ws, length (t_st g0) = 2%nat ->
  forall pol num start y0 w y' g' w' tr, Z.of_nat num < int32_max ->
  advance_n_steps o (mk_user (split_obs obs) (pol3 (split_pol pol)) noop_guess
      (split_step (implicit_fn (implicit_step o (policy_std o vo jo jid u) solver BDF2))))
    (Z.of_nat num) start (y0, (g0, w), []) = (Ok tt, (y', (g', w'), tr)) ->
  exists t' d' l, length l = num /\ linked_from (sadd o) (accepted_bdf2 o vo Acc f) start y0 ((t', d', y') :: l) /\
    reports tr = numbered ((t', d', y') :: l).
Proof. exact @bdf2_n_steps. Qed.
Print Assumptions C48_n_steps_bdf2.

Theorem C48_to_target_crank_nicolson :
  forall (S V J W Ws U : Type) (o : sops S) (vo : vops S V) (jo : vops S J) (jid : J)
    (u : isys (S:=S) (V:=V) (J:=J) (W:=W)) (solver : Ws -> V -> sol V V J Ws),
  sfield o -> schar0 o -> vspace o vo -> vspace o jo -> forall Acc : V -> Prop,
  (forall ws y, ends (fun r => r <> Throw ETimeStep) (solver ws y)) ->
  (forall ws y, certified Acc (fun _ => False) (solver ws y)) ->
  forall obs : Z -> S -> V -> U -> outcome unit * U, forall F fj f, repeatable u F fj -> rhs_is u f ->
  forall cs cr w0 yc ws g0, implicit_create o CrankNicolson cs cr (mk_ppol (-1) w0) yc ws = Ok g0 ->
  forall pol recovery fuel start final y0 w y' g' w' tr,
  to_target o (mk_user (split_obs obs) (split_pol pol) noop_guess
      (split_step (implicit_fn (implicit_step o (policy_std o vo jo jid u) solver CrankNicolson)))) recovery fuel
    start final (y0, (g0, w), []) = (Ok tt, (y', (g', w'), tr)) ->
  seqb o final start = false ->
  exists t' d' l, linked_from (sadd o) (accepted_cn o vo Acc f) start y0 ((t', d', y') :: l) /\
    reports tr = numbered ((t', d', y') :: l).
Proof. exact @cn_target. Qed.
Print Assumptions C48_to_target_crank_nicolson.

Theorem C48_n_steps_crank_nicolson :
  forall (S V J W Ws U : Type) (o : sops S) (vo : vops S V) (jo : vops S J) (jid : J)
    (u : isys (S:=S) (V:=V) (J:=J) (W:=W)) (solver : Ws -> V -> sol V V J Ws),
  sfield o -> schar0 o -> vspace o vo -> vspace o jo -> forall Acc : V -> Prop,
  (forall ws y, certified Acc (fun _ => False) (solver ws y)) ->
  forall obs : Z -> S -> V -> U -> outcome unit * U, forall F fj f, repeatable u F fj -> rhs_is u f ->
  forall cs cr w0 yc ws g0, implicit_create o CrankNicolson cs cr (mk_ppol (-1) w0) yc ws = Ok g0 ->
  forall pol num start y0 w y' g' w' tr, Z.of_nat num < int32_max ->
  advance_n_steps o (mk_user (split_obs obs) (pol3 (split_pol pol)) noop_guess
      (split_step (implicit_fn (implicit_step o (policy_std o vo jo jid u) solver CrankNicolson))))
    (Z.of_nat num) start (y0, (g0, w), []) = (Ok tt, (y', (g', w'), tr)) ->
  exists t' d' l, length l = num /\ linked_from (sadd o) (accepted_cn o vo Acc f) start y0 ((t', d', y') :: l) /\
    reports tr = numbered ((t', d', y') :: l).
Proof. exact @cn_n_steps. Qed.
Print Assumptions C48_n_steps_crank_nicolson.

Theorem C48_to_target_bdf1_mass_matrix :
  forall (S V J W Ws U : Type) (o : sops S) (vo : vops S V) (jo : vops S J) (japp : J -> V -> V)
    (u : isys (S:=S) (V:=V) (J:=J) (W:=W)) (solver : Ws -> V -> sol V V J Ws),
  sfield o -> vspace o vo -> vspace o jo -> forall Acc : V -> Prop,
  (forall ws y, ends (fun r => r <> Throw ETimeStep) (solver ws y)) ->
  (forall ws y, certified Acc (fun _ => False) (solver ws y)) ->
  forall obs : Z -> S -> V -> U -> outcome unit * U, forall M f, rhs_mass_is u M f ->
  forall g0 : @sst S V V (@mpol V J W) Ws, length (t_st g0) = 1%nat ->
  forall pol recovery fuel start final y0 w y' g' w' tr,
  to_target o (mk_user (split_obs obs) (split_pol pol) noop_guess
      (split_step (implicit_fn (implicit_step o (policy_mm o vo jo japp u) solver BDF1)))) recovery fuel
    start final (y0, (g0, w), []) = (Ok tt, (y', (g', w'), tr)) ->
  seqb o final start = false ->
  exists t' d' l, linked_from (sadd o) (accepted_bdf1_mm o vo japp Acc M f) start y0 ((t', d', y') :: l) /\
    reports tr = numbered ((t', d', y') :: l).
Proof. exact @bdf1_mm_target. Qed.
Print Assumptions C48_to_target_bdf1_mass_matrix.

Theorem C48_n_steps_bdf1_mass_matrix :
  forall (S V J W Ws U : Type) (o : sops S) (vo : vops S V) (jo : vops S J) (japp : J -> V -> V)
    (u : isys (S:=S) (V:=V) (J:=J) (W:=W)) (solver : Ws -> V -> sol V V J Ws),
  sfield o -> vspace o vo -> vspace o jo -> forall Acc : V -> Prop,
  (forall ws y, certified Acc (fun _ => False) (solver ws y)) ->
  forall obs : Z -> S -> V -> U -> outcome unit * U, forall M f, rhs_mass_is u M f ->
  forall g0 : @sst S V V (@mpol V J W) Ws, length (t_st g0) = 1%nat ->
  forall pol num start y0 w y' g' w' tr, Z.of_nat num < int32_max ->
  advance_n_steps o (mk_user (split_obs obs) (pol3 (split_pol pol)) noop_guess
      (split_step (implicit_fn (implicit_step o (policy_mm o vo jo japp u) solver BDF1))))
    (Z.of_nat num) start (y0, (g0, w), []) = (Ok tt, (y', (g', w'), tr)) ->
  exists t' d' l, length l = num /\ linked_from (sadd o) (accepted_bdf1_mm o vo japp Acc M f) start y0 ((t', d', y') :: l) /\
    reports tr = numbered ((t', d', y') :: l).
Proof. exact @bdf1_mm_n_steps. Qed.
Print Assumptions C48_n_steps_bdf1_mass_matrix.

Theorem C48_to_target_bdf2_mass_matrix :
  forall (S V J W Ws U : Type) (o : sops S) (vo : vops S V) (jo : vops S J) (japp : J -> V -> V)
    (u : isys (S:=S) (V:=V) (J:=J) (W:=W)) (solver : Ws -> V -> sol V V J Ws),
  sfield o -> schar0 o -> vspace o vo -> vspace o jo -> forall Acc : V -> Prop,
  (forall ws y, ends (fun r => r <> Throw ETimeStep) (solver ws y)) ->
  (forall ws y, certified Acc (fun _ => False) (solver ws y)) ->
  forall obs : Z -> S -> V -> U -> outcome unit * U, forall M f, rhs_mass_is u M f ->
  forall g0 : @sst S V V (@mpol V J W) Ws, length (t_st g0) = 2%nat ->
  forall pol recovery fuel start final y0 w y' g' w' tr,
  to_target o (mk_user (split_obs obs) (split_pol pol) noop_guess
      (split_step (implicit_fn (implicit_step o (policy_mm o vo jo japp u) solver BDF2)))) recovery fuel
    start final (y0, (g0, w), []) = (Ok tt, (y', (g', w'), tr)) ->
  seqb o final start = false ->
  exists t' d' l, linked_from (sadd o) (accepted_bdf2_mm o vo japp Acc M f) start y0 ((t', d', y') :: l) /\
    reports tr = numbered ((t', d', y') :: l).
Proof. exact @bdf2_mm_target. Qed.
Print Assumptions C48_to_target_bdf2_mass_matrix.

Theorem C48_n_steps_bdf2_mass_matrix :
  forall (S V J W Ws U : Type) (o : sops S) (vo : vops S V) (jo : vops S J) (japp : J -> V -> V)
    (u : isys (S:=S) (V:=V) (J:=J) (W:=W)) (solver : Ws -> V -> sol V V J Ws),
  sfield o -> schar0 o -> vspace o vo -> vspace o jo -> forall Acc : V -> Prop,
  (forall ws y, certified Acc (fun _ => False) (solver ws y)) ->
  forall obs : Z -> S -> V -> U -> outcome unit * U, forall M f, rhs_mass_is u M f ->
  forall g0 : @sst S V V (@mpol V J W) Ws, length (t_st g0) = 2%nat ->
  forall pol num start y0 w y' g' w' tr, Z.of_nat num < int32_max ->
  advance_n_steps o (mk_user (split_obs obs) (pol3 (split_pol pol)) noop_guess
      (split_step (implicit_fn (implicit_step o (policy_mm o vo jo japp u) solver BDF2))))
    (Z.of_nat num) start (y0, (g0, w), []) = (Ok tt, (y', (g', w'), tr)) ->
  exists t' d' l, length l = num /\ linked_from (sadd o) (accepted_bdf2_mm o vo japp Acc M f) start y0 ((t', d', y') :: l) /\
    reports tr = numbered ((t', d', y') :: l).
Proof. exact @bdf2_mm_n_steps. Qed.
Print Assumptions C48_n_steps_bdf2_mass_matrix.

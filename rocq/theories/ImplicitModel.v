(** Model of the implicit steppers: ode/impl/ode_implicit_stepper_standard.hpp,
    ode_implicit_stepper_arbitrary.hpp, ode_implicit_discrete_residual.hpp,
    ode_implicit_discrete_jacobian.hpp and the two standard residual/Jacobian
    policies. No proofs in this file.

    Simplifications: the independent variable has the type of the scalar; rhs and
    state live in the same space [V] for the standard policies; mass matrix and
    Jacobian have the same type [J] (the code adds them up); vector and matrix
    operations do not throw. *)
From Coq Require Import ZArith List Bool.
From Verif Require Import Base ExplicitModel.
Import ListNotations.
Local Open Scope Z_scope.
Local Open Scope cmd_scope.

(** ** What a stepper sees of a nonlinear solver
    solver.solve(stepper, odeState): an arbitrary terminating client that calls
    stepper.residualAndJacobian(y, R, Jo) with its own buffers R and (possibly no)
    Jacobian, sees how each call ended and what the buffers hold, and at the end
    leaves a state in odeState and returns or throws. [Ws] is whatever the solver
    object remembers between solves. *)
(* solver.solve( *this, odeState) with residualAndJacobian: ode_implicit_stepper_standard.hpp 167-176, 211, 268, 310; ode_implicit_stepper_arbitrary.hpp 127, 136-193 *)
Inductive sol (V R J Ws : Type) :=
| SEnd (r : outcome unit) (y : V) (ws : Ws)
| SCall (y : V) (r : R) (j : option J) (k : outcome unit -> R -> option J -> sol V R J Ws).
Arguments SEnd {V R J Ws}. Arguments SCall {V R J Ws}.

(** The solver running against an object whose residualAndJacobian is [rj]. If a
    residual evaluation is undefined or out of fuel, so is the solve ([y0], [ws0]
    stand for the unspecified values). *)
(* ode_implicit_stepper_standard.hpp 211, 268, 310; ode_implicit_stepper_arbitrary.hpp 127 *)
Fixpoint run_solver {V R J Ws G : Type}
         (rj : V -> R -> option J -> G -> outcome unit * (R * option J * G))
         (s : sol V R J Ws) (y0 : V) (ws0 : Ws) (g : G) : outcome unit * (V * Ws * G) :=
  match s with
  | SEnd r y ws => (r, (y, ws, g))
  | SCall y r j k =>
      let '(e, (r', j', g')) := rj y r j g in
      match e with
      | Undef b => (Undef b, (y0, ws0, g'))
      | NoFuel => (NoFuel, (y0, ws0, g'))
      | _ => run_solver rj (k e r' j') y0 ws0 g'
      end
  end.

(** ** Constants, ode/ode_constants.hpp 78-102 *)
Section ImplicitConstants.
  Context {S : Type} (o : sops S).
  (* ode_constants.hpp 81 *)
  Definition bdf1_c_np1 := k_one o.
  (* ode_constants.hpp 82 *)
  Definition bdf1_c_n := k_negOne o.
  (* ode_constants.hpp 83 *)
  Definition bdf1_c_f := k_negOne o.
  (* ode_constants.hpp 89 *)
  Definition bdf2_c_np1 := k_one o.
  (* ode_constants.hpp 90 *)
  Definition bdf2_c_n := smul o (k_negOne o) (k_fourOvThree o).
  (* ode_constants.hpp 91 *)
  Definition bdf2_c_nm1 := k_oneOvThree o.
  (* ode_constants.hpp 92 *)
  Definition bdf2_c_f := smul o (k_negOne o) (k_twoOvThree o).
  (* ode_constants.hpp 98 *)
  Definition cn_c_np1 := k_one o.
  (* ode_constants.hpp 99 *)
  Definition cn_c_n := k_negOne o.
  (* ode_constants.hpp 100 *)
  Definition cn_c_fnp1 := k_negOneHalf o.
  (* ode_constants.hpp 101 *)
  Definition cn_c_fn := k_negOneHalf o.
End ImplicitConstants.

(** ** Discrete residuals and Jacobians *)
Section Discrete.
  Context {S V J : Type} (o : sops S) (vo : vops S V) (jo : vops S J).
  Variable jid : J.                 (* identity matrix *)
  Variable japp : J -> V -> V.      (* ops::product(matrix, vector) *)

  (** ode_implicit_discrete_residual.hpp 60-86; [f] is the content of R *)
  Definition dres_bdf1 (y_np1 f y_n : V) (dt : S) : V :=
    upd2 vo f (smul o (bdf1_c_f o) dt) y_np1 (bdf1_c_np1 o) y_n (bdf1_c_n o).
  (** ode_implicit_discrete_residual.hpp 96-132: scratch, then R := M scratch, then R := R + cf f *)
  Definition dscratch_bdf1 (y_np1 y_n : V) : V :=
    upd2_0 vo y_np1 (bdf1_c_np1 o) y_n (bdf1_c_n o).
  (* ode_implicit_discrete_residual.hpp 128-131 *)
  Definition dres_bdf1_mm (M : J) (scratch f : V) (dt : S) : V :=
    upd1 vo (japp M scratch) (k_one o) f (smul o (bdf1_c_f o) dt).
  (** ode_implicit_discrete_residual.hpp 139-169 *)
  Definition dres_bdf2 (y_np1 f y_n y_nm1 : V) (dt : S) : V :=
    upd3 vo f (smul o (bdf2_c_f o) dt) y_np1 (bdf2_c_np1 o) y_n (bdf2_c_n o)
         y_nm1 (bdf2_c_nm1 o).
  (** ode_implicit_discrete_residual.hpp 179-219 *)
  Definition dscratch_bdf2 (y_np1 y_n y_nm1 : V) : V :=
    upd3_0 vo y_np1 (bdf2_c_np1 o) y_n (bdf2_c_n o) y_nm1 (bdf2_c_nm1 o).
  (* ode_implicit_discrete_residual.hpp 215-218 *)
  Definition dres_bdf2_mm (M : J) (scratch f : V) (dt : S) : V :=
    upd1 vo (japp M scratch) (k_one o) f (smul o (bdf2_c_f o) dt).
  (** ode_implicit_discrete_residual.hpp 229-268. The code multiplies f_n+1 with c_fn_ (257); c_fnp1_ here is
      the same number (ode_constants.hpp 100-101). *)
  Definition dres_cn (y_np1 y_n f_n f_np1 : V) (dt : S) : V :=
    vadd vo (upd3_0 vo y_np1 (cn_c_np1 o) y_n (cn_c_n o) f_n (smul o (cn_c_fn o) dt))
         (vscale vo (smul o (cn_c_fnp1 o) dt) f_np1).

  (** ops::scale then ops::add_to_diagonal *)
  (* ode_implicit_discrete_jacobian.hpp 73-74, 120-121, 169-170 *)
  Definition scale_add_diag (j : J) (a c : S) : J := vadd jo (vscale jo a j) (vscale jo c jid).
  (** The five overloads of discrete_jacobian. *)
  (* ode_implicit_discrete_jacobian.hpp 59-75 *)
  Definition djac_bdf1 (j : J) (dt : S) : J :=
    scale_add_diag j (smul o (bdf1_c_f o) dt) (bdf1_c_np1 o).
  (* ode_implicit_discrete_jacobian.hpp 82-99 *)
  Definition djac_bdf1_mm (j M : J) (dt : S) : J :=
    upd1 jo j (smul o (bdf1_c_f o) dt) M (bdf1_c_np1 o).
  (* ode_implicit_discrete_jacobian.hpp 106-122 *)
  Definition djac_bdf2 (j : J) (dt : S) : J :=
    scale_add_diag j (smul o (bdf2_c_f o) dt) (bdf2_c_np1 o).
  (* ode_implicit_discrete_jacobian.hpp 129-147 *)
  Definition djac_bdf2_mm (j M : J) (dt : S) : J :=
    upd1 jo j (smul o (bdf2_c_f o) dt) M (bdf2_c_np1 o).
  (* ode_implicit_discrete_jacobian.hpp 154-171 *)
  Definition djac_cn (j : J) (dt : S) : J :=
    scale_add_diag j (smul o (cn_c_fnp1 o) dt) (cn_c_np1 o).
End Discrete.

(** ** Residual/Jacobian policies
    operator()(name, y, stencilStates, stencilRhs, StepEndAt, StepCount, StepSize,
    R, Jo). [P] is the policy object with the user's world. *)
(* ode_implicit_policy_residual_jacobian_without_mass_matrix.hpp 100-108; ode_implicit_policy_residual_jacobian_with_mass_matrix.hpp 109-117 *)
Definition policy (S V R J P : Type) : Type :=
  scheme -> V -> list V -> list R -> S -> Z -> S -> R -> option J -> P ->
  outcome unit * (list R * R * option J * P).

(** A system that was not given a Jacobian to fill cannot return one. *)
(* Jo is a std::optional of a pointer: ode_implicit_policy_residual_jacobian_without_mass_matrix.hpp 108, 162, 199, 215, 253 *)
Definition mask {J} (given out : option J) : option J :=
  match given with
  | None => None
  | Some j => match out with Some j' => Some j' | None => Some j end
  end.
(* if (Jo): ode_implicit_policy_residual_jacobian_without_mass_matrix.hpp 162-165; ode_implicit_policy_residual_jacobian_with_mass_matrix.hpp 161-164 *)
Definition on_jac {J} (f : J -> J) (j : option J) : option J :=
  match j with Some a => Some (f a) | None => None end.

Section Policies.
  Context {S V J W : Type} (o : sops S) (vo : vops S V) (jo : vops S J).
  Variable jid : J.
  Variable japp : J -> V -> V.

  (** User's system. rhsAndJacobian(y, t, f, Jo) and
      massMatrixAndRhsAndJacobian(y, t, M, f, Jo): buffers by reference. *)
  (* systemObj_ as called at ode_implicit_policy_residual_jacobian_without_mass_matrix.hpp 158, 249, 254; ode_implicit_policy_residual_jacobian_with_mass_matrix.hpp 156-157, 189-190 *)
  Record isys := mk_isys {
    is_eval : V -> S -> V -> option J -> W -> outcome unit * (V * option J * W);
    is_mmeval : V -> S -> J -> V -> option J -> W -> outcome unit * (J * V * option J * W)
  }.
  Variable u : isys.

  (** Velocity failures become residual failures
      (catch blocks in both policies). *)
  (* ode_implicit_policy_residual_jacobian_without_mass_matrix.hpp 167-169, 204-206, 220-222; ode_implicit_policy_residual_jacobian_with_mass_matrix.hpp 166-168, 209-211 *)
  Definition velocity_to_residual (r : outcome unit) : outcome unit :=
    match r with Throw EVelocity => Throw EResidualEvaluation | _ => r end.

  (** *** Without mass matrix: ode_implicit_policy_residual_jacobian_without_mass_matrix.hpp *)
  (** stepTracker_ (270) and the user's world *)
  (* ode_implicit_policy_residual_jacobian_without_mass_matrix.hpp 269-270 *)
  Record ppol := mk_ppol { pp_trk : Z; pp_w : W }.

  (** ode_implicit_policy_residual_jacobian_without_mass_matrix.hpp 140-170 *)
  Definition pol_bdf1 (y : V) (st : list V) (fs : list V) (t : S) (step : Z) (dt : S)
             (R : V) (Jo : option J) (p : ppol) : outcome unit * (list V * V * option J * ppol) :=
    let '(r, (f, j, w)) := is_eval u y t R Jo (pp_w p) in
    let j' := mask Jo j in
    let p' := mk_ppol step w in
    match r with
    | Ok _ =>
        match st with
        | y_n :: _ => (Ok tt, (fs, dres_bdf1 o vo y f y_n dt,
                               on_jac (fun a => djac_bdf1 o jo jid a dt) j', p'))
        | [] => (Undef UOutOfBounds, (fs, f, j', p'))
        end
    | _ => (velocity_to_residual r, (fs, f, j', p'))
    end.

  (** ode_implicit_policy_residual_jacobian_without_mass_matrix.hpp 175-225 *)
  Definition pol_bdf2 (y : V) (st : list V) (fs : list V) (t : S) (step : Z) (dt : S)
             (R : V) (Jo : option J) (p : ppol) : outcome unit * (list V * V * option J * ppol) :=
    if step =? 1 then pol_bdf1 y st fs t step dt R Jo p
    else
      let '(r, (f, j, w)) := is_eval u y t R Jo (pp_w p) in
      let j' := mask Jo j in
      let p' := mk_ppol step w in
      match r with
      | Ok _ =>
          match st with
          | y_n :: y_nm1 :: _ =>
              (Ok tt, (fs, dres_bdf2 o vo y f y_n y_nm1 dt,
                       on_jac (fun a => djac_bdf2 o jo jid a dt) j', p'))
          | _ => (Undef UOutOfBounds, (fs, f, j', p'))
          end
      | _ => (velocity_to_residual r, (fs, f, j', p'))
      end.

  (** ode_implicit_policy_residual_jacobian_without_mass_matrix.hpp 245-250: f_n := f(y_n, t_np1 - dt) if this step was not seen before.
      [fs] is stencil_rhs_: f_n+1, f_n. *)
  Definition cn_refresh (y_n : V) (f_n : V) (t : S) (step : Z) (dt : S) (p : ppol)
    : outcome unit * (V * ppol) :=
    if negb (pp_trk p =? step) then
      let '(r, (f, _, w)) := is_eval u y_n (ssub o t dt) f_n None (pp_w p) in
      (r, (f, mk_ppol (pp_trk p) w))
    else (Ok tt, (f_n, p)).

  (** ode_implicit_policy_residual_jacobian_without_mass_matrix.hpp 230-266 *)
  Definition pol_cn (y : V) (st : list V) (fs : list V) (t : S) (step : Z) (dt : S)
             (R : V) (Jo : option J) (p : ppol) : outcome unit * (list V * V * option J * ppol) :=
    match st, fs with
    | y_n :: _, f_np1 :: f_n :: rest =>
        let '(r0, (f_n', p0)) := cn_refresh y_n f_n t step dt p in
        match r0 with
        | Ok _ =>
            let '(r, (f, j, w)) := is_eval u y t f_np1 Jo (pp_w p0) in
            let j' := mask Jo j in
            match r with
            | Ok _ => (Ok tt, (f :: f_n' :: rest, dres_cn o vo y y_n f_n' f dt,
                               on_jac (fun a => djac_cn o jo jid a dt) j', mk_ppol step w))
            | _ => (r, (f :: f_n' :: rest, R, j', mk_ppol (pp_trk p0) w))
            end
        | _ => (r0, (f_np1 :: f_n' :: rest, R, Jo, p0))
        end
    | _, _ => (Undef UOutOfBounds, (fs, R, Jo, p))
    end.

  (** ode_implicit_policy_residual_jacobian_without_mass_matrix.hpp 100-135 *)
  Definition policy_std : policy S V V J ppol :=
    fun name => match name with
    | BDF1 => pol_bdf1
    | BDF2 => pol_bdf2
    | CrankNicolson => pol_cn
    | _ => fun _ _ fs _ _ _ R Jo p => (Throw ERuntime, (fs, R, Jo, p))
    end.

  (** *** With mass matrix: ode_implicit_policy_residual_jacobian_with_mass_matrix.hpp *)
  (** ode_implicit_policy_residual_jacobian_with_mass_matrix.hpp 215-219: massMatrix_, scratchState_, rhs_, stepTracker_ and the user's world *)
  Record mpol := mk_mpol { mp_M : J; mp_scr : V; mp_f : V; mp_trk : Z; mp_w : W }.

  (** ode_implicit_policy_residual_jacobian_with_mass_matrix.hpp 140-169 *)
  Definition mpol_bdf1 (y : V) (st : list V) (fs : list V) (t : S) (step : Z) (dt : S)
             (R : V) (Jo : option J) (p : mpol) : outcome unit * (list V * V * option J * mpol) :=
    let '(r, (M, f, j, w)) := is_mmeval u y t (mp_M p) (mp_f p) Jo (mp_w p) in
    let j' := mask Jo j in
    match r with
    | Ok _ =>
        match st with
        | y_n :: _ =>
            let scr := dscratch_bdf1 o vo y y_n in
            (Ok tt, (fs, dres_bdf1_mm o vo japp M scr f dt,
                     on_jac (fun a => djac_bdf1_mm o jo a M dt) j', mk_mpol M scr f step w))
        | [] => (Undef UOutOfBounds, (fs, R, j', mk_mpol M (mp_scr p) f step w))
        end
    | _ => (velocity_to_residual r, (fs, R, j', mk_mpol M (mp_scr p) f step w))
    end.

  (** ode_implicit_policy_residual_jacobian_with_mass_matrix.hpp 171-212 *)
  Definition mpol_bdf2 (y : V) (st : list V) (fs : list V) (t : S) (step : Z) (dt : S)
             (R : V) (Jo : option J) (p : mpol) : outcome unit * (list V * V * option J * mpol) :=
    if step =? 1 then mpol_bdf1 y st fs t step dt R Jo p
    else
      let '(r, (M, f, j, w)) := is_mmeval u y t (mp_M p) (mp_f p) Jo (mp_w p) in
      let j' := mask Jo j in
      match r with
      | Ok _ =>
          match st with
          | y_n :: y_nm1 :: _ =>
              let scr := dscratch_bdf2 o vo y y_n y_nm1 in
              (Ok tt, (fs, dres_bdf2_mm o vo japp M scr f dt,
                       on_jac (fun a => djac_bdf2_mm o jo a M dt) j', mk_mpol M scr f step w))
          | _ => (Undef UOutOfBounds, (fs, R, j', mk_mpol M (mp_scr p) f step w))
          end
      | _ => (velocity_to_residual r, (fs, R, j', mk_mpol M (mp_scr p) f step w))
      end.

  (** ode_implicit_policy_residual_jacobian_with_mass_matrix.hpp 105-137: Crank-Nicolson throws, any other name does nothing *)
  Definition policy_mm : policy S V V J mpol :=
    fun name => match name with
    | BDF1 => mpol_bdf1
    | BDF2 => mpol_bdf2
    | CrankNicolson => fun _ _ fs _ _ _ R Jo p => (Throw ERuntime, (fs, R, Jo, p))
    | _ => fun _ _ fs _ _ _ R Jo p => (Ok tt, (fs, R, Jo, p))
    end.
End Policies.
Arguments mk_isys {S V J W}. Arguments is_eval {S V J W}. Arguments is_mmeval {S V J W}.
Arguments mk_ppol {W}. Arguments pp_trk {W}. Arguments pp_w {W}.
Arguments mk_mpol {V J W}. Arguments mp_M {V J W}. Arguments mp_scr {V J W}.
Arguments mp_f {V J W}. Arguments mp_trk {V J W}. Arguments mp_w {V J W}.

(** ** ImplicitStepperStandardImpl, ode_implicit_stepper_standard.hpp *)
Section Standard.
  Context {S V R J P Ws : Type} (o : sops S).
  Variable pol : policy S V R J P.
  Variable solver : Ws -> V -> sol V R J Ws.

  (** ode_implicit_stepper_standard.hpp 72-92: the members, the caller's odeState, the policy object and the solver.
      recovery_state_ is never used. *)
  Record sst := mk_sst {
    t_y : V; t_st : list V; t_fs : list R; t_time : S; t_dt : S; t_step : Z; t_p : P; t_ws : Ws
  }.
  (* model only: computations over sst *)
  Definition scmd := cmd sst.

  (** ode_implicit_stepper_standard.hpp 167-176 *)
  Definition std_rj (name : scheme) (st : list V) (t : S) (step : Z) (dt : S)
             (y : V) (r : R) (j : option J) (g : list R * P)
    : outcome unit * (R * option J * (list R * P)) :=
    let '(e, (fs', r', j', p')) := pol name y st (fst g) t step dt r j (snd g) in
    (e, (r', j', (fs', p'))).

  (* ode_implicit_stepper_standard.hpp 202-204, 234-236, 301-303 *)
  Definition set_info (t dt : S) (step : Z) : scmd unit :=
    fun g => (Ok tt, mk_sst (t_y g) (t_st g) (t_fs g) (sadd o t dt) dt step (t_p g) (t_ws g)).
  (* odeState, read: ode_implicit_stepper_standard.hpp 208, 251, 264, 307 *)
  Definition get_ode : scmd V := fun g => (Ok (t_y g), g).
  (* odeState, written: ode_implicit_stepper_standard.hpp 218, 276, 279, 316 *)
  Definition set_ode (v : V) : scmd unit :=
    fun g => (Ok tt, mk_sst v (t_st g) (t_fs g) (t_time g) (t_dt g) (t_step g) (t_p g) (t_ws g)).
  (* stencil_states_(...), read: ode_implicit_stepper_standard.hpp 217, 263, 272-273, 316 *)
  Definition get_st (i : nat) : scmd V :=
    fun g => match nth_error (t_st g) i with
             | Some v => (Ok v, g)
             | None => (Undef UOutOfBounds, g)
             end.
  (* stencil_states_(...), written: ode_implicit_stepper_standard.hpp 208, 251, 263-264, 280, 307 *)
  Definition set_st (i : nat) (v : V) : scmd unit :=
    fun g => match list_set (t_st g) i v with
             | Some l => (Ok tt, mk_sst (t_y g) l (t_fs g) (t_time g) (t_dt g) (t_step g)
                                        (t_p g) (t_ws g))
             | None => (Undef UOutOfBounds, g)
             end.
  (** solver.solve( *this, odeState) *)
  (* ode_implicit_stepper_standard.hpp 211, 268, 310 *)
  Definition do_solve (name : scheme) : scmd unit :=
    fun g =>
      let '(r, (y, ws, (fs, p))) :=
        run_solver (std_rj name (t_st g) (t_time g) (t_step g) (t_dt g))
                   (solver (t_ws g) (t_y g)) (t_y g) (t_ws g) (t_fs g, t_p g) in
      (r, mk_sst y (t_st g) fs (t_time g) (t_dt g) (t_step g) p ws).

  (* ode_implicit_stepper_standard.hpp 213, 270, 312; ode_implicit_stepper_arbitrary.hpp 129 *)
  Definition is_solve_failure (e : exn) : bool := exn_eqb e ENonlinearSolve.

  (** ode_implicit_stepper_standard.hpp 179-222 and, identically, 287-319 for Crank-Nicolson *)
  Definition step_one_state (name : scheme) (t : S) (step : Z) (dt : S) : scmd unit :=
    set_info t dt step;;;
    (y <- get_ode;; set_st 0 y);;;
    catch (do_solve name) is_solve_failure
          (fun _ => (y_n <- get_st 0;; set_ode y_n);;; throw ETimeStep).

  (** ode_implicit_stepper_standard.hpp 224-285 *)
  Definition step_two_states (name : scheme) (t : S) (step : Z) (dt : S) : scmd unit :=
    set_info t dt step;;;
    (if step =? 1 then y <- get_ode;; set_st 0 y
     else (y_n <- get_st 0;; set_st 1 y_n);;; (y <- get_ode;; set_st 0 y));;;
    catch (do_solve name) is_solve_failure
          (fun _ => (if step =? 1 then y_n <- get_st 0;; set_ode y_n
                     else (y_n <- get_st 0;; set_ode y_n);;;
                          (y_nm1 <- get_st 1;; set_st 0 y_nm1));;;
                    throw ETimeStep).

  (** ode_implicit_stepper_standard.hpp 131-161: operator(). Other names do nothing. *)
  Definition implicit_step (name : scheme) (t : S) (step : Z) (dt : S) : scmd unit :=
    match name with
    | BDF1 => step_one_state BDF1 t step dt
    | BDF2 => step_two_states BDF2 t step dt
    | CrankNicolson => step_one_state CrankNicolson t step dt
    | _ => ret tt
    end.

  (** ode_implicit_create_impl.hpp 54-77 with the constructors ode_implicit_stepper_standard.hpp 100-128: number of
      stencil states and stencil right-hand sides, or the exception. The assert
      in ode_create_implicit_stepper.hpp 73-75, 105-106, 140-142 is taken as compiled out. *)
  Definition implicit_sizes (name : scheme) : outcome (nat * nat) :=
    match name with
    | BDF1 => Ok (1, 0)%nat
    | BDF2 => Ok (2, 0)%nat
    | CrankNicolson => Ok (1, 2)%nat
    | _ => Throw ERuntime
    end.
  (* ode_implicit_stepper_standard.hpp 100-128: the members as constructed *)
  Definition implicit_create (name : scheme) (createState : V) (createResidual : R)
             (p : P) (y0 : V) (ws : Ws) : outcome sst :=
    match implicit_sizes name with
    | Ok (n, m) => Ok (mk_sst y0 (repeat createState n) (repeat createResidual m)
                              (s0 o) (s0 o) 0 p ws)
    | Throw e => Throw e
    | Undef b => Undef b
    | NoFuel => NoFuel
    end.
End Standard.
Arguments mk_sst {S V R P Ws}.
Arguments t_y {S V R P Ws}. Arguments t_st {S V R P Ws}. Arguments t_fs {S V R P Ws}.
Arguments t_time {S V R P Ws}. Arguments t_dt {S V R P Ws}. Arguments t_step {S V R P Ws}.
Arguments t_p {S V R P Ws}. Arguments t_ws {S V R P Ws}.

(** ** StepperArbitrary, ode_implicit_stepper_arbitrary.hpp *)
Section Arbitrary.
  Context {S V R J W Ws : Type} (o : sops S).
  (** discreteResidualAndJacobian(step, t, dt, R, Jo, y, yn, ...) *)
  Variable du : Z -> S -> S -> R -> option J -> V -> list V -> W ->
                outcome unit * (R * option J * W).
  Variable solver : Ws -> V -> sol V R J Ws.

  (** ode_implicit_stepper_arbitrary.hpp 77-84. [a_st] is stencilStates_: y_n, y_n-1, ... *)
  Record ast := mk_ast {
    a_y : V; a_st : list V; a_rec : V; a_time : S; a_dt : S; a_step : Z; a_w : W; a_ws : Ws
  }.
  (* model only: computations over ast *)
  Definition arcmd := cmd ast.

  (** ode_implicit_stepper_arbitrary.hpp 136-193 *)
  Definition arb_rj (st : list V) (t : S) (step : Z) (dt : S) (y : V) (r : R) (j : option J)
             (w : W) : outcome unit * (R * option J * W) :=
    let '(e, (r', j', w')) := du step t dt r j y st w in
    (match e with Throw EDiscreteTimeResidual => Throw EResidualEvaluation | _ => e end,
     (r', mask j j', w')).

  (* ode_implicit_stepper_arbitrary.hpp 120-122 *)
  Definition a_info (t dt : S) (step : Z) : arcmd unit :=
    fun g => (Ok tt, mk_ast (a_y g) (a_st g) (a_rec g) (sadd o t dt) dt step (a_w g) (a_ws g)).
  (* odeState, read: ode_implicit_stepper_arbitrary.hpp 203, 224, 249 *)
  Definition a_get : arcmd V := fun g => (Ok (a_y g), g).
  (* odeState, written: ode_implicit_stepper_arbitrary.hpp 211, 233, 259 *)
  Definition a_set (v : V) : arcmd unit :=
    fun g => (Ok tt, mk_ast v (a_st g) (a_rec g) (a_time g) (a_dt g) (a_step g) (a_w g) (a_ws g)).
  (* recoveryState_, read: ode_implicit_stepper_arbitrary.hpp 212, 235, 262 *)
  Definition a_get_rec : arcmd V := fun g => (Ok (a_rec g), g).
  (* recoveryState_, written: ode_implicit_stepper_arbitrary.hpp 202, 222, 246 *)
  Definition a_set_rec (v : V) : arcmd unit :=
    fun g => (Ok tt, mk_ast (a_y g) (a_st g) v (a_time g) (a_dt g) (a_step g) (a_w g) (a_ws g)).
  (* stencilStates_(...), read: ode_implicit_stepper_arbitrary.hpp 202, 211, 222-223, 233-234, 246-248, 259-261 *)
  Definition a_get_st (i : nat) : arcmd V :=
    fun g => match nth_error (a_st g) i with
             | Some v => (Ok v, g)
             | None => (Undef UOutOfBounds, g)
             end.
  (* stencilStates_(...), written: ode_implicit_stepper_arbitrary.hpp 203, 212, 223-224, 234-235, 247-249, 260-262 *)
  Definition a_set_st (i : nat) (v : V) : arcmd unit :=
    fun g => match list_set (a_st g) i v with
             | Some l => (Ok tt, mk_ast (a_y g) l (a_rec g) (a_time g) (a_dt g) (a_step g)
                                        (a_w g) (a_ws g))
             | None => (Undef UOutOfBounds, g)
             end.
  (* ode_implicit_stepper_arbitrary.hpp 127 *)
  Definition a_solve : arcmd unit :=
    fun g =>
      let '(r, (y, ws, w)) :=
        run_solver (arb_rj (a_st g) (a_time g) (a_step g) (a_dt g))
                   (solver (a_ws g) (a_y g)) (a_y g) (a_ws g) (a_w g) in
      (r, mk_ast y (a_st g) (a_rec g) (a_time g) (a_dt g) (a_step g) w ws).

  (** ode_implicit_stepper_arbitrary.hpp 195-263. [n] is numAuxStates; only 1, 2, 3 compile. *)
  Definition a_update_aux (n : nat) : arcmd unit :=
    match n with
    | 1%nat => (v <- a_get_st 0;; a_set_rec v);;; (v <- a_get;; a_set_st 0 v)
    | 2%nat => (v <- a_get_st 1;; a_set_rec v);;; (v <- a_get_st 0;; a_set_st 1 v);;;
               (v <- a_get;; a_set_st 0 v)
    | 3%nat => (v <- a_get_st 2;; a_set_rec v);;; (v <- a_get_st 1;; a_set_st 2 v);;;
               (v <- a_get_st 0;; a_set_st 1 v);;; (v <- a_get;; a_set_st 0 v)
    | _ => undef UOutOfBounds
    end.
  (* ode_implicit_stepper_arbitrary.hpp 206-213, 227-236, 252-263 *)
  Definition a_rollback (n : nat) : arcmd unit :=
    match n with
    | 1%nat => (v <- a_get_st 0;; a_set v);;; (v <- a_get_rec;; a_set_st 0 v)
    | 2%nat => (v <- a_get_st 0;; a_set v);;; (v <- a_get_st 1;; a_set_st 0 v);;;
               (v <- a_get_rec;; a_set_st 1 v)
    | 3%nat => (v <- a_get_st 0;; a_set v);;; (v <- a_get_st 1;; a_set_st 0 v);;;
               (v <- a_get_st 2;; a_set_st 1 v);;; (v <- a_get_rec;; a_set_st 2 v)
    | _ => undef UOutOfBounds
    end.

  (** ode_implicit_stepper_arbitrary.hpp 111-134 *)
  Definition arb_step (n : nat) (t : S) (step : Z) (dt : S) : arcmd unit :=
    a_info t dt step;;;
    a_update_aux n;;;
    catch a_solve is_solve_failure (fun _ => a_rollback n;;; throw ETimeStep).

  (** ode_implicit_stepper_arbitrary.hpp 92-96: construction; systemObj is moved into systemObj_ before the stencil
      states are created from it. *)
  Definition arb_create {Sys} (createState : Sys -> V) (moved_from : Sys -> Sys)
             (n : nat) (temporary : bool) (sys : Sys) : Sys * list V * V :=
    let arg := if temporary then moved_from sys else sys in
    (sys, repeat (createState arg) n, createState arg).
End Arbitrary.
Arguments mk_ast {S V W Ws}.
Arguments a_y {S V W Ws}. Arguments a_st {S V W Ws}. Arguments a_rec {S V W Ws}.
Arguments a_time {S V W Ws}. Arguments a_dt {S V W Ws}. Arguments a_step {S V W Ws}.
Arguments a_w {S V W Ws}. Arguments a_ws {S V W Ws}.

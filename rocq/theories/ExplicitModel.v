(** Model of the explicit steppers (include/pressio/ode/impl/
    ode_explicit_stepper_without_mass_matrix.hpp, ..._with_mass_matrix.hpp and
    ode_explicit_create_impl.hpp). No proofs in this file.

    Simplification: the independent variable has the same type as the scalar of
    the state (the code multiplies the two). *)
From Coq Require Import ZArith List Bool.
From Verif Require Import Base.
Import ListNotations.
Local Open Scope Z_scope.
Local Open Scope cmd_scope.

(** ode/ode_enum_and_tags.hpp 54-65. *)
Inductive scheme :=
| ForwardEuler | RungeKutta4 | AdamsBashforth2 | SSPRungeKutta3
| BDF1 | BDF2 | CrankNicolson | ImplicitArbitrary.

(** ode/ode_constants.hpp 58-76: quotients of small integers. *)
Section Constants.
  Context {S : Type} (o : sops S).
  (* ode_constants.hpp 61 *)
  Definition k_negOne := sZ o (-1).
  (* ode_constants.hpp 63 *)
  Definition k_one := sZ o 1.
  (* ode_constants.hpp 64 *)
  Definition k_two := sZ o 2.
  (* ode_constants.hpp 65 *)
  Definition k_three := sZ o 3.
  (* ode_constants.hpp 66 *)
  Definition k_four := sZ o 4.
  (* ode_constants.hpp 67 *)
  Definition k_six := sZ o 6.
  (* ode_constants.hpp 69 *)
  Definition k_negOneHalf := sdiv o k_negOne k_two.
  (* ode_constants.hpp 70 *)
  Definition k_oneOvThree := sdiv o k_one k_three.
  (* ode_constants.hpp 71 *)
  Definition k_twoOvThree := sdiv o k_two k_three.
  (* ode_constants.hpp 72 *)
  Definition k_threeOvFour := sdiv o k_three k_four.
  (* ode_constants.hpp 73 *)
  Definition k_fourOvThree := sdiv o k_four k_three.
  (* ode_constants.hpp 74 *)
  Definition k_threeOvTwo := sdiv o k_three k_two.
  (* ode_constants.hpp 75 *)
  Definition k_fourInv := sdiv o k_one k_four.
End Constants.

(** What the user's system and rhs observer see. *)
(* the calls in ode_explicit_stepper_without_mass_matrix.hpp 179-180, 208-209, 218-219, 246-264, 298-320, and ode_explicit_stepper_with_mass_matrix.hpp 219-220 and its like *)
Inductive ecall (S V : Type) :=
| ERhs (y : V) (t : S)                          (* rhs or massMatrixAndRhs *)
| EObs (step stage : Z) (t : S) (f : V).        (* rhsObserver *)
Arguments ERhs {S V}. Arguments EObs {S V}.

Section Explicit.
  Context {S V M W : Type} (o : sops S) (vo : vops S V).

  (** User objects: the system writes into a buffer passed by reference; the
      buffer's new content is returned also when it throws. *)
  (* systemObj_ and the arguments solver and rhsObserver: ode_explicit_stepper_without_mass_matrix.hpp 73, 139; ode_explicit_stepper_with_mass_matrix.hpp 76, 169-170 *)
  Record esys := mk_esys {
    es_rhs : V -> S -> V -> W -> outcome unit * (V * W);
    es_mmrhs : V -> S -> M -> V -> W -> outcome unit * (M * V * W);
    es_solve : M -> V -> V -> W -> outcome unit * (V * W); (* solver.solve(M, x, b): new x *)
    es_obs : Z -> Z -> S -> V -> W -> outcome unit * W
  }.
  Variable u : esys.

  (** Stepper object, the caller's state, user world, calls made.
      Without mass matrix [x_bufs] is rhsInstances_ and [x_aux] auxiliaryState_;
      with mass matrix [x_rhs] is rhsInstance_, [x_bufs] xInstances_ and [x_M]
      massMatrix_. *)
  (* members and arguments: ode_explicit_stepper_without_mass_matrix.hpp 72-75, 135-139; ode_explicit_stepper_with_mass_matrix.hpp 75-83, 165-170 *)
  Record est := mk_est {
    x_y : V; x_bufs : list V; x_aux : V; x_rhs : V; x_M : M; x_w : W;
    x_tr : list (ecall S V)
  }.
  (* model only: computations over est *)
  Definition ecmd := cmd est.

  (* odeState, read: ode_explicit_stepper_without_mass_matrix.hpp 120, 135 *)
  Definition get_y : ecmd V := fun g => (Ok (x_y g), g).
  (* odeState, written: ode_explicit_stepper_without_mass_matrix.hpp 185, 210, 220, 266, 323 *)
  Definition set_y (v : V) : ecmd unit :=
    fun g => (Ok tt, mk_est v (x_bufs g) (x_aux g) (x_rhs g) (x_M g) (x_w g) (x_tr g)).
  (* auxiliaryState_, read: ode_explicit_stepper_without_mass_matrix.hpp 75, 254, 263, 305, 312, 319 *)
  Definition get_aux : ecmd V := fun g => (Ok (x_aux g), g).
  (* auxiliaryState_, written: ode_explicit_stepper_without_mass_matrix.hpp 249, 257, 336 *)
  Definition set_aux (v : V) : ecmd unit :=
    fun g => (Ok tt, mk_est (x_y g) (x_bufs g) v (x_rhs g) (x_M g) (x_w g) (x_tr g)).
  (** operator[] of std::vector: out of bounds is undefined. *)
  (* rhsInstances_[i], xInstances_[i], read: ode_explicit_stepper_without_mass_matrix.hpp 178, 207, 213-214, 282-285; ode_explicit_stepper_with_mass_matrix.hpp 217 *)
  Definition get_b (i : nat) : ecmd V :=
    fun g => match nth_error (x_bufs g) i with
             | Some v => (Ok v, g)
             | None => (Undef UOutOfBounds, g)
             end.
  (* model only: replaces one entry of a list *)
  Fixpoint list_set {A} (l : list A) (i : nat) (v : A) : option (list A) :=
    match l, i with
    | [], _ => None
    | _ :: l', O => Some (v :: l')
    | a :: l', Datatypes.S j => match list_set l' j v with Some r => Some (a :: r) | None => None end
    end.
  (* rhsInstances_[i], xInstances_[i], written: ode_explicit_stepper_without_mass_matrix.hpp 216; ode_explicit_stepper_with_mass_matrix.hpp 217 and its like *)
  Definition set_b (i : nat) (v : V) : ecmd unit :=
    fun g => match list_set (x_bufs g) i v with
             | Some l => (Ok tt, mk_est (x_y g) l (x_aux g) (x_rhs g) (x_M g) (x_w g) (x_tr g))
             | None => (Undef UOutOfBounds, g)
             end.

  (** systemObj_.get().rhs(y, t, rhsInstances_[i]) *)
  (* ode_explicit_stepper_without_mass_matrix.hpp 179, 208, 218, 246, 254, 263, 298, 305, 312, 319 *)
  Definition call_rhs (y : V) (t : S) (i : nat) : ecmd unit :=
    fun g => match nth_error (x_bufs g) i with
             | None => (Undef UOutOfBounds, g)
             | Some old =>
                 let '(r, (new, w')) := es_rhs u y t old (x_w g) in
                 match list_set (x_bufs g) i new with
                 | None => (Undef UOutOfBounds, g)
                 | Some l => (r, mk_est (x_y g) l (x_aux g) (x_rhs g) (x_M g) w'
                                        (x_tr g ++ [ERhs y t]))
                 end
             end.
  (** rhsObserver(step, stage, t, f) *)
  (* ode_explicit_stepper_without_mass_matrix.hpp 180, 209, 219, 247, 255, 264, 299, 306, 313, 320; ode_explicit_stepper_with_mass_matrix.hpp 220 and its like *)
  Definition call_obs (step stage : Z) (t : S) (f : V) : ecmd unit :=
    fun g => let '(r, w') := es_obs u step stage t f (x_w g) in
             (r, mk_est (x_y g) (x_bufs g) (x_aux g) (x_rhs g) (x_M g) w'
                        (x_tr g ++ [EObs step stage t f])).
  (** rhs evaluation into buffer i followed by the rhs observer, as in every
      stage of every scheme. *)
  (* ode_explicit_stepper_without_mass_matrix.hpp 179-180, 208-209, 218-219, 246-247, 254-255, 263-264, 298-299, 305-306, 312-313, 319-320 *)
  Definition stage_eval (step stage : Z) (y : V) (t : S) (i : nat) : ecmd unit :=
    call_rhs y t i;;; (f <- get_b i;; call_obs step stage t f).

  (** ** Without mass matrix *)
  (** ode_explicit_stepper_without_mass_matrix.hpp 167-186 *)
  Definition fe_step (t h : S) (step : Z) : ecmd unit :=
    y <- get_y;;
    stage_eval step 0 y t 0;;;
    (f <- get_b 0;; set_y (upd1 vo y (k_one o) f h)).

  (** ode_explicit_stepper_without_mass_matrix.hpp 188-222 *)
  Definition ab2_step (t h : S) (step : Z) : ecmd unit :=
    let cfn := smul o (k_threeOvTwo o) h in
    let cfnm1 := smul o (k_negOneHalf o) h in
    y <- get_y;;
    if step =? 1 then
      stage_eval step 0 y t 0;;;
      (f <- get_b 0;; set_y (upd1 vo y (k_one o) f h))
    else
      fn <- get_b 0;;
      set_b 1 fn;;;
      stage_eval step 0 y t 0;;;
      (fn' <- get_b 0;; (fnm1 <- get_b 1;;
       set_y (upd2 vo y (k_one o) fn' cfn fnm1 cfnm1))).

  (** ode_explicit_stepper_without_mass_matrix.hpp 224-270 *)
  Definition ssprk3_step (t h : S) (step : Z) : ecmd unit :=
    let t_phalf := sadd o t (sdiv o h (k_two o)) in
    let t_next := sadd o t h in
    y <- get_y;;
    stage_eval step 0 y t 0;;;
    (f0 <- get_b 0;; set_aux (upd2_0 vo y (k_one o) f0 h));;;
    (u1 <- get_aux;; stage_eval step 1 u1 t_next 0);;;
    (u1 <- get_aux;; (f1 <- get_b 0;;
     set_aux (upd2 vo u1 (k_fourInv o) y (k_threeOvFour o) f1 (smul o (k_fourInv o) h))));;;
    (u2 <- get_aux;; stage_eval step 2 u2 t_phalf 0);;;
    (u2 <- get_aux;; (f2 <- get_b 0;;
     set_y (upd2 vo y (k_oneOvThree o) u2 (k_twoOvThree o) f2 (smul o (k_twoOvThree o) h)))).

  (** ode_explicit_stepper_without_mass_matrix.hpp 328-337: yIn := 1*stateIn + factor*rhsIn *)
  Definition rk4_stage_update (stateIn rhsIn : V) (factor : S) : V :=
    upd2_0 vo stateIn (k_one o) rhsIn factor.

  (** ode_explicit_stepper_without_mass_matrix.hpp 272-326 *)
  Definition rk4_step (t h : S) (step : Z) : ecmd unit :=
    let h2 := sdiv o h (k_two o) in
    let t_phalf := sadd o t h2 in
    let t_next := sadd o t h in
    let h6 := sdiv o h (k_six o) in
    let h3 := sdiv o h (k_three o) in
    y <- get_y;;
    stage_eval step 0 y t 0;;;
    (r1 <- get_b 0;; set_aux (rk4_stage_update y r1 h2));;;
    (a <- get_aux;; stage_eval step 1 a t_phalf 1);;;
    (r2 <- get_b 1;; set_aux (rk4_stage_update y r2 h2));;;
    (a <- get_aux;; stage_eval step 2 a t_phalf 2);;;
    (r3 <- get_b 2;; set_aux (rk4_stage_update y r3 h));;;
    (a <- get_aux;; stage_eval step 3 a t_next 3);;;
    (r1 <- get_b 0;; (r2 <- get_b 1;; (r3 <- get_b 2;; (r4 <- get_b 3;;
     set_y (upd4 vo y (k_one o) r1 h6 r2 h3 r3 h3 r4 h6))))).

  (** ode_explicit_stepper_without_mass_matrix.hpp 120-164: operator(). A name outside the four does nothing. *)
  Definition explicit_step (name : scheme) (t : S) (step : Z) (h : S) : ecmd unit :=
    match name with
    | ForwardEuler => fe_step t h step
    | RungeKutta4 => rk4_step t h step
    | AdamsBashforth2 => ab2_step t h step
    | SSPRungeKutta3 => ssprk3_step t h step
    | _ => ret tt
    end.

  (** ode_explicit_create_impl.hpp 54-83 with the constructors 83-117:
      the number of rhs buffers, or the exception. *)
  Definition explicit_num_bufs (name : scheme) : outcome nat :=
    match name with
    | ForwardEuler => Ok 1%nat
    | RungeKutta4 => Ok 4%nat
    | AdamsBashforth2 => Ok 2%nat
    | SSPRungeKutta3 => Ok 1%nat
    | _ => Throw ERuntime
    end.

  (** ** With mass matrix (ode_explicit_stepper_with_mass_matrix.hpp) *)
  (** systemObj_.get().massMatrixAndRhs(y, t, massMatrix_, rhsInstance_) *)
  (* ode_explicit_stepper_with_mass_matrix.hpp 219 and its like *)
  Definition call_mmrhs (y : V) (t : S) : ecmd unit :=
    fun g => let '(r, (m', f', w')) := es_mmrhs u y t (x_M g) (x_rhs g) (x_w g) in
             (r, mk_est (x_y g) (x_bufs g) (x_aux g) f' m' w' (x_tr g ++ [ERhs y t])).
  (* rhsInstance_, read: ode_explicit_stepper_with_mass_matrix.hpp 77, 216 *)
  Definition get_rhs : ecmd V := fun g => (Ok (x_rhs g), g).
  (** solver.solve(massMatrix_, xInstances_[i], rhsInstance_) *)
  (* ode_explicit_stepper_with_mass_matrix.hpp 221 and its like *)
  Definition call_solve (i : nat) : ecmd unit :=
    fun g => match nth_error (x_bufs g) i with
             | None => (Undef UOutOfBounds, g)
             | Some old =>
                 let '(r, (new, w')) := es_solve u (x_M g) old (x_rhs g) (x_w g) in
                 match list_set (x_bufs g) i new with
                 | None => (Undef UOutOfBounds, g)
                 | Some l => (r, mk_est (x_y g) l (x_aux g) (x_rhs g) (x_M g) w' (x_tr g))
                 end
             end.
  (** massMatrixAndRhs; rhsObserver; solve: every stage of every scheme. *)
  (* ode_explicit_stepper_with_mass_matrix.hpp 219-221 and its like *)
  Definition stage_solve (step stage : Z) (y : V) (t : S) (i : nat) : ecmd unit :=
    call_mmrhs y t;;; (f <- get_rhs;; call_obs step stage t f);;; call_solve i.

  (** ode_explicit_stepper_with_mass_matrix.hpp 200-228 *)
  Definition fe_step_mm (t h : S) (step : Z) : ecmd unit :=
    y <- get_y;;
    stage_solve step 0 y t 0;;;
    (x <- get_b 0;; set_y (upd1 vo y (k_one o) x h)).

  (** ode_explicit_stepper_with_mass_matrix.hpp 230-276 *)
  Definition ab2_step_mm (t h : S) (step : Z) : ecmd unit :=
    y <- get_y;;
    if step =? 1 then
      stage_solve step 0 y t 0;;;
      (x <- get_b 0;; set_y (upd1 vo y (k_one o) x h))
    else
      xn <- get_b 0;;
      set_b 1 xn;;;
      stage_solve step 0 y t 0;;;
      (xn' <- get_b 0;; (xnm1 <- get_b 1;;
       set_y (upd2 vo y (k_one o) xn' (smul o (k_threeOvTwo o) h)
                   xnm1 (smul o (k_negOneHalf o) h)))).

  (** ode_explicit_stepper_with_mass_matrix.hpp 278-322: x is xInstances_[0], the auxiliary state xInstances_[1] *)
  Definition ssprk3_step_mm (t h : S) (step : Z) : ecmd unit :=
    let t_phalf := sadd o t (sdiv o h (k_two o)) in
    let t_next := sadd o t h in
    y <- get_y;;
    stage_solve step 0 y t 0;;;
    (x <- get_b 0;; set_b 1 (upd2_0 vo y (k_one o) x h));;;
    (u1 <- get_b 1;; stage_solve step 1 u1 t_next 0);;;
    (u1 <- get_b 1;; (x <- get_b 0;;
     set_b 1 (upd2 vo u1 (k_fourInv o) y (k_threeOvFour o) x (smul o (k_fourInv o) h))));;;
    (u2 <- get_b 1;; stage_solve step 2 u2 t_phalf 0);;;
    (u2 <- get_b 1;; (x <- get_b 0;;
     set_y (upd2 vo y (k_oneOvThree o) u2 (k_twoOvThree o) x (smul o (k_twoOvThree o) h)))).

  (** ode_explicit_stepper_with_mass_matrix.hpp 324-385: x1..x4 are xInstances_[0..3], the auxiliary state xInstances_[4] *)
  Definition rk4_step_mm (t h : S) (step : Z) : ecmd unit :=
    let h2 := sdiv o h (k_two o) in
    let t_phalf := sadd o t h2 in
    let t_next := sadd o t h in
    let h6 := sdiv o h (k_six o) in
    let h3 := sdiv o h (k_three o) in
    y <- get_y;;
    stage_solve step 0 y t 0;;;
    (x1 <- get_b 0;; set_b 4 (rk4_stage_update y x1 h2));;;
    (a <- get_b 4;; stage_solve step 1 a t_phalf 1);;;
    (x2 <- get_b 1;; set_b 4 (rk4_stage_update y x2 h2));;;
    (a <- get_b 4;; stage_solve step 2 a t_phalf 2);;;
    (x3 <- get_b 2;; set_b 4 (rk4_stage_update y x3 h));;;
    (a <- get_b 4;; stage_solve step 3 a t_next 3);;;
    (x1 <- get_b 0;; (x2 <- get_b 1;; (x3 <- get_b 2;; (x4 <- get_b 3;;
     set_y (upd4 vo y (k_one o) x1 h6 x2 h3 x3 h3 x4 h6))))).

  (** ode_explicit_stepper_with_mass_matrix.hpp 147-196: operator() *)
  Definition explicit_step_mm (name : scheme) (t : S) (step : Z) (h : S) : ecmd unit :=
    match name with
    | ForwardEuler => fe_step_mm t h step
    | AdamsBashforth2 => ab2_step_mm t h step
    | RungeKutta4 => rk4_step_mm t h step
    | SSPRungeKutta3 => ssprk3_step_mm t h step
    | _ => ret tt
    end.

  (** ode_explicit_stepper_with_mass_matrix.hpp 91-131 with ode_explicit_create_impl.hpp 54-83: number of xInstances_. *)
  Definition explicit_num_bufs_mm (name : scheme) : outcome nat :=
    match name with
    | ForwardEuler => Ok 1%nat
    | RungeKutta4 => Ok 5%nat
    | AdamsBashforth2 => Ok 2%nat
    | SSPRungeKutta3 => Ok 2%nat
    | _ => Throw ERuntime
    end.
  (** ode_explicit_stepper_without_mass_matrix.hpp 83-117: construction. The
      members are initialised in the order name_, systemObj_, rhsInstances_,
      auxiliaryState_; a system passed as a temporary is moved into systemObj_
      (instance_or_reference_wrapper.hpp 82-83) and the buffers are created
      afterwards from the constructor's argument, i.e. from the moved-from
      object. [moved_from s] is what the move leaves behind. The result is the
      stored system, rhsInstances_ and auxiliaryState_. *)
  Definition explicit_create {Sys} (createRhs createState : Sys -> V)
             (moved_from : Sys -> Sys) (name : scheme) (temporary : bool) (sys : Sys)
    : outcome (Sys * list V * V) :=
    match explicit_num_bufs name with
    | Ok n => let arg := if temporary then moved_from sys else sys in
              Ok (sys, repeat (createRhs arg) n, createState arg)
    | Throw e => Throw e
    | Undef b => Undef b
    | NoFuel => NoFuel
    end.
End Explicit.
Arguments mk_esys {S V M W}.
Arguments mk_est {S V M W}.

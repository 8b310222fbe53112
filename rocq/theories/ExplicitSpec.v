(** Specification vocabulary for the explicit steppers: Butcher tableaux and the
    Adams-Bashforth recurrence, as in a numerical analysis textbook. *)
From Coq Require Import ZArith List Bool.
From Verif Require Import Base ExplicitModel.
Import ListNotations.
Local Open Scope Z_scope.

(** * Explicit Runge-Kutta methods
    k_i = f(y + h sum_{j<i} a_ij k_j, t + c_i h),  y' = y + h sum_i b_i k_i *)
Record tableau (S : Type) := mk_tab {
  tb_stages : list (S * list S);      (* c_i and a_i1 .. a_i,i-1 *)
  tb_b : list S
}.
Arguments mk_tab {S}. Arguments tb_stages {S}. Arguments tb_b {S}.

Section ERK.
  Context {S V : Type} (o : sops S) (vo : vops S V) (f : V -> S -> V).

  (** y + sum_j (h * a_j) k_j *)
  Fixpoint ycomb (h : S) (y : V) (a : list S) (k : list V) : V :=
    match a, k with
    | aj :: a', kj :: k' => ycomb h (vadd vo y (vscale vo (smul o h aj) kj)) a' k'
    | _, _ => y
    end.

  Record stage := mk_stage { st_y : V; st_t : S; st_k : V }.

  (** The stages, given the slopes of the earlier ones. *)
  Fixpoint erk_stages (rows : list (S * list S)) (y : V) (t h : S) (ks : list V)
    : list stage :=
    match rows with
    | [] => []
    | (c, a) :: rows' =>
        let Y := ycomb h y a ks in
        let ti := sadd o t (smul o c h) in
        let k := f Y ti in
        mk_stage Y ti k :: erk_stages rows' y t h (ks ++ [k])
    end.

  Definition erk_next (tab : tableau S) (y : V) (t h : S) : V :=
    ycomb h y (tb_b tab) (map st_k (erk_stages (tb_stages tab) y t h [])).

  (** The user calls an s-stage method has to make in step number [step]: for
      each stage, the right-hand side at the stage's state and time, then the rhs
      observer with the stage's index, time and [seen], the value to observe. *)
  Fixpoint erk_calls (step i : Z) (seen : V -> S -> V) (l : list stage)
    : list (ecall S V) :=
    match l with
    | [] => []
    | s :: l' => ERhs (st_y s) (st_t s)
                 :: EObs step i (st_t s) (seen (st_y s) (st_t s))
                 :: erk_calls step (i + 1) seen l'
    end.
End ERK.
Arguments mk_stage {S V}.

(** The tableaux (rationals as quotients of integers). *)
Section Tableaux.
  Context {S : Type} (o : sops S).
  Local Notation "a // b" := (sdiv o (sZ o a) (sZ o b)) (at level 40).
  Local Notation "# a" := (sZ o a) (at level 5).
  (** forward Euler *)
  Definition tab_fe : tableau S := mk_tab [(#0, [])] [#1].
  (** the classical fourth-order method *)
  Definition tab_rk4 : tableau S :=
    mk_tab [ (#0, []);
             (1//2, [1//2]);
             (1//2, [#0; 1//2]);
             (#1, [#0; #0; #1]) ]
           [1//6; 1//3; 1//3; 1//6].
  (** Shu-Osher SSPRK(3,3) *)
  Definition tab_ssprk3 : tableau S :=
    mk_tab [ (#0, []);
             (#1, [#1]);
             (1//2, [1//4; 1//4]) ]
           [1//6; 1//6; 2//3].
  Definition tab_of (name : scheme) : option (tableau S) :=
    match name with
    | ForwardEuler => Some tab_fe
    | RungeKutta4 => Some tab_rk4
    | SSPRungeKutta3 => Some tab_ssprk3
    | _ => None
    end.
End Tableaux.

(** * Two-step Adams-Bashforth, started with forward Euler. [ts k], [hs k]:
    start time and size of the (k+1)-th step. *)
Definition ab2_sequence {S V} (o : sops S) (vo : vops S V) (f : V -> S -> V)
           (ts hs : nat -> S) (ys : nat -> V) : Prop :=
  ys 1%nat = vadd vo (ys 0%nat) (vscale vo (hs 0%nat) (f (ys 0%nat) (ts 0%nat))) /\
  forall k : nat,
    ys (k + 2)%nat =
    vadd vo (ys (k + 1)%nat)
      (vscale vo (hs (k + 1)%nat)
        (vadd vo
          (vscale vo (sdiv o (sZ o 3) (sZ o 2)) (f (ys (k + 1)%nat) (ts (k + 1)%nat)))
          (vscale vo (sopp o (sdiv o (sZ o 1) (sZ o 2))) (f (ys k) (ts k))))).

(** * Use of a stepper object *)
Section Use.
  Context {S V M W : Type}.

  (** Situations a stepper object can be in, with the caller's state: freshly
      created with [n] buffers; after any step call with any outcome; the caller
      may change state and world between calls. [do_step] is the object's
      operator(). *)
  Inductive used (n : nat) (do_step : S -> Z -> S -> @ecmd S V M W unit)
    : @est S V M W -> Prop :=
  | UsedFresh y bufs aux f m w tr :
      length bufs = n -> used n do_step (mk_est y bufs aux f m w tr)
  | UsedStep g t step h r g' :
      used n do_step g -> do_step t step h g = (r, g') -> used n do_step g'
  | UsedCaller g y w tr :
      used n do_step g ->
      used n do_step (mk_est y (x_bufs g) (x_aux g) (x_rhs g) (x_M g) w tr).

  (** From worlds in [good] on, the user's right-hand side computes [f] and the
      rhs observer returns, and they stay in [good]. *)
  Definition computes (u : @esys S V M W) (good : W -> Prop) (f : V -> S -> V) : Prop :=
    (forall y t old w, good w ->
       exists w', es_rhs u y t old w = (Ok tt, (f y t, w')) /\ good w') /\
    (forall step stage t v w, good w ->
       exists w', es_obs u step stage t v w = (Ok tt, w') /\ good w').

  (** Mass-matrix form: [mass], [force] are what the user's system computes and
      the linear solver returns some x with mass*x = force. *)
  Definition computes_mm (u : @esys S V M W) (good : W -> Prop) (apply : M -> V -> V)
             (mass : V -> S -> M) (force : V -> S -> V) : Prop :=
    (forall y t m old w, good w ->
       exists w', es_mmrhs u y t m old w = (Ok tt, (mass y t, force y t, w')) /\ good w') /\
    (forall y t old w, good w ->
       exists x w', es_solve u (mass y t) old (force y t) w = (Ok tt, (x, w')) /\
                    apply (mass y t) x = force y t /\ good w') /\
    (forall step stage t v w, good w ->
       exists w', es_obs u step stage t v w = (Ok tt, w') /\ good w').
End Use.

(** Ways of not completing normally. *)
Inductive failure := FThrow (e : exn) | FUndef (b : ub) | FNoFuel.
Definition fails {A} (r : outcome A) : option failure :=
  match r with
  | Ok _ => None | Throw e => Some (FThrow e) | Undef b => Some (FUndef b)
  | NoFuel => Some FNoFuel
  end.
(** The user's objects fail only in the ways [F]. *)
Definition fails_only {S V M W} (u : @esys S V M W) (F : failure -> Prop) : Prop :=
  (forall y t old w f, fails (fst (es_rhs u y t old w)) = Some f -> F f) /\
  (forall y t m old w f, fails (fst (es_mmrhs u y t m old w)) = Some f -> F f) /\
  (forall m x b w f, fails (fst (es_solve u m x b w)) = Some f -> F f) /\
  (forall k i t v w f, fails (fst (es_obs u k i t v w)) = Some f -> F f).

(** Steps numbered 1..n of a stepper, at times [ts] with sizes [hs]. *)
Fixpoint drive {S V M W} (do_step : S -> Z -> S -> @ecmd S V M W unit)
         (ts hs : nat -> S) (n : nat) : @ecmd S V M W unit :=
  match n with
  | O => ret tt
  | Datatypes.S m =>
      bind (drive do_step ts hs m) (fun _ => do_step (ts m) (Z.of_nat n) (hs m))
  end.

(** * Problems with known solutions *)
Section Known.
  Context {S V : Type} (o : sops S) (vo : vops S V).
  (** c_0 + c_1 t + c_2 t^2 + ... *)
  Fixpoint vpoly (cs : list V) (t : S) : V :=
    match cs with
    | [] => vzero vo
    | c :: cs' => vadd vo c (vscale vo t (vpoly cs' t))
    end.
  (** antiderivative: c_0 t / k + c_1 t^2 / (k+1) + ...; k = 1 in the end *)
  Fixpoint vint (k : positive) (cs : list V) (t : S) : V :=
    match cs with
    | [] => vzero vo
    | c :: cs' => vscale vo t (vadd vo (vscale vo (sdiv o (s1 o) (s_of_pos o k)) c)
                                       (vint (Pos.succ k) cs' t))
    end.
  (** y + h/k L (y + h/(k+1) L (y + ...)), n applications of L; for k = 1 the
      Taylor polynomial of degree n of exp(h L) y *)
  Fixpoint exp_taylor (L : V -> V) (h : S) (n : nat) (k : positive) (y : V) : V :=
    match n with
    | O => y
    | Datatypes.S m =>
        vadd vo y (vscale vo (sdiv o h (s_of_pos o k)) (L (exp_taylor L h m (Pos.succ k) y)))
    end.
End Known.
(** Number of polynomial coefficients integrated exactly, and degree of the
    growth factor. *)
Definition order_of (name : scheme) : option nat :=
  match name with
  | ForwardEuler => Some 1%nat | SSPRungeKutta3 => Some 3%nat
  | RungeKutta4 => Some 4%nat | _ => None
  end.

(** Nonlinear solver objects and the objects they are given: the registries
    (solvers_nonlinear/impl/registries.hpp), InstanceOrReferenceWrapper
    (impl/instance_or_reference_wrapper.hpp) and solve (impl/root_finder.cpp 350-396,
    impl/nonlinear_least_squares.hpp 169-202). Only which objects a solve works with is modelled, not what
    it computes. No proofs in this file. *)
From Coq Require Import List Bool Arith.
From Verif Require Import Base.
Import ListNotations.

Section Objects.
  (** Values of systems, linear (or QR) solvers and weighting operators; results of a solve *)
  Context {Sy L Wt Res : Type}.
  (** The move constructors: the new object and what is left of the old one *)
  Variables (move_l : L -> L * L) (move_w : Wt -> Wt * Wt).
  (** The number of residuals of a system; weigher.leadingDim() *)
  Variables (extent : Sy -> nat) (leading : Wt -> nat).
  (** solve(system, x): the weighting operator comes with the leading dimension of the buffers for its results;
      the linear solver object is used and changed *)
  Variable run : Sy -> option (Wt * nat) -> L -> outcome Res * L.

  (** An argument of a factory: a named object, by its place, or a temporary *)
  (* SystemType const & and _InnSolverType &&, _WeightingOpType &&: registries.hpp 39-40, 121-122, 179-182, 245-248, 308-309, 366-367 *)
  Inductive arg (T : Type) := Named (a : nat) | Temp (v : T).
  (** InstanceOrReferenceWrapper<T&> (instance_or_reference_wrapper.hpp 89-106) and <T> (61-87) *)
  Inductive held (T : Type) := Ref (a : nat) | Own (v : T).
  (** The registry: SystemType const * (nowhere: the temporary is gone when the factory returns), InnerSolverTag,
      and WeightingOperatorTag with the leading dimension of the WeightedResidualTag, WeightedJacobianTag buffers *)
  (* registries.hpp 35-36, 117-118, 174-176, 240-242, 304-305, 362-363; buffers d5_, d6_: 170-171, 236-237 *)
  Record nsolver := mk_nsolver { ns_sys : option nat; ns_lin : held L; ns_w : option (held Wt * nat) }.
  (** The named objects; [None]: no object there *)
  (* model only: the caller's variables *)
  Record mem := mk_mem { m_sys : nat -> option Sy; m_lin : nat -> option L; m_w : nat -> option Wt; m_ns : nat -> option nsolver }.
  (* model only: assignment to a variable *)
  Definition put {A} (h : nat -> A) (a : nat) (v : A) : nat -> A := fun b => if Nat.eqb a b then v else h b.
  (* model only *)
  Definition set_sys (m : mem) h := mk_mem h (m_lin m) (m_w m) (m_ns m).
  (* model only *)
  Definition set_lin (m : mem) h := mk_mem (m_sys m) h (m_w m) (m_ns m).
  (* model only *)
  Definition set_w (m : mem) h := mk_mem (m_sys m) (m_lin m) h (m_ns m).
  (* model only *)
  Definition set_ns (m : mem) h := mk_mem (m_sys m) (m_lin m) (m_w m) h.

  (* RegistryNewton, GaussNewtonNormalEqs, GaussNewtonQr, LevMarNormalEqs: registries.hpp 20, 95, 283, 334; weighted 147; compact weighted 213 *)
  Inductive kind := Plain | Weighted | CompactWeighted.
  (** What a caller does *)
  (* model only: a caller's actions *)
  Inductive nuse :=
  | NSystem (a : nat) (v : option Sy)      (* create, assign or destroy a named object *)
  | NLinear (a : nat) (v : option L)
  | NWeigher (a : nat) (v : option Wt)
  | NCreate (s : nat) (k : kind) (sy : arg Sy) (l : arg L) (w : arg Wt)   (* Plain: the factory has no argument w *)
  | NCopy (s s' : nat)
  | NMove (s s' : nat)
  | NDestroy (s : nat)
  | NSolve (s : nat)                (* solve(x) *)
  | NSolveWith (s a : nat).         (* solve(system, x) *)

  (** instance_or_reference_wrapper.hpp 102 and 82-83 *)
  Definition hold {T} (mv : T -> T * T) (x : arg T) : held T :=
    match x with Named _ a => Ref T a | Temp _ v => Own T (fst (mv v)) end.
  (** The argument after the wrapper was constructed from it *)
  (* what weigher refers to at registries.hpp 260-261, after 257 *)
  Definition left_over {T} (mv : T -> T * T) (h : nat -> option T) (x : arg T) : option T :=
    match x with Named _ a => h a | Temp _ v => Some (snd (mv v)) end.
  (* the objects the parameters refer to, registries.hpp 40, 122, 180-182, 246-248 *)
  Definition arg_value {T} (h : nat -> option T) (x : arg T) : option T :=
    match x with Named _ a => h a | Temp _ v => Some v end.
  (** registries.hpp 39-45, 121-129, 179-192, 245-262: the last two statements of the latter (260-261) resize the buffers to
      weigher.leadingDim(), [weigher] having been forwarded to d10_ *)
  Definition create (k : kind) (sy : arg Sy) (l : arg L) (w : arg Wt) (m : mem) : outcome nsolver :=
    match arg_value (m_sys m) sy, arg_value (m_lin m) l with
    | Some v, Some _ =>
        let sysp := match sy with Named _ a => Some a | Temp _ _ => None end in
        match k with
        | Plain => Ok (mk_nsolver sysp (hold move_l l) None)
        | Weighted =>
            match arg_value (m_w m) w with
            | Some _ => Ok (mk_nsolver sysp (hold move_l l) (Some (hold move_w w, extent v)))
            | None => Undef UDangling
            end
        | CompactWeighted =>
            match left_over move_w (m_w m) w with
            | Some x => Ok (mk_nsolver sysp (hold move_l l) (Some (hold move_w w, leading x)))
            | None => Undef UDangling
            end
        end
    | _, _ => Undef UDangling
    end.
  (* get(), instance_or_reference_wrapper.hpp 85-86, 104-105 *)
  Definition held_value {T} (h : nat -> option T) (x : held T) : option T :=
    match x with Ref _ a => h a | Own _ v => Some v end.
  (** solve with the system [v] *)
  (* root_finder.cpp 350, 378; nonlinear_least_squares.hpp 170 *)
  Definition solve_with (s : nat) (p : nsolver) (v : Sy) (m : mem) : outcome (option Res) * mem :=
    match held_value (m_lin m) (ns_lin p),
          match ns_w p with None => Some None | Some (w, d) => option_map (fun x => Some (x, d)) (held_value (m_w m) w) end with
    | Some l, Some w =>
        let '(r, l') := run v w l in
        (match r with Ok x => Ok (Some x) | Throw e => Throw e | Undef u => Undef u | NoFuel => NoFuel end,
         match ns_lin p with
         | Ref _ a => set_lin m (put (m_lin m) a (Some l'))
         | Own _ _ => set_ns m (put (m_ns m) s (Some (mk_nsolver (ns_sys p) (Own L l') (ns_w p))))
         end)
    | _, _ => (Undef UDangling, m)
    end.
  (* instance_or_reference_wrapper.hpp 69, 98 *)
  Definition moved_held {T} (mv : T -> T * T) (x : held T) : held T := match x with Ref _ a => Ref T a | Own _ v => Own T (fst (mv v)) end.
  (* instance_or_reference_wrapper.hpp 69, 98 *)
  Definition rest_held {T} (mv : T -> T * T) (x : held T) : held T := match x with Ref _ a => Ref T a | Own _ v => Own T (snd (mv v)) end.
  (** The implicit move constructor: every member is moved; a pointer or reference_wrapper is copied *)
  Definition moved (p : nsolver) : nsolver :=
    mk_nsolver (ns_sys p) (moved_held move_l (ns_lin p)) (option_map (fun '(w, d) => (moved_held move_w w, d)) (ns_w p)).
  (* the object the same move constructor leaves behind *)
  Definition moved_from (p : nsolver) : nsolver :=
    mk_nsolver (ns_sys p) (rest_held move_l (ns_lin p)) (option_map (fun '(w, d) => (rest_held move_w w, d)) (ns_w p)).
  (* solve(system, x): root_finder.cpp 350, 378, nonlinear_least_squares.hpp 170; solve(x): root_finder.cpp 391-396, nonlinear_least_squares.hpp 197-202 (the pointer is never null) *)
  Definition use_one (u : nuse) (m : mem) : outcome (option Res) * mem :=
    match u with
    | NSystem a v => (Ok None, set_sys m (put (m_sys m) a v))
    | NLinear a v => (Ok None, set_lin m (put (m_lin m) a v))
    | NWeigher a v => (Ok None, set_w m (put (m_w m) a v))
    | NCreate s k sy l w =>
        match create k sy l w m with
        | Ok p => (Ok None, set_ns m (put (m_ns m) s (Some p)))
        | Throw e => (Throw e, m) | Undef e => (Undef e, m) | NoFuel => (NoFuel, m)
        end
    | NCopy s s' =>
        match m_ns m s with Some p => (Ok None, set_ns m (put (m_ns m) s' (Some p))) | None => (Undef UDangling, m) end
    | NMove s s' =>
        match m_ns m s with
        | Some p => (Ok None, set_ns m (put (put (m_ns m) s (Some (moved_from p))) s' (Some (moved p))))
        | None => (Undef UDangling, m)
        end
    | NDestroy s => (Ok None, set_ns m (put (m_ns m) s None))
    | NSolve s =>
        match m_ns m s with
        | Some p =>
            match ns_sys p with
            | Some a => match m_sys m a with Some v => solve_with s p v m | None => (Undef UDangling, m) end
            | None => (Undef UDangling, m)
            end
        | None => (Undef UDangling, m)
        end
    | NSolveWith s a =>
        match m_ns m s, m_sys m a with
        | Some p, Some v => solve_with s p v m
        | _, _ => (Undef UDangling, m)
        end
    end.
  (** A history; nothing happens after undefined behaviour *)
  (* model only: a caller's program *)
  Fixpoint use_all (us : list nuse) (m : mem) : outcome unit * mem :=
    match us with
    | [] => (Ok tt, m)
    | u :: us => match use_one u m with (Undef e, m') => (Undef e, m') | (_, m') => use_all us m' end
    end.
End Objects.

(** Model of the nonlinear solvers: Newton (RootFinder), Gauss-Newton and
    Levenberg-Marquardt (NonLinLeastSquares), and their update strategies. Paths
    are relative to include/pressio/solvers_nonlinear.

    A solver is a program that makes calls to system.residualAndJacobian; it is
    modelled as the tree of its calls, so that it can be run against any system
    and can be given to the implicit steppers ([to_sol]). The linear solver, QR
    solver and weighting operator are external: arbitrary functions with a memory
    [L] of their own, which may fail. *)
From Coq Require Import ZArith List Bool.
From Verif Require Import Base ImplicitModel NonlinDiag.
Import ListNotations.
Local Open Scope Z_scope.

(** ** Programs that call residualAndJacobian *)
(* model only: a program as the tree of its calls *)
Inductive ptree (V R J X : Type) :=
| PDone (x : X)
| PCall (y : V) (r : R) (j : option J) (k : outcome unit -> R -> option J -> ptree V R J X).
Arguments PDone {V R J X}. Arguments PCall {V R J X}.

(* model only: sequencing of such trees *)
Fixpoint ptbind {V R J X Y} (t : ptree V R J X) (k : X -> ptree V R J Y) : ptree V R J Y :=
  match t with
  | PDone x => k x
  | PCall y r j q => PCall y r j (fun e r' j' => ptbind (q e r' j') k)
  end.

(** A program with memory [G] *)
(* model only: a program with memory *)
Definition prog (V R J G A : Type) := G -> ptree V R J (outcome A * G).

Section Prog.
  Context {V R J G : Type}.
  (* model only: a step of a program *)
  Definition plift {A} (c : cmd G A) : prog V R J G A := fun s => PDone (c s).
  (* model only: a step of a program *)
  Definition pret {A} (a : A) : prog V R J G A := plift (ret a).
  (* model only: a step of a program *)
  Definition pthrow {A} (e : exn) : prog V R J G A := plift (throw e).
  (* model only: a step of a program *)
  Definition pundef {A} (u : ub) : prog V R J G A := plift (undef u).
  (* model only: a step of a program *)
  Definition pnofuel {A} : prog V R J G A := plift nofuel.
  (* model only: a step of a program *)
  Definition pget {A} (f : G -> A) : prog V R J G A := plift (fun s => (Ok (f s), s)).
  (* model only: a step of a program *)
  Definition pmod (f : G -> G) : prog V R J G unit := plift (fun s => (Ok tt, f s)).
  (* model only: a step of a program *)
  Definition pbind {A B} (m : prog V R J G A) (k : A -> prog V R J G B) : prog V R J G B :=
    fun s => ptbind (m s) (fun z =>
      match z with
      | (Ok a, s') => k a s'
      | (Throw e, s') => PDone (Throw e, s')
      | (Undef u, s') => PDone (Undef u, s')
      | (NoFuel, s') => PDone (NoFuel, s')
      end).
  (* model only: try and catch *)
  Definition pcatch {A} (m : prog V R J G A) (handled : exn -> bool) (h : exn -> prog V R J G A)
    : prog V R J G A :=
    fun s => ptbind (m s) (fun z =>
      match z with
      | (Throw e, s') => if handled e then h e s' else PDone (Throw e, s')
      | _ => PDone z
      end).
End Prog.

(** Running a program against a system [rj] with memory [W] *)
(* model only: the program run against a system *)
Fixpoint prun {V R J X W} (rj : V -> R -> option J -> W -> outcome unit * (R * option J * W))
         (t : ptree V R J X) (w : W) : X * W :=
  match t with
  | PDone x => (x, w)
  | PCall y r j k => let '(e, (r', j', w')) := rj y r j w in prun rj (k e r' j') w'
  end.
(* model only: the same as a computation *)
Definition exec {V R J G A W} (rj : V -> R -> option J -> W -> outcome unit * (R * option J * W))
           (p : prog V R J G A) : cmd (G * W) A :=
  fun g => let '((r, s), w) := prun rj (p (fst g)) (snd g) in (r, (s, w)).

Declare Scope prog_scope.
Delimit Scope prog_scope with prog.
Notation "x <- c ;; k" := (pbind c (fun x => k))
  (at level 61, c at next level, right associativity) : prog_scope.
Notation "c ;;; k" := (pbind c (fun _ => k))
  (at level 61, right associativity) : prog_scope.
Local Open Scope prog_scope.

(** ** Operations of pressio-ops used by the solvers (external) *)
(* the operations called in impl/functions.hpp 79, 86, 138, 155, 185-186, 248-249, 327-334, 386 and impl/updaters.hpp 17, 52, 143, 175-182 *)
Record nlops (S V R J H : Type) := mk_nlops {
  n_vo : vops S V;             (* ops::update, ops::scale on states *)
  n_norm : V -> S;             (* ops::norm2 of states *)
  n_dot : V -> V -> S;         (* ops::dot of states *)
  n_rnorm : R -> S;            (* ops::norm2 of residuals *)
  n_rdot : R -> R -> S;        (* ops::dot of residuals *)
  n_jtr : J -> R -> V;         (* ops::product(transpose, 1, J, r, 0, g) *)
  n_jtj : J -> J -> H;         (* ops::product(transpose, nontranspose, 1, A, B, 0, H) *)
  n_adddiag : H -> S -> H;     (* deep_copy and update(diagonal(.), 1, diagonal(H), mu) *)
  n_diagmul : H -> V -> V      (* elementwise_multiply(1, c, diagonal(H), 0, .) *)
}.
Arguments mk_nlops {S V R J H}.
Arguments n_vo {S V R J H}. Arguments n_norm {S V R J H}. Arguments n_dot {S V R J H}.
Arguments n_rnorm {S V R J H}. Arguments n_rdot {S V R J H}. Arguments n_jtr {S V R J H}.
Arguments n_jtj {S V R J H}. Arguments n_adddiag {S V R J H}. Arguments n_diagmul {S V R J H}.

(** The user's linear solver, QR solver and weighting operator *)
(* the objects called in impl/functions.hpp 136, 153, 246-247, 290-291, 352, 366, 450-456 *)
Record exts (V R J H L : Type) := mk_exts {
  x_newton : J -> R -> V -> L -> outcome unit * (V * L);      (* solve(J, r, c) *)
  x_normal : H -> V -> V -> L -> outcome unit * (V * L);      (* solve(H, g, c) *)
  x_thin : J -> L -> outcome unit * L;                        (* computeThin(J) *)
  x_qtr : R -> V -> L -> outcome unit * (V * L);              (* applyQTranspose(r, QTr) *)
  x_rsolve : V -> V -> L -> outcome unit * (V * L);           (* solve(QTr, c) *)
  x_wr : R -> R -> L -> outcome unit * (R * L);               (* W(r, Wr) *)
  x_wj : J -> J -> L -> outcome unit * (J * L)                (* W(J, WJ) *)
}.
Arguments mk_exts {V R J H L}.
Arguments x_newton {V R J H L}. Arguments x_normal {V R J H L}. Arguments x_thin {V R J H L}.
Arguments x_qtr {V R J H L}. Arguments x_rsolve {V R J H L}. Arguments x_wr {V R J H L}.
Arguments x_wj {V R J H L}.

(** impl/internal_tags.hpp 19-23: least-squares problem tags *)
Inductive lstag := GaussNewton | GaussNewtonQr | WeightedGN | CompactWeightedGN | LevMar.
(* impl/nonlinear_least_squares.hpp 243, 273 *)
Definition is_levmar (t : lstag) : bool := match t with LevMar => true | _ => false end.

(** One line printed by the logger: iteration number and values; [l_state] (the
    state at that moment) is not printed, it is recorded to state properties. *)
(* impl/diagnostics.hpp 228-289 *)
Record line (S V : Type) := mk_line { l_iter : Z; l_state : V; l_vals : list (diag * S) }.
Arguments mk_line {S V}. Arguments l_iter {S V}. Arguments l_state {S V}. Arguments l_vals {S V}.

(** Content of nonlinear_solver_failed.txt: impl/functions.hpp 527-539. *)
(* impl/functions.hpp 527-539; impl/root_finder.cpp 49-51, 69, 74, 104, 110 *)
Inductive report := RMaxIters | RError (e : exn).

(** The data a solve works on: impl/registries.hpp (fields of all registries
    together), the extension made by solve() (the caller's state and the trial
    state), the diagnostics, the LM1 updater's nu_ and what was printed. *)
(* impl/registries.hpp 19-393; impl/nonlinear_least_squares.hpp 209-210, 227-229, 247-249; impl/updaters.hpp 201 *)
Record reg (S V R J H L : Type) := mk_reg {
  g_x : V; g_trial : V; g_c : V; g_r : R; g_j : J; g_g : V; g_h : H; g_hu : H;
  g_damp : S; g_wr : R; g_wj : J; g_qtr : V; g_nu : S;
  g_diags : dcont S; g_ext : L; g_log : list (line S V); g_file : option report }.
Arguments mk_reg {S V R J H L}.
Arguments g_x {S V R J H L}. Arguments g_trial {S V R J H L}. Arguments g_c {S V R J H L}.
Arguments g_r {S V R J H L}. Arguments g_j {S V R J H L}. Arguments g_g {S V R J H L}.
Arguments g_h {S V R J H L}. Arguments g_hu {S V R J H L}. Arguments g_damp {S V R J H L}.
Arguments g_wr {S V R J H L}. Arguments g_wj {S V R J H L}. Arguments g_qtr {S V R J H L}.
Arguments g_nu {S V R J H L}. Arguments g_diags {S V R J H L}. Arguments g_ext {S V R J H L}.
Arguments g_log {S V R J H L}. Arguments g_file {S V R J H L}.

(** Settings: impl/nonlinear_least_squares.hpp 113-122, 154-168;
    impl/root_finder.cpp 291-301, 329-346. [f_params]: getLineSearchParameters. *)
(* impl/nonlinear_least_squares.hpp 113-122; impl/root_finder.cpp 292-301 *)
Record config (S : Type) := mk_config {
  f_max : Z; f_stop : stop; f_tol : S; f_update : update; f_params : option (list S) }.
Arguments mk_config {S}. Arguments f_max {S}. Arguments f_stop {S}. Arguments f_tol {S}.
Arguments f_update {S}. Arguments f_params {S}.

Section Setters.
  Context {S V R J H L : Type}.
  Notation reg' := (reg S V R J H L).
  (* StateTag, written: impl/nonlinear_least_squares.hpp 210, 229; impl/updaters.hpp 17, 77, 146, 224, 281 *)
  Definition set_x v (s : reg') : reg' := mk_reg v (g_trial s) (g_c s) (g_r s) (g_j s) (g_g s) (g_h s) (g_hu s) (g_damp s) (g_wr s) (g_wj s) (g_qtr s) (g_nu s) (g_diags s) (g_ext s) (g_log s) (g_file s).
  (* LineSearchTrialStateTag, written: impl/updaters.hpp 68, 143, 175 *)
  Definition set_trial v (s : reg') : reg' := mk_reg (g_x s) v (g_c s) (g_r s) (g_j s) (g_g s) (g_h s) (g_hu s) (g_damp s) (g_wr s) (g_wj s) (g_qtr s) (g_nu s) (g_diags s) (g_ext s) (g_log s) (g_file s).
  (* CorrectionTag, written: impl/functions.hpp 352, 356, 366, 386 *)
  Definition set_c v l (s : reg') : reg' := mk_reg (g_x s) (g_trial s) v (g_r s) (g_j s) (g_g s) (g_h s) (g_hu s) (g_damp s) (g_wr s) (g_wj s) (g_qtr s) (g_nu s) (g_diags s) l (g_log s) (g_file s).
  (* ResidualTag and JacobianTag, written: impl/functions.hpp 23, 68 *)
  Definition set_rj v w (s : reg') : reg' := mk_reg (g_x s) (g_trial s) (g_c s) v w (g_g s) (g_h s) (g_hu s) (g_damp s) (g_wr s) (g_wj s) (g_qtr s) (g_nu s) (g_diags s) (g_ext s) (g_log s) (g_file s).
  (* GradientTag, written: impl/functions.hpp 186, 214, 249, 293, 328 *)
  Definition set_g v (s : reg') : reg' := mk_reg (g_x s) (g_trial s) (g_c s) (g_r s) (g_j s) v (g_h s) (g_hu s) (g_damp s) (g_wr s) (g_wj s) (g_qtr s) (g_nu s) (g_diags s) (g_ext s) (g_log s) (g_file s).
  (* HessianTag, written: impl/functions.hpp 185, 248, 292, 331-334 *)
  Definition set_h v (s : reg') : reg' := mk_reg (g_x s) (g_trial s) (g_c s) (g_r s) (g_j s) (g_g s) v (g_hu s) (g_damp s) (g_wr s) (g_wj s) (g_qtr s) (g_nu s) (g_diags s) (g_ext s) (g_log s) (g_file s).
  (* LevenbergMarquardtUndampedHessianTag, written: impl/functions.hpp 327 *)
  Definition set_hu v (s : reg') : reg' := mk_reg (g_x s) (g_trial s) (g_c s) (g_r s) (g_j s) (g_g s) (g_h s) v (g_damp s) (g_wr s) (g_wj s) (g_qtr s) (g_nu s) (g_diags s) (g_ext s) (g_log s) (g_file s).
  (* LevenbergMarquardtDampingTag, written: impl/functions.hpp 474; impl/updaters.hpp 226, 231, 273, 277 *)
  Definition set_damp v (s : reg') : reg' := mk_reg (g_x s) (g_trial s) (g_c s) (g_r s) (g_j s) (g_g s) (g_h s) (g_hu s) v (g_wr s) (g_wj s) (g_qtr s) (g_nu s) (g_diags s) (g_ext s) (g_log s) (g_file s).
  (* WeightedResidualTag, written: impl/functions.hpp 136, 153, 246, 290 *)
  Definition set_wr v l (s : reg') : reg' := mk_reg (g_x s) (g_trial s) (g_c s) (g_r s) (g_j s) (g_g s) (g_h s) (g_hu s) (g_damp s) v (g_wj s) (g_qtr s) (g_nu s) (g_diags s) l (g_log s) (g_file s).
  (* WeightedJacobianTag, written: impl/functions.hpp 247, 291 *)
  Definition set_wj v l (s : reg') : reg' := mk_reg (g_x s) (g_trial s) (g_c s) (g_r s) (g_j s) (g_g s) (g_h s) (g_hu s) (g_damp s) (g_wr s) v (g_qtr s) (g_nu s) (g_diags s) l (g_log s) (g_file s).
  (* QTransposeResidualTag, written: impl/functions.hpp 453 *)
  Definition set_qtr v l (s : reg') : reg' := mk_reg (g_x s) (g_trial s) (g_c s) (g_r s) (g_j s) (g_g s) (g_h s) (g_hu s) (g_damp s) (g_wr s) (g_wj s) v (g_nu s) (g_diags s) l (g_log s) (g_file s).
  (* nu_, written: impl/updaters.hpp 201, 227, 232 *)
  Definition set_nu v (s : reg') : reg' := mk_reg (g_x s) (g_trial s) (g_c s) (g_r s) (g_j s) (g_g s) (g_h s) (g_hu s) (g_damp s) (g_wr s) (g_wj s) (g_qtr s) v (g_diags s) (g_ext s) (g_log s) (g_file s).
  (* the diagnostics, written: impl/nonlinear_least_squares.hpp 54, 69-72; impl/root_finder.cpp 82-86 *)
  Definition set_diags v (s : reg') : reg' := mk_reg (g_x s) (g_trial s) (g_c s) (g_r s) (g_j s) (g_g s) (g_h s) (g_hu s) (g_damp s) (g_wr s) (g_wj s) (g_qtr s) (g_nu s) v (g_ext s) (g_log s) (g_file s).
  (* the inner solver's own data, written: impl/functions.hpp 450 *)
  Definition set_ext v (s : reg') : reg' := mk_reg (g_x s) (g_trial s) (g_c s) (g_r s) (g_j s) (g_g s) (g_h s) (g_hu s) (g_damp s) (g_wr s) (g_wj s) (g_qtr s) (g_nu s) (g_diags s) v (g_log s) (g_file s).
  (* what the logger printed, written: impl/diagnostics.hpp 274-286 *)
  Definition add_line v (s : reg') : reg' := mk_reg (g_x s) (g_trial s) (g_c s) (g_r s) (g_j s) (g_g s) (g_h s) (g_hu s) (g_damp s) (g_wr s) (g_wj s) (g_qtr s) (g_nu s) (g_diags s) (g_ext s) (g_log s ++ [v]) (g_file s).
  (* the termination file, written: impl/functions.hpp 534-537 *)
  Definition set_file v (s : reg') : reg' := mk_reg (g_x s) (g_trial s) (g_c s) (g_r s) (g_j s) (g_g s) (g_h s) (g_hu s) (g_damp s) (g_wr s) (g_wj s) (g_qtr s) (g_nu s) (g_diags s) (g_ext s) (g_log s) (Some v).
End Setters.

Section Solvers.
  Context {S V R J H L : Type}.
  Variable o : sops S.
  Variable no : nlops S V R J H.
  Variable xt : exts V R J H L.
  Notation G := (reg S V R J H L).
  Notation P := (prog V R J G).
  Notation vo := (n_vo no).
  (* impl/updaters.hpp 88, 123, 164, 193 *)
  Definition one : S := s1 o.
  (* impl/updaters.hpp 165, 194, 245; impl/functions.hpp 89 *)
  Definition two : S := sZ o 2.
  (* impl/updaters.hpp 195, 246 *)
  Definition three : S := sZ o 3.
  (* impl/functions.hpp 356, 386, 396, 406, 426, 459 *)
  Definition neg_one : S := sopp o (s1 o).
  (* impl/updaters.hpp 89, 151 *)
  Definition half : S := sdiv o (s1 o) (sZ o 2).

  (** ** impl/functions.hpp *)
  (** impl/functions.hpp 18-24: system.residualAndJacobian(state, r, {}) *)
  Definition compute_residual (y : V) : P unit :=
    fun s => PCall y (g_r s) None (fun e r _ => PDone (e, set_rj r (g_j s) s)).
  (** impl/functions.hpp 60-69 *)
  Definition compute_residual_and_jacobian : P unit :=
    fun s => PCall (g_x s) (g_r s) (Some (g_j s)) (fun e r j =>
      PDone (e, set_rj r (match j with Some a => a | None => g_j s end) s)).
  (** impl/functions.hpp 82-91; std::pow(x, 2) is modelled as x*x *)
  Definition half_sum_of_squares (r : R) : S :=
    smul o (smul o (n_rnorm no r) (n_rnorm no r)) (sdiv o one two).
  (** W(r, Wr) and W(J, WJ) *)
  (* impl/functions.hpp 136, 153, 246, 290 *)
  Definition weigh_r : P unit :=
    plift (fun s => let '(e, (v, l)) := x_wr xt (g_r s) (g_wr s) (g_ext s) in (e, set_wr v l s)).
  (* impl/functions.hpp 247, 291 *)
  Definition weigh_j : P unit :=
    plift (fun s => let '(e, (v, l)) := x_wj xt (g_j s) (g_wj s) (g_ext s) in (e, set_wj v l s)).
  (** impl/functions.hpp 93-158 *)
  Definition objective (tag : lstag) (y : V) : P S :=
    match tag with
    | GaussNewton | GaussNewtonQr | LevMar =>
        compute_residual y;;; pget (fun s => half_sum_of_squares (g_r s))
    | WeightedGN =>
        compute_residual y;;; weigh_r;;;
        pget (fun s => smul o (n_rdot no (g_r s) (g_wr s)) (sdiv o one two))
    | CompactWeightedGN =>
        compute_residual y;;; weigh_r;;;
        pget (fun s => smul o (n_rdot no (g_wr s) (g_wr s)) (sdiv o one two))
    end.
  (** impl/functions.hpp 171-337 *)
  Definition operators_and_objective (tag : lstag) : P S :=
    compute_residual_and_jacobian;;;
    match tag with
    | GaussNewton =>
        pmod (fun s => set_h (n_jtj no (g_j s) (g_j s)) s);;;
        pmod (fun s => set_g (n_jtr no (g_j s) (g_r s)) s);;;
        pget (fun s => half_sum_of_squares (g_r s))
    | GaussNewtonQr =>
        pmod (fun s => set_g (n_jtr no (g_j s) (g_r s)) s);;;
        pget (fun s => half_sum_of_squares (g_r s))
    | WeightedGN =>
        weigh_r;;; weigh_j;;;
        pmod (fun s => set_h (n_jtj no (g_j s) (g_wj s)) s);;;
        pmod (fun s => set_g (n_jtr no (g_j s) (g_wr s)) s);;;
        pget (fun s => smul o (n_rdot no (g_r s) (g_wr s)) (sdiv o one two))
    | CompactWeightedGN =>
        weigh_r;;; weigh_j;;;
        pmod (fun s => set_h (n_jtj no (g_wj s) (g_wj s)) s);;;
        pmod (fun s => set_g (n_jtr no (g_wj s) (g_wr s)) s);;;
        pget (fun s => smul o (n_rdot no (g_wr s) (g_wr s)) (sdiv o one two))
    | LevMar =>
        pmod (fun s => set_hu (n_jtj no (g_j s) (g_j s)) s);;;
        pmod (fun s => set_g (n_jtr no (g_j s) (g_r s)) s);;;
        pmod (fun s => set_h (n_adddiag no (g_hu s) (g_damp s)) s);;;
        pget (fun s => half_sum_of_squares (g_r s))
    end.
  (* impl/functions.hpp 356, 386, 396, 406, 426, 459 *)
  Definition negate_c : P unit := pmod (fun s => set_c (vscale vo neg_one (g_c s)) (g_ext s) s).
  (** impl/functions.hpp 339-357 *)
  Definition newton_step : P unit :=
    plift (fun s => let '(e, (c, l)) := x_newton xt (g_j s) (g_r s) (g_c s) (g_ext s) in (e, set_c c l s));;;
    negate_c.
  (** impl/functions.hpp 359-367 *)
  Definition solve_hessian : P unit :=
    plift (fun s => let '(e, (c, l)) := x_normal xt (g_h s) (g_g s) (g_c s) (g_ext s) in (e, set_c c l s)).
  (** impl/functions.hpp 369-460 *)
  Definition correction (tag : lstag) : P unit :=
    match tag with
    | GaussNewton | WeightedGN | CompactWeightedGN | LevMar => solve_hessian;;; negate_c
    | GaussNewtonQr =>
        plift (fun s => let '(e, l) := x_thin xt (g_j s) (g_ext s) in (e, set_ext l s));;;
        plift (fun s => let '(e, (v, l)) := x_qtr xt (g_r s) (g_qtr s) (g_ext s) in (e, set_qtr v l s));;;
        plift (fun s => let '(e, (c, l)) := x_rsolve xt (g_qtr s) (g_c s) (g_ext s) in (e, set_c c l s));;;
        negate_c
    end.
  (** impl/functions.hpp 464-475 *)
  Definition reset_for_new_solve (tag : lstag) : P unit :=
    match tag with LevMar => pmod (set_damp (sZ o 1)) | _ => pret tt end.
  (** impl/functions.hpp 479-521; [grad]: the registry has a gradient *)
  Definition norm_diagnostic (grad first : bool) (s : G) (d : ddata S) : ddata S :=
    match d_name d with
    | IResidual => d_update o d (n_rnorm no (g_r s)) first
    | ICorrection => d_update o d (n_norm no (g_c s)) first
    | IGradient => if grad then d_update o d (n_norm no (g_g s)) first else d
    | _ => d
    end.
  (* impl/nonlinear_least_squares.hpp 69-72; impl/root_finder.cpp 82-86 *)
  Definition norm_diagnostics (grad first : bool) : P unit :=
    pmod (fun s => let c := g_diags s in
      set_diags (mk_dcont (map (norm_diagnostic grad first s) (dc_data c)) (dc_pub c) (dc_int c) (dc_map c)) s).
  (** logger(iStep, normDiagnostics) *)
  (* impl/nonlinear_least_squares.hpp 73; impl/root_finder.cpp 87; impl/diagnostics.hpp 228-289 *)
  Definition log_iteration (k : Z) : P unit :=
    plift (fun s => match log_line (g_diags s) with
                    | Ok l => (Ok tt, add_line (mk_line k (g_x s) l) s)
                    | Throw e => (Throw e, s) | Undef u => (Undef u, s) | NoFuel => (NoFuel, s)
                    end).
  (* impl/functions.hpp 527-539 *)
  Definition write_report (m : report) : P unit := pmod (set_file m).

  (** ** impl/updaters.hpp
      An updater gets the objective function and its current value. *)
  (* impl/updaters.hpp 12, 25-27, 110-112, 209-211, 255-257 *)
  Definition updater := (V -> P S) -> S -> P unit.
  (** impl/updaters.hpp 9-19 *)
  Definition default_updater : updater := fun _ _ =>
    pmod (fun s => set_x (upd1 vo (g_x s) one (g_c s) one) s).

  (** The literal 0.001 and alpha *= 0.5 *)
  (* impl/updaters.hpp 50, 122 *)
  Definition alpha_min : S := sdiv o one (sZ o 1000).
  (* model only: more than the number of halvings of 1 down to 0.001 *)
  Definition backtrack_fuel : nat := 32.
  (** impl/updaters.hpp 121-153; while(true) with fuel *)
  Fixpoint backtrack_loop (zeta : S) (obj : V -> P S) (f0 : S) (fuel : nat) (alpha : S) : P unit :=
    match fuel with
    | O => pnofuel
    | Datatypes.S n =>
        if sleb o (sabs o alpha) alpha_min then pthrow ELineSearchStepTooSmall else
        pmod (fun s => set_trial (upd2_0 vo (g_x s) one (g_c s) alpha) s);;;
        f <- (fun s => obj (g_trial s) s);;
        if sleb o f (smul o zeta f0)
        then pmod (fun s => set_x (upd1 vo (g_x s) one (g_c s) alpha) s)
        else backtrack_loop zeta obj f0 n (smul o alpha half)
    end.
  (** impl/updaters.hpp 94-154, the constructor 101-107: front() of an empty vector is undefined. *)
  Definition backtrack_updater (params : option (list S)) : updater := fun obj f0 =>
    match params with
    | Some [] => pundef UOutOfBounds
    | Some (zeta :: _) => backtrack_loop zeta obj f0 backtrack_fuel one
    | None => backtrack_loop (s1 o) obj f0 backtrack_fuel one
    end.

  (** impl/updaters.hpp 21-92. The literals 0.0001 and 1e-14. Not used by any solver object. *)
  (* impl/updaters.hpp 51 *)
  Definition armijo_beta : S := sdiv o one (sZ o 10000).
  (* impl/updaters.hpp 83 *)
  Definition armijo_eps : S := sdiv o one (sZ o 100000000000000).
  (* impl/updaters.hpp 58-90 *)
  Fixpoint armijo_loop (obj : V -> P S) (f0 gp : S) (fuel : nat) (alpha : S) : P unit :=
    match fuel with
    | O => pnofuel
    | Datatypes.S n =>
        if sleb o (sabs o alpha) alpha_min then pthrow ELineSearchStepTooSmall else
        pmod (fun s => set_trial (upd2_0 vo (g_x s) one (g_c s) alpha) s);;;
        let rhs := smul o (smul o alpha armijo_beta) gp in
        f <- (fun s => obj (g_trial s) s);;
        let lhs := ssub o f f0 in
        if sleb o lhs rhs
        then pmod (fun s => set_x (upd1 vo (g_x s) one (g_c s) alpha) s)
        else if sleb o (sabs o lhs) armijo_eps then pthrow ELineSearchObjChangeTooSmall
        else armijo_loop obj f0 gp n (smul o alpha half)
    end.
  (* impl/updaters.hpp 24-91 *)
  Definition armijo_updater : updater := fun obj f0 =>
    gp <- pget (fun s => n_dot no (g_g s) (g_c s));;
    armijo_loop obj f0 gp backtrack_fuel one.

  (** impl/updaters.hpp 156-186 *)
  Definition lm_gain_factor (obj : V -> P S) (f0 : S) : P S :=
    pmod (fun s => set_trial (upd2_0 vo (g_x s) one (g_c s) one) s);;;
    f <- (fun s => obj (g_trial s) s);;
    pget (fun s =>
      let num := ssub o f f0 in
      let den1 := n_dot no (g_c s) (n_diagmul no (g_hu s) (g_c s)) in
      let den2 := n_dot no (g_c s) (g_g s) in
      let denom := smul o (sdiv o one two) (sadd o (smul o (g_damp s) den1) den2) in
      sdiv o num denom).
  (* impl/updaters.hpp 226, 277 *)
  Definition smax (a b : S) : S := if sltb o a b then b else a.   (* std::max *)
  (* impl/updaters.hpp 273 *)
  Definition smin (a b : S) : S := if sltb o b a then b else a.   (* std::min *)
  (** std::pow(x, 3) is modelled as x*x*x *)
  (* impl/updaters.hpp 225 *)
  Definition cube (x : S) : S := smul o (smul o x x) x.
  (** impl/updaters.hpp 189-236: beta_ = 2, gammaInv_ = 1/3, p_ = 3 *)
  Definition lm1_updater : updater := fun obj f0 =>
    rho <- lm_gain_factor obj f0;;
    if sltb o (s0 o) rho then
      pmod (fun s => set_x (upd1 vo (g_x s) one (g_c s) one) s);;;
      let a := ssub o one (smul o (ssub o two one) (cube (ssub o (smul o two rho) one))) in
      pmod (fun s => set_damp (smul o (g_damp s) (smax (sdiv o one three) a)) s);;;
      pmod (set_nu two)
    else
      pmod (fun s => set_damp (smul o (g_damp s) (g_nu s)) s);;;
      pmod (fun s => set_nu (smul o (g_nu s) two) s).
  (** std::pow(10, 7) and std::pow(10, -7) are modelled as 10000000 and 1/10000000 *)
  (* impl/updaters.hpp 268 *)
  Definition ten7 : S := sZ o 10000000.
  (* impl/updaters.hpp 269 *)
  Definition ten_neg7 : S := sdiv o one (sZ o 10000000).
  (* impl/updaters.hpp 238-284 *)
  Definition lm2_updater : updater := fun obj f0 =>
    rho <- lm_gain_factor obj f0;;
    (if sltb o rho (sdiv o one (sZ o 5))
     then pmod (fun s => set_damp (smin (smul o (g_damp s) two) ten7) s) else pret tt);;;
    (if sltb o (sdiv o (sZ o 4) (sZ o 5)) rho
     then pmod (fun s => set_damp (smax ten_neg7 (smul o (g_damp s) (sdiv o one three))) s) else pret tt);;;
    (if sltb o (s0 o) rho
     then pmod (fun s => set_x (upd1 vo (g_x s) one (g_c s) one) s) else pret tt).

  (** ** while (++iStep <= maxIters) { body }, where the body may break (true).
      iStep is an int. *)
  (* impl/nonlinear_least_squares.hpp 47-48; impl/root_finder.cpp 61-62 *)
  Fixpoint iterate (body : Z -> P bool) (maxIters : Z) (fuel : nat) (k : Z) : P unit :=
    match fuel with
    | O => pnofuel
    | Datatypes.S n =>
        if k =? int32_max then pundef UIntOverflow else
        if k + 1 <=? maxIters then
          b <- body (k + 1);;
          if b : bool then pret tt else iterate body maxIters n (k + 1)
        else pret tt
    end.
  (* model only: enough for maxIters iterations *)
  Definition loop_fuel (maxIters : Z) : nat := Datatypes.S (Z.to_nat maxIters).

  (* impl/nonlinear_least_squares.hpp 56-63; impl/root_finder.cpp 67-76 *)
  Definition is_residual_failure (e : exn) : bool :=
    match e with EResidualEvaluation | EResidualHasNans => true | _ => false end.
  (* impl/nonlinear_least_squares.hpp 92-101; impl/root_finder.cpp 101-112 *)
  Definition is_linesearch_failure (e : exn) : bool :=
    match e with ELineSearchStepTooSmall | ELineSearchObjChangeTooSmall => true | _ => false end.
  (* impl/nonlinear_least_squares.hpp 39-43; impl/root_finder.cpp 43-46 *)
  Definition metric_below (c : dcont S) (d : diag) (tol : S) : outcome bool :=
    match dc_at c d with
    | Ok x => Ok (sltb o (d_value d x) tol)
    | Throw e => Throw e | Undef u => Undef u | NoFuel => NoFuel
    end.

  (** ** impl/nonlinear_least_squares.hpp *)
  (** impl/nonlinear_least_squares.hpp 30-45 *)
  Definition ls_must_stop (cf : config S) (k : Z) : P bool :=
    plift (fun s =>
      (match f_stop cf with
       | AfterMaxIters => Ok (k =? f_max cf)
       | st => metric_below (g_diags s) (stop_diag st) (f_tol cf)
       end, s)).
  (** impl/nonlinear_least_squares.hpp 48-102 *)
  Definition ls_body (tag : lstag) (cf : config S) (up : updater) (k : Z) : P bool :=
    let first := k =? 1 in
    pcatch (obj <- operators_and_objective tag;;
            plift (fun s => match dc_iupdate o (g_diags s) IObjective obj first with
                            | Ok c => (Ok tt, set_diags c s)
                            | Throw e => (Throw e, s) | Undef u => (Undef u, s) | NoFuel => (NoFuel, s)
                            end))
           is_residual_failure (fun _ => pthrow ENonlinearSolve);;;
    correction tag;;;
    norm_diagnostics true first;;;
    log_iteration k;;;
    b <- ls_must_stop cf k;;
    if b : bool then pret true else
    pcatch (f0 <- (plift (fun s => match dc_iat (g_diags s) IObjective with
                                   | Ok d => (Ok (d_abs d), s)
                                   | Throw e => (Throw e, s) | Undef u => (Undef u, s) | NoFuel => (NoFuel, s)
                                   end));;
            up (objective tag) f0;;; pret false)
           is_linesearch_failure (fun _ => pret true).
  (* impl/nonlinear_least_squares.hpp 47-102 *)
  Definition ls_loop (tag : lstag) (cf : config S) (up : updater) : P unit :=
    iterate (ls_body tag cf up) (f_max cf) (loop_fuel (f_max cf)) 0.
  (** impl/nonlinear_least_squares.hpp 169-193 and 203-278. The trial state that solve() creates is overwritten
      before it is read, so the old one is kept; nu_ is set when the LM1 updater is
      constructed. *)
  Definition ls_solve (tag : lstag) (cf : config S) : P unit :=
    match f_update cf with
    | UStandard => reset_for_new_solve tag;;; ls_loop tag cf default_updater
    | UBacktrack | UArmijo =>
        reset_for_new_solve tag;;;
        match f_params cf with
        | Some [] => pundef UOutOfBounds
        | ps => ls_loop tag cf (backtrack_updater ps)
        end
    | ULMSchedule1 =>
        if is_levmar tag
        then reset_for_new_solve tag;;; pmod (set_nu two);;; ls_loop tag cf lm1_updater
        else pthrow ERuntime
    | ULMSchedule2 =>
        if is_levmar tag
        then reset_for_new_solve tag;;; ls_loop tag cf lm2_updater
        else pthrow ERuntime
    | UCustom => pthrow ERuntime
    end.

  (** ** impl/root_finder.cpp *)
  (** impl/root_finder.cpp 31-35 *)
  Definition root_objective (y : V) : P S :=
    compute_residual y;;; pget (fun s => n_rnorm no (g_r s)).
  (** impl/root_finder.cpp 37-59: the metric is looked up before the criterion is examined *)
  Definition root_must_stop (cf : config S) (k : Z) : P bool :=
    conv <- plift (fun s => (metric_below (g_diags s) (stop_diag (f_stop cf)) (f_tol cf), s));;
    let reached := f_max cf <=? k in
    (if (reached && negb conv)%bool then write_report RMaxIters else pret tt);;;
    pret (match f_stop cf with AfterMaxIters => reached | _ => conv end).
  (** impl/root_finder.cpp 61-113 *)
  Definition root_body (cf : config S) (up : updater) (k : Z) : P bool :=
    pcatch compute_residual_and_jacobian is_residual_failure
           (fun e => write_report (RError e);;; pthrow ENonlinearSolve);;;
    newton_step;;;
    norm_diagnostics false (k =? 1);;;
    log_iteration k;;;
    b <- root_must_stop cf k;;
    if b : bool then pret true else
    pcatch (f0 <- (plift (fun s => match dc_iat (g_diags s) IResidual with
                                   | Ok d => (Ok (d_abs d), s)
                                   | Throw e => (Throw e, s) | Undef u => (Undef u, s) | NoFuel => (NoFuel, s)
                                   end));;
            up root_objective f0;;; pret false)
           is_linesearch_failure (fun e => write_report (RError e);;; pret true).
  (* impl/root_finder.cpp 61-113 *)
  Definition root_loop (cf : config S) (up : updater) : P unit :=
    iterate (root_body cf up) (f_max cf) (loop_fuel (f_max cf)) 0.
  (** impl/root_finder.cpp 348-374 *)
  Definition root_solve (cf : config S) : P unit :=
    match f_update cf with
    | UStandard => root_loop cf default_updater
    | UBacktrack =>
        match f_params cf with
        | Some [] => pundef UOutOfBounds
        | ps => root_loop cf (backtrack_updater ps)
        end
    | _ => pthrow ERuntime
    end.

  (** ** The solver object as the implicit steppers see it
      The caller's state is [g_x]; the registry is the object's memory. *)
  (* model only: the tree of calls in the form the implicit steppers run *)
  Fixpoint to_sol {A} (t : ptree V R J (outcome A * G)) : sol V R J G :=
    match t with
    | PDone (r, s) => SEnd (match r with Ok _ => Ok tt | Throw e => Throw e | Undef u => Undef u | NoFuel => NoFuel end)
                           (g_x s) s
    | PCall y r j k => SCall y r j (fun e r' j' => to_sol (k e r' j'))
    end.
  (* impl/nonlinear_least_squares.hpp 169-170; impl/root_finder.cpp 348-350 *)
  Definition as_solver (p : P unit) : G -> V -> sol V R J G := fun ws y => to_sol (p (set_x y ws)).

  (** The registry of a new solver object: impl/registries.hpp constructors; the
      buffers come from the system's create functions, the damping is 1
      (impl/levmar_damping.hpp). *)
  (* impl/registries.hpp 39-45, 121-129, 179-192, 245-262, 308-316, 366-376; impl/levmar_damping.hpp 14 *)
  Definition new_reg (v : V) (r : R) (j : J) (h : H) (l : L) (diags : list diag) : G :=
    mk_reg v v v r j v h h (s1 o) r j v two (make_container o diags) l [] None.
End Solvers.
(** impl/nonlinear_least_squares.hpp 114-118, impl/root_finder.cpp 292-295 *)
Definition default_config {S} (o : sops S) : config S :=
  mk_config 100 WhenAbsCorrection (sdiv o (s1 o) (sZ o 1000000)) UStandard None.

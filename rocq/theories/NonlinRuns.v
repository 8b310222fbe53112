(** Specification, continued: runs of the nonlinear solvers on systems that compute a
    function. *)
From Coq Require Import ZArith List Bool.
From Verif Require Import Base NonlinDiag NonlinModel NonlinSpec.
Import ListNotations.
Local Open Scope Z_scope.

(** x, next x, next (next x), ... *)
Fixpoint iterates {V} (next : V -> V) (n : nat) (x : V) : V :=
  match n with O => x | Datatypes.S m => next (iterates next m x) end.

(** The run visits the iterates of [next] from [x0], stops at the first one where
    the criterion is met, or after the maximum number of iterations. *)
Record follows {S V} (o : sops S) (cf : config S) (next : V -> V)
       (x0 : V) (r : outcome unit) (x : V) (ls : list (line S V)) : Prop := {
  fo_ok : r = Ok tt;
  fo_states : map l_state ls = map (fun n => iterates next n x0) (seq 0 (length ls));
  fo_end : (exists a l, ls = a ++ [l] /\ line_met o cf l /\ (forall b, In b a -> ~ line_met o cf b) /\
              Z.of_nat (length ls) <= f_max cf /\ x = iterates next (length a) x0) \/
           (Z.of_nat (length ls) = Z.max 0 (f_max cf) /\ (forall b, In b ls -> ~ line_met o cf b) /\
              x = iterates next (length ls) x0) }.

Section Computed.
  Context {S V R J H L : Type}.
  Variable o : sops S.
  Variable no : nlops S V R J H.
  Variable F : V -> R.
  Variable DF : V -> J.
  Variable wr : R -> R.
  Variable wj : J -> J.
  Variable D : H -> V -> V.            (* solution of the normal equations *)
  Variable Dq Dn : J -> R -> V.        (* solution by QR, by Newton's linear solver *)
  (** The linear solvers compute these functions and do not fail. *)
  Definition linear_computes (xt : exts V R J H L) : Prop :=
    linear_ok xt (fun h g d => d = D h g) (fun j r d => d = Dq j r) (fun j r d => d = Dn j r) nothing.
  (** full steps *)
  Definition minus (x d : V) : V := along o no x (vscale (n_vo no) (sopp o (s1 o)) d) (s1 o).
  Definition newton_next (x : V) : V := minus x (Dn (DF x) (F x)).
  (** Damping stays 1 with the standard update. *)
  Definition ls_next (tag : lstag) (x : V) : V :=
    minus x (match tag with
             | GaussNewtonQr => Dq (DF x) (F x)
             | _ => D (ls_matrix no wj tag (sZ o 1) (DF x)) (ls_gradient no wr wj tag (DF x) (F x))
             end).
  (** What is printed of a state *)
  Definition ls_values (tag : lstag) (d : diag) (x : V) : option S :=
    match d with
    | ResidualAbs => Some (n_rnorm no (F x))
    | GradientAbs => Some (n_norm no (ls_gradient no wr wj tag (DF x) (F x)))
    | ObjectiveAbs => Some (ls_objective o no wr tag (F x))
    | _ => None
    end.
  Definition root_values (d : diag) (x : V) : option S :=
    match d with ResidualAbs => Some (n_rnorm no (F x)) | _ => None end.
  Definition values_right (vals : diag -> V -> option S) (ls : list (line S V)) : Prop :=
    forall l d v, In l ls -> vals d (l_state l) = Some v -> value_of d l = Some v.

  (** [f] does not exceed [zeta] times its previous value along the states *)
  Definition descends (f : R -> S) (zeta : S) (xs : list V) : Prop :=
    forall n y z, nth_error xs n = Some y -> nth_error xs (Datatypes.S n) = Some z ->
      sleb o (f (F z)) (smul o zeta (f (F y))) = true.
  (** The states visited: those printed, and the one returned if it is another one. *)
  Definition visited (xs : list V) (ls : list (line S V)) (x0 x : V) : Prop :=
    hd_error xs = Some x0 /\ (exists a, xs = a ++ [x]) /\
    (xs = map l_state ls \/ xs = map l_state ls ++ [x]).

  (** The outcome of the backtracking line search from [y] along [c], where the
      current value of the objective is [f0]. *)
  Definition passes (f : R -> S) (zeta f0 : S) (y c : V) (n : nat) : bool :=
    sleb o (f (F (along o no y c (halvings o n)))) (smul o zeta f0).
  Definition backtracked (f : R -> S) (zeta f0 : S) (y c : V) (r : outcome unit) (y' : V) : Prop :=
    (exists n, (n < 10)%nat /\ (forall m, (m < n)%nat -> passes f zeta f0 y c m = false) /\
       passes f zeta f0 y c n = true /\ r = Ok tt /\ y' = along o no y c (halvings o n)) \/
    ((forall m, (m < 10)%nat -> passes f zeta f0 y c m = false) /\
       r = Throw ELineSearchStepTooSmall /\ y' = y).
  (** Armijo: sufficient decrease for slope [gp] at step length 2^-n *)
  Definition sufficient (f : R -> S) (f0 gp : S) (y c : V) (n : nat) : bool :=
    sleb o (ssub o (f (F (along o no y c (halvings o n)))) f0)
           (smul o (smul o (halvings o n) (sdiv o (s1 o) (sZ o 10000))) gp).
  (** the objective changes by at most 1e-14 *)
  Definition unchanged (f : R -> S) (f0 : S) (y c : V) (n : nat) : bool :=
    sleb o (sabs o (ssub o (f (F (along o no y c (halvings o n)))) f0)) (sdiv o (s1 o) (sZ o 100000000000000)).
  (** The first of at most ten step lengths with sufficient decrease is taken;
      the search gives up at once where the objective does not change. *)
  Definition armijo_searched (f : R -> S) (f0 gp : S) (y c : V) (r : outcome unit) (y' : V) : Prop :=
    let passed_over m := sufficient f f0 gp y c m = false /\ unchanged f f0 y c m = false in
    (exists n, (n < 10)%nat /\ (forall m, (m < n)%nat -> passed_over m) /\
       sufficient f f0 gp y c n = true /\ r = Ok tt /\ y' = along o no y c (halvings o n)) \/
    (exists n, (n < 10)%nat /\ (forall m, (m < n)%nat -> passed_over m) /\
       sufficient f f0 gp y c n = false /\ unchanged f f0 y c n = true /\
       r = Throw ELineSearchObjChangeTooSmall /\ y' = y) \/
    ((forall m, (m < 10)%nat -> passed_over m) /\ r = Throw ELineSearchStepTooSmall /\ y' = y).
End Computed.

(** The part of an iteration that computes the correction, and an iteration of
    Levenberg-Marquardt, without diagnostics and printing *)
Section Parts.
  Context {S V R J H L : Type}.
  Variable o : sops S.
  Variable no : nlops S V R J H.
  Variable xt : exts V R J H L.
  Definition compute_correction (tag : lstag) : prog V R J (reg S V R J H L) unit :=
    pbind (operators_and_objective o no xt tag) (fun _ => correction o no xt tag).
  Definition lm_iteration (up : updater (S:=S)) : prog V R J (reg S V R J H L) unit :=
    pbind (operators_and_objective o no xt LevMar) (fun f0 =>
    pbind (correction o no xt LevMar) (fun _ => up (objective o no xt LevMar) f0)).
  (** the gain ratio computed in such an iteration *)
  Definition lm_gain_iteration : prog V R J (reg S V R J H L) S :=
    pbind (operators_and_objective o no xt LevMar) (fun f0 =>
    pbind (correction o no xt LevMar) (fun _ => lm_gain_factor o no (objective o no xt LevMar) f0)).
End Parts.
(** any two states visited one after the other *)
Definition consecutive {V} (rel : V -> V -> Prop) (xs : list V) : Prop :=
  forall n y z, nth_error xs n = Some y -> nth_error xs (Datatypes.S n) = Some z -> rel y z.

(** A system that also counts how often it is called *)
Definition counting {V R J W} (rj : V -> R -> option J -> W -> outcome unit * (R * option J * W))
  : V -> R -> option J -> W * nat -> outcome unit * (R * option J * (W * nat)) :=
  fun y r j w => let '(e, (r', j', w')) := rj y r j (fst w) in (e, (r', j', (w', Datatypes.S (snd w)))).
(** evaluations per iteration *)
Definition evaluations (u : update) : nat :=
  match u with
  | UStandard => 1 | UBacktrack | UArmijo => 11 | ULMSchedule1 | ULMSchedule2 => 2 | UCustom => 0
  end.

(** C76: how far explicit integrations can be from what they approximate. *)
From Coq Require Import ZArith List Reals.
From Verif Require Import Base RInst Laws LawInst AdvanceModel AdvanceSpec ExplicitModel ExplicitSpec ExplicitExtra ImplicitModel ImplicitSpec
  StabilitySpec StabilityRuns StabilityOrder StabilityPairs.
Import ListNotations.
Local Open Scope R_scope.

(** Any sequence [w] that obeys the scheme up to errors [err] stays within exp(L T) times the sum of
    the errors and of the initial difference. Any steps, any number of them, any stepper object. *)
Theorem C76_one_step_schemes :
  forall (V M W : Type) (eps0 : R) (vo : vops R V) (norm : V -> R) (u : @esys R V M W),
  let o := Rops eps0 in vspace o vo -> normed vo norm ->
  forall good f L, computes u good f -> lipschitz eps0 vo norm L f ->
  forall name tab k, tab_of o name = Some tab -> explicit_num_bufs name = Ok k ->
  forall g, used k (explicit_step o vo u name) g -> good (x_w g) ->
  forall ts hs err n w, (forall k, 0 <= hs k) -> nearly_erk eps0 vo norm f tab ts hs err n w ->
  exists g', drive (explicit_step o vo u name) ts hs n g = (Ok tt, g') /\
    dist eps0 vo norm (x_y g') (w n) <=
    exp (L * elapsed hs n) * (dist eps0 vo norm (x_y g) (w 0%nat) + elapsed err n).
Proof. intros. eapply perturbed_erk; eassumption. Qed.
Print Assumptions C76_one_step_schemes.

Theorem C76_adams_bashforth :
  forall (V M W : Type) (eps0 : R) (vo : vops R V) (norm : V -> R) (u : @esys R V M W),
  let o := Rops eps0 in vspace o vo -> normed vo norm ->
  forall good f L, computes u good f -> lipschitz eps0 vo norm L f ->
  forall g, used 2 (explicit_step o vo u AdamsBashforth2) g -> good (x_w g) ->
  forall ts hs err n w, (forall k, 0 <= hs k) -> nearly_ab2 eps0 vo norm f ts hs err n w ->
  exists g', drive (explicit_step o vo u AdamsBashforth2) ts hs n g = (Ok tt, g') /\
    dist eps0 vo norm (x_y g') (w n) <=
    exp (2 * L * elapsed hs n) * (dist eps0 vo norm (x_y g) (w 0%nat) + elapsed err n).
Proof. intros. eapply perturbed_ab2; eassumption. Qed.
Print Assumptions C76_adams_bashforth.

(** With a mass matrix; [X] is M^-1 f. *)
Theorem C76_mass_matrix :
  forall (V M W : Type) (eps0 : R) (vo : vops R V) (norm : V -> R) (u : @esys R V M W),
  let o := Rops eps0 in vspace o vo -> normed vo norm ->
  forall good apply mass force X L, computes_mm u good apply mass force ->
  (forall y t, apply (mass y t) (X y t) = force y t) ->
  (forall y t a b, apply (mass y t) a = apply (mass y t) b -> a = b) -> lipschitz eps0 vo norm L X ->
  forall name tab k, tab_of o name = Some tab -> explicit_num_bufs_mm name = Ok k ->
  forall g, used k (explicit_step_mm o vo u name) g -> good (x_w g) ->
  forall ts hs err n w, (forall k, 0 <= hs k) -> nearly_erk eps0 vo norm X tab ts hs err n w ->
  exists g', drive (explicit_step_mm o vo u name) ts hs n g = (Ok tt, g') /\
    dist eps0 vo norm (x_y g') (w n) <=
    exp (L * elapsed hs n) * (dist eps0 vo norm (x_y g) (w 0%nat) + elapsed err n).
Proof. intros. eapply perturbed_erk_mm; eassumption. Qed.
Print Assumptions C76_mass_matrix.

Theorem C76_mass_matrix_adams_bashforth :
  forall (V M W : Type) (eps0 : R) (vo : vops R V) (norm : V -> R) (u : @esys R V M W),
  let o := Rops eps0 in vspace o vo -> normed vo norm ->
  forall good apply mass force X L, computes_mm u good apply mass force ->
  (forall y t, apply (mass y t) (X y t) = force y t) ->
  (forall y t a b, apply (mass y t) a = apply (mass y t) b -> a = b) -> lipschitz eps0 vo norm L X ->
  forall g, used 2 (explicit_step_mm o vo u AdamsBashforth2) g -> good (x_w g) ->
  forall ts hs err n w, (forall k, 0 <= hs k) -> nearly_ab2 eps0 vo norm X ts hs err n w ->
  exists g', drive (explicit_step_mm o vo u AdamsBashforth2) ts hs n g = (Ok tt, g') /\
    dist eps0 vo norm (x_y g') (w n) <=
    exp (2 * L * elapsed hs n) * (dist eps0 vo norm (x_y g) (w 0%nat) + elapsed err n).
Proof. intros. eapply perturbed_ab2_mm; eassumption. Qed.
Print Assumptions C76_mass_matrix_adams_bashforth.

(** Two integrations of the same equation, by two steppers with any histories. *)
Theorem C76_initial_state :
  forall (V M W M' W' : Type) (eps0 : R) (vo : vops R V) (norm : V -> R) (u : @esys R V M W) (v : @esys R V M' W'),
  let o := Rops eps0 in vspace o vo -> normed vo norm ->
  forall good good' f L, computes u good f -> computes v good' f -> lipschitz eps0 vo norm L f ->
  forall name tab k, tab_of o name = Some tab -> explicit_num_bufs name = Ok k ->
  forall g g', used k (explicit_step o vo u name) g -> used k (explicit_step o vo v name) g' ->
  good (x_w g) -> good' (x_w g') -> forall ts hs n, (forall k, 0 <= hs k) ->
  exists gn gn', drive (explicit_step o vo u name) ts hs n g = (Ok tt, gn) /\
    drive (explicit_step o vo v name) ts hs n g' = (Ok tt, gn') /\
    dist eps0 vo norm (x_y gn) (x_y gn') <= exp (L * elapsed hs n) * dist eps0 vo norm (x_y g) (x_y g').
Proof. intros. eapply pair_erk; eassumption. Qed.
Print Assumptions C76_initial_state.

Theorem C76_initial_state_adams_bashforth :
  forall (V M W M' W' : Type) (eps0 : R) (vo : vops R V) (norm : V -> R) (u : @esys R V M W) (v : @esys R V M' W'),
  let o := Rops eps0 in vspace o vo -> normed vo norm ->
  forall good good' f L, computes u good f -> computes v good' f -> lipschitz eps0 vo norm L f ->
  forall g g', used 2 (explicit_step o vo u AdamsBashforth2) g -> used 2 (explicit_step o vo v AdamsBashforth2) g' ->
  good (x_w g) -> good' (x_w g') -> forall ts hs n, (forall k, 0 <= hs k) ->
  exists gn gn', drive (explicit_step o vo u AdamsBashforth2) ts hs n g = (Ok tt, gn) /\
    drive (explicit_step o vo v AdamsBashforth2) ts hs n g' = (Ok tt, gn') /\
    dist eps0 vo norm (x_y gn) (x_y gn') <= exp (2 * L * elapsed hs n) * dist eps0 vo norm (x_y g) (x_y g').
Proof. intros. eapply pair_ab2; eassumption. Qed.
Print Assumptions C76_initial_state_adams_bashforth.

(** advance_n_steps with [num] equal steps from t0 to t0 + T: local error h^(p+1) gives error h^p. *)
Theorem C76_convergence :
  forall (V M W : Type) (eps0 : R) (vo : vops R V) (norm : V -> R) (u : @esys R V M W),
  let o := Rops eps0 in vspace o vo -> normed vo norm ->
  forall good f L, computes u good f -> lipschitz eps0 vo norm L f ->
  forall name tab k sol t0 T C p, tab_of o name = Some tab -> explicit_num_bufs name = Ok k ->
  0 <= T -> local_order eps0 vo norm f tab sol t0 T C p ->
  forall g num, used k (explicit_step o vo u name) g -> good (x_w g) -> (0 < num)%nat -> (Z.of_nat num < int32_max)%Z ->
  exists y g' tr, advance_n_steps o (mk_user noop_obs (pol3 (fun _ _ _ w => (Ok (T / INR num), w))) noop_guess
      (stepper_fn (explicit_step o vo u name))) (Z.of_nat num) t0 (sol t0, g, []) = (Ok tt, (y, g', tr)) /\
    dist eps0 vo norm y (sol (t0 + T)) <= exp (L * T) * (C * T * (T / INR num) ^ p).
Proof. intros. eapply erk_convergence; eassumption. Qed.
Print Assumptions C76_convergence.

(** Adams-Bashforth: the Euler start costs no order. *)
Theorem C76_convergence_adams_bashforth :
  forall (V M W : Type) (eps0 : R) (vo : vops R V) (norm : V -> R) (u : @esys R V M W),
  let o := Rops eps0 in vspace o vo -> normed vo norm ->
  forall good f L, computes u good f -> lipschitz eps0 vo norm L f ->
  forall sol t0 T C1 C, 0 <= T -> 0 <= C ->
  local_order eps0 vo norm f (tab_fe o) sol t0 T C1 1 -> local_ab2 eps0 vo norm f sol t0 T C ->
  forall g num, used 2 (explicit_step o vo u AdamsBashforth2) g -> good (x_w g) -> (0 < num)%nat -> (Z.of_nat num < int32_max)%Z ->
  exists y g' tr, advance_n_steps o (mk_user noop_obs (pol3 (fun _ _ _ w => (Ok (T / INR num), w))) noop_guess
      (stepper_fn (explicit_step o vo u AdamsBashforth2))) (Z.of_nat num) t0 (sol t0, g, []) = (Ok tt, (y, g', tr)) /\
    dist eps0 vo norm y (sol (t0 + T)) <= exp (2 * L * T) * ((C1 + C * T) * (T / INR num) ^ 2).
Proof. intros. eapply ab2_convergence; eassumption. Qed.
Print Assumptions C76_convergence_adams_bashforth.

(** Scalar equations and forward Euler: nothing assumed about local errors, only that [sol] solves
    the equation and its derivative is Lipschitz. *)
Theorem C76_forward_euler_converges :
  forall (M W : Type) (eps0 : R) (u : @esys R R M W) (good : W -> Prop) (f : R -> R -> R) (L : R),
  computes u good f -> lipschitz eps0 (self_v (Rops eps0)) Rabs L f ->
  forall sol t0 T C, 0 <= T -> (forall t, t0 <= t <= t0 + T -> derivable_pt_lim sol t (f (sol t) t)) ->
  (forall s t, t0 <= s <= t0 + T -> t0 <= t <= t0 + T -> Rabs (f (sol s) s - f (sol t) t) <= C * Rabs (s - t)) ->
  let o := Rops eps0 in let vo := self_v o in
  forall g num, used 1 (explicit_step o vo u ForwardEuler) g -> good (x_w g) -> (0 < num)%nat -> (Z.of_nat num < int32_max)%Z ->
  exists y g' tr, advance_n_steps o (mk_user noop_obs (pol3 (fun _ _ _ w => (Ok (T / INR num), w))) noop_guess
      (stepper_fn (explicit_step o vo u ForwardEuler))) (Z.of_nat num) t0 (sol t0, g, []) = (Ok tt, (y, g', tr)) /\
    Rabs (y - sol (t0 + T)) <= exp (L * T) * (C * T * (T / INR num)).
Proof. intros. eapply euler_scalar; eassumption. Qed.
Print Assumptions C76_forward_euler_converges.

(** C82: linear equations integrated with Newton's method. *)
From Coq Require Import Reals ZArith List.
From Verif Require Import Base RInst Laws AdvanceModel AdvanceSpec AdvanceProofs TargetProofs Track ExplicitModel ImplicitModel ImplicitSpec
  NonlinDiag NonlinModel NonlinSpec NonlinLaws NonlinMoreSpec RomLsSpec StabilitySpec DissipSpec LinRunSpec LinRunClaims.
Import ListNotations.
Local Open Scope R_scope.

(** [num] steps of y' = A(t) y + b(t) with a new BDF1, BDF2 or Crank-Nicolson stepper: the integration returns normally, and every step
    whose matrix is invertible meets the equation of the scheme exactly; a sequence that meets them all at these times is what is reported. *)
Theorem C82_n_steps :
  forall (eps : R) (V J H L W U : Type) (no : nlops R V V J H) (ap : J -> V -> V) (apH : H -> V -> V),
  let o := Rops eps in let vo := n_vo no in nl_laws eps no vo ap apH ->
  forall (jo : vops R J) (jid : J), vspace o jo -> matrices vo jo jid ap ->
  forall xt : exts V V J H L,
  linear_ok xt (if_solvable (normal_exact apH)) (if_solvable (qr_exact no ap)) (if_solvable (newton_exact ap)) nothing ->
  forall cf, newton_settings cf ->
  forall (u : isys (S:=R) (V:=V) (J:=J) (W:=W)) (A : R -> J) (b : R -> V),
  linear_user vo ap u A b -> forall name,
  forall (obs : Z -> R -> V -> U -> outcome unit * U) cs cr w0 x0 ws g0,
  root_object o ws -> implicit_create o name cs cr (mk_ppol (-1) w0) x0 ws = Ok g0 ->
  let f := linear_rhs vo ap A b in
  let step := implicit_step o (policy_std o vo jo jid u) (as_solver (root_solve o no xt cf)) name in
  let regular := fun past t dt => invertible vo ap (step_matrix o jo (fun _ => jid) A name past t dt) in
  let scheme := scheme_step o vo f name in
  forall pol num start y0 w, (Z.of_nat num < int32_max)%Z ->
  (forall k t y u, fst (obs k t y u) = Ok tt) -> (forall k t d u, exists dt, fst (pol k t d u) = Ok dt) ->
  exists y' g' w' tr l,
    advance_n_steps o (mk_user (split_obs obs) (pol3 (split_pol pol)) noop_guess (split_step (implicit_fn step)))
      (Z.of_nat num) start (y0, (g0, w), []) = (Ok tt, (y', (g', w'), tr)) /\
    length l = Datatypes.S num /\ reports tr = numbered l /\ hd y0 (map snd l) = y' /\
    linked_from Rplus (fun past t dt y => regular past t dt -> scheme past t dt y) start y0 l /\
    (forall m, linked_from Rplus (fun past t dt y => regular past t dt /\ scheme past t dt y) start y0 m ->
       map fst (numbered m) = map fst (reports tr) -> reports tr = numbered m).
Proof. exact lin_exact_n_steps. Qed.
Print Assumptions C82_n_steps.

(** The same for integrations to a target time, which end. *)
Theorem C82_to_target :
  forall (eps : R) (V J H L W U : Type) (no : nlops R V V J H) (ap : J -> V -> V) (apH : H -> V -> V),
  let o := Rops eps in let vo := n_vo no in nl_laws eps no vo ap apH ->
  forall (jo : vops R J) (jid : J), vspace o jo -> matrices vo jo jid ap ->
  forall xt : exts V V J H L,
  linear_ok xt (if_solvable (normal_exact apH)) (if_solvable (qr_exact no ap)) (if_solvable (newton_exact ap)) nothing ->
  forall cf, newton_settings cf ->
  forall (u : isys (S:=R) (V:=V) (J:=J) (W:=W)) (A : R -> J) (b : R -> V),
  linear_user vo ap u A b -> forall name,
  forall (obs : Z -> R -> V -> U -> outcome unit * U) cs cr w0 x0 ws g0,
  root_object o ws -> implicit_create o name cs cr (mk_ppol (-1) w0) x0 ws = Ok g0 ->
  let f := linear_rhs vo ap A b in
  let step := implicit_step o (policy_std o vo jo jid u) (as_solver (root_solve o no xt cf)) name in
  let regular := fun past t dt => invertible vo ap (step_matrix o jo (fun _ => jid) A name past t dt) in
  let scheme := scheme_step o vo f name in
  forall pol recovery h n fuel start final y0 w,
  0 <= eps -> (forall k t y u, fst (obs k t y u) = Ok tt) ->
  (forall k t x u, exists dt m c, fst (pol k t x u) = Ok (dt, m, c) /\ h <= dt /\ m <= dt /\ (recovery = true -> 1 < c)) ->
  start < final -> final - start <= INR n * h -> (n < fuel)%nat -> (Z.of_nat n < int32_max)%Z ->
  exists y' g' w' tr l,
    to_target o (mk_user (split_obs obs) (split_pol pol) noop_guess (split_step (implicit_fn step))) recovery fuel
      start final (y0, (g0, w), []) = (Ok tt, (y', (g', w'), tr)) /\
    reports tr = numbered l /\ hd y0 (map snd l) = y' /\
    linked_from Rplus (fun past t dt y => regular past t dt -> scheme past t dt y) start y0 l /\
    (forall m, linked_from Rplus (fun past t dt y => regular past t dt /\ scheme past t dt y) start y0 m ->
       map fst (numbered m) = map fst (reports tr) -> reports tr = numbered m).
Proof. exact lin_exact_target. Qed.
Print Assumptions C82_to_target.

(** With mass matrix, M(t) y' = A(t) y + b(t). *)
Theorem C82_n_steps_mass_matrix :
  forall (eps : R) (V J H L W U : Type) (no : nlops R V V J H) (ap : J -> V -> V) (apH : H -> V -> V),
  let o := Rops eps in let vo := n_vo no in nl_laws eps no vo ap apH ->
  forall (jo : vops R J) (jid : J), vspace o jo -> matrices vo jo jid ap ->
  forall xt : exts V V J H L,
  linear_ok xt (if_solvable (normal_exact apH)) (if_solvable (qr_exact no ap)) (if_solvable (newton_exact ap)) nothing ->
  forall cf, newton_settings cf ->
  forall (u : isys (S:=R) (V:=V) (J:=J) (W:=W)) (A : R -> J) (b : R -> V),
  forall M : R -> J, linear_ode_mm vo ap u M A b ->
  forall name, name = BDF1 \/ name = BDF2 ->
  forall (obs : Z -> R -> V -> U -> outcome unit * U) cs cr p0 x0 ws g0,
  root_object o ws -> implicit_create o name cs cr p0 x0 ws = Ok g0 ->
  let f := linear_rhs vo ap A b in
  let step := implicit_step o (policy_mm o vo jo ap u) (as_solver (root_solve o no xt cf)) name in
  let regular := fun past t dt => invertible vo ap (step_matrix o jo M A name past t dt) in
  let scheme := scheme_step_mm o vo ap M f name in
  forall pol num start y0 w, (Z.of_nat num < int32_max)%Z ->
  (forall k t y u, fst (obs k t y u) = Ok tt) -> (forall k t d u, exists dt, fst (pol k t d u) = Ok dt) ->
  exists y' g' w' tr l,
    advance_n_steps o (mk_user (split_obs obs) (pol3 (split_pol pol)) noop_guess (split_step (implicit_fn step)))
      (Z.of_nat num) start (y0, (g0, w), []) = (Ok tt, (y', (g', w'), tr)) /\
    length l = Datatypes.S num /\ reports tr = numbered l /\ hd y0 (map snd l) = y' /\
    linked_from Rplus (fun past t dt y => regular past t dt -> scheme past t dt y) start y0 l /\
    (forall m, linked_from Rplus (fun past t dt y => regular past t dt /\ scheme past t dt y) start y0 m ->
       map fst (numbered m) = map fst (reports tr) -> reports tr = numbered m).
Proof. exact lin_exact_n_steps_mm. Qed.
Print Assumptions C82_n_steps_mass_matrix.

Theorem C82_to_target_mass_matrix :
  forall (eps : R) (V J H L W U : Type) (no : nlops R V V J H) (ap : J -> V -> V) (apH : H -> V -> V),
  let o := Rops eps in let vo := n_vo no in nl_laws eps no vo ap apH ->
  forall (jo : vops R J) (jid : J), vspace o jo -> matrices vo jo jid ap ->
  forall xt : exts V V J H L,
  linear_ok xt (if_solvable (normal_exact apH)) (if_solvable (qr_exact no ap)) (if_solvable (newton_exact ap)) nothing ->
  forall cf, newton_settings cf ->
  forall (u : isys (S:=R) (V:=V) (J:=J) (W:=W)) (A : R -> J) (b : R -> V),
  forall M : R -> J, linear_ode_mm vo ap u M A b ->
  forall name, name = BDF1 \/ name = BDF2 ->
  forall (obs : Z -> R -> V -> U -> outcome unit * U) cs cr p0 x0 ws g0,
  root_object o ws -> implicit_create o name cs cr p0 x0 ws = Ok g0 ->
  let f := linear_rhs vo ap A b in
  let step := implicit_step o (policy_mm o vo jo ap u) (as_solver (root_solve o no xt cf)) name in
  let regular := fun past t dt => invertible vo ap (step_matrix o jo M A name past t dt) in
  let scheme := scheme_step_mm o vo ap M f name in
  forall pol recovery h n fuel start final y0 w,
  0 <= eps -> (forall k t y u, fst (obs k t y u) = Ok tt) ->
  (forall k t x u, exists dt m c, fst (pol k t x u) = Ok (dt, m, c) /\ h <= dt /\ m <= dt /\ (recovery = true -> 1 < c)) ->
  start < final -> final - start <= INR n * h -> (n < fuel)%nat -> (Z.of_nat n < int32_max)%Z ->
  exists y' g' w' tr l,
    to_target o (mk_user (split_obs obs) (split_pol pol) noop_guess (split_step (implicit_fn step))) recovery fuel
      start final (y0, (g0, w), []) = (Ok tt, (y', (g', w'), tr)) /\
    reports tr = numbered l /\ hd y0 (map snd l) = y' /\
    linked_from Rplus (fun past t dt y => regular past t dt -> scheme past t dt y) start y0 l /\
    (forall m, linked_from Rplus (fun past t dt y => regular past t dt /\ scheme past t dt y) start y0 m ->
       map fst (numbered m) = map fst (reports tr) -> reports tr = numbered m).
Proof. exact lin_exact_target_mm. Qed.
Print Assumptions C82_to_target_mass_matrix.

(** If the equation is dissipative, the matrices of steps forward in time are invertible, however large the steps: each meets its equation ... *)
Theorem C82_dissipative :
  forall (eps : R) (V J H L W U : Type) (no : nlops R V V J H) (ap : J -> V -> V) (apH : H -> V -> V),
  let o := Rops eps in let vo := n_vo no in nl_laws eps no vo ap apH ->
  forall (jo : vops R J) (jid : J), vspace o jo -> matrices vo jo jid ap ->
  forall xt : exts V V J H L,
  linear_ok xt (if_solvable (normal_exact apH)) (if_solvable (qr_exact no ap)) (if_solvable (newton_exact ap)) nothing ->
  forall cf, newton_settings cf ->
  forall (u : isys (S:=R) (V:=V) (J:=J) (W:=W)) (A : R -> J) (b : R -> V),
  forall ip, DissipSpec.inner vo ip -> definite vo ip -> square vo ap ->
  let f := linear_rhs vo ap A b in dissipative eps vo ip f ->
  linear_user vo ap u A b -> forall name,
  forall start y0 tr, integrated_std U eps no xt cf jo jid u name start y0 tr ->
  exists l, reports tr = numbered l /\ linked_from Rplus (fun past t dt y => 0 <= dt -> scheme_step o vo f name past t dt y) start y0 l.
Proof. exact lin_any_step. Qed.
Print Assumptions C82_dissipative.

(** ... two integrations from different states, with the same times, do not move apart, whatever the sizes of the steps ... *)
Theorem C82_stable_bdf1 :
  forall (eps : R) (V J H L W U L' W' U' : Type) (no : nlops R V V J H) (ap : J -> V -> V) (apH : H -> V -> V),
  let o := Rops eps in let vo := n_vo no in nl_laws eps no vo ap apH ->
  forall (jo : vops R J) (jid : J), vspace o jo -> matrices vo jo jid ap ->
  forall (xt : exts V V J H L) (xt' : exts V V J H L'),
  linear_ok xt (if_solvable (normal_exact apH)) (if_solvable (qr_exact no ap)) (if_solvable (newton_exact ap)) nothing ->
  linear_ok xt' (if_solvable (normal_exact apH)) (if_solvable (qr_exact no ap)) (if_solvable (newton_exact ap)) nothing ->
  forall cf cf', newton_settings cf -> newton_settings cf' ->
  forall (u : isys (S:=R) (V:=V) (J:=J) (W:=W)) (u' : isys (S:=R) (V:=V) (J:=J) (W:=W')) (A : R -> J) (b : R -> V),
  forall ip, DissipSpec.inner vo ip -> definite vo ip -> square vo ap ->
  let f := linear_rhs vo ap A b in dissipative eps vo ip f ->
  linear_user vo ap u A b -> linear_user vo ap u' A b ->
  forall start start' y0 y0' tr tr',
  integrated_std U eps no xt cf jo jid u BDF1 start y0 tr -> integrated_std U' eps no xt' cf' jo jid u' BDF1 start' y0' tr' ->
  same_times tr tr' -> forward_in_time tr ->
  apart eps vo ip (fun k => length_of ip (vminus o vo y0 y0')) tr tr'.
Proof. exact lin_pair_bdf1. Qed.
Print Assumptions C82_stable_bdf1.

Theorem C82_stable_bdf2 :
  forall (eps : R) (V J H L W U L' W' U' : Type) (no : nlops R V V J H) (ap : J -> V -> V) (apH : H -> V -> V),
  let o := Rops eps in let vo := n_vo no in nl_laws eps no vo ap apH ->
  forall (jo : vops R J) (jid : J), vspace o jo -> matrices vo jo jid ap ->
  forall (xt : exts V V J H L) (xt' : exts V V J H L'),
  linear_ok xt (if_solvable (normal_exact apH)) (if_solvable (qr_exact no ap)) (if_solvable (newton_exact ap)) nothing ->
  linear_ok xt' (if_solvable (normal_exact apH)) (if_solvable (qr_exact no ap)) (if_solvable (newton_exact ap)) nothing ->
  forall cf cf', newton_settings cf -> newton_settings cf' ->
  forall (u : isys (S:=R) (V:=V) (J:=J) (W:=W)) (u' : isys (S:=R) (V:=V) (J:=J) (W:=W')) (A : R -> J) (b : R -> V),
  forall ip, DissipSpec.inner vo ip -> definite vo ip -> square vo ap ->
  let f := linear_rhs vo ap A b in dissipative eps vo ip f ->
  linear_user vo ap u A b -> linear_user vo ap u' A b ->
  forall start start' y0 y0' tr tr',
  integrated_std U eps no xt cf jo jid u BDF2 start y0 tr -> integrated_std U' eps no xt' cf' jo jid u' BDF2 start' y0' tr' ->
  same_times tr tr' -> forward_in_time tr ->
  apart eps vo ip (fun k => sqrt 2 * length_of ip (vminus o vo y0 y0')) tr tr'.
Proof. exact lin_pair_bdf2. Qed.
Print Assumptions C82_stable_bdf2.

Theorem C82_stable_crank_nicolson :
  forall (eps : R) (V J H L W U L' W' U' : Type) (no : nlops R V V J H) (ap : J -> V -> V) (apH : H -> V -> V),
  let o := Rops eps in let vo := n_vo no in nl_laws eps no vo ap apH ->
  forall (jo : vops R J) (jid : J), vspace o jo -> matrices vo jo jid ap ->
  forall (xt : exts V V J H L) (xt' : exts V V J H L'),
  linear_ok xt (if_solvable (normal_exact apH)) (if_solvable (qr_exact no ap)) (if_solvable (newton_exact ap)) nothing ->
  linear_ok xt' (if_solvable (normal_exact apH)) (if_solvable (qr_exact no ap)) (if_solvable (newton_exact ap)) nothing ->
  forall cf cf', newton_settings cf -> newton_settings cf' ->
  forall (u : isys (S:=R) (V:=V) (J:=J) (W:=W)) (u' : isys (S:=R) (V:=V) (J:=J) (W:=W')) (A : R -> J) (b : R -> V),
  forall ip, DissipSpec.inner vo ip -> definite vo ip -> square vo ap ->
  let f := linear_rhs vo ap A b in dissipative eps vo ip f ->
  linear_user vo ap u A b -> linear_user vo ap u' A b ->
  forall start start' y0 y0' tr tr',
  integrated_std U eps no xt cf jo jid u CrankNicolson start y0 tr -> integrated_std U' eps no xt' cf' jo jid u' CrankNicolson start' y0' tr' ->
  same_times tr tr' -> forward_in_time tr -> steps_not_growing tr ->
  forall t1 s1, In (1%Z, t1, s1) (reports tr) ->
  apart eps vo ip (fun k => length_of ip (vminus o vo (vminus o vo y0 y0') (vscale vo (1 / 2 * (t1 - start)) (vminus o vo (f y0 start) (f y0' start))))) tr tr'.
Proof. exact lin_pair_cn. Qed.
Print Assumptions C82_stable_crank_nicolson.

(** ... and the errors of an integration against any sequence [z] that obeys the scheme at the same times with residuals of length
    [err], such as a solution of the equation, add up and are not amplified. *)
Theorem C82_error_bdf1 :
  forall (eps : R) (V J H L W U : Type) (no : nlops R V V J H) (ap : J -> V -> V) (apH : H -> V -> V),
  let o := Rops eps in let vo := n_vo no in nl_laws eps no vo ap apH ->
  forall (jo : vops R J) (jid : J), vspace o jo -> matrices vo jo jid ap ->
  forall xt : exts V V J H L,
  linear_ok xt (if_solvable (normal_exact apH)) (if_solvable (qr_exact no ap)) (if_solvable (newton_exact ap)) nothing ->
  forall cf, newton_settings cf ->
  forall (u : isys (S:=R) (V:=V) (J:=J) (W:=W)) (A : R -> J) (b : R -> V),
  forall ip, DissipSpec.inner vo ip -> definite vo ip -> square vo ap ->
  let f := linear_rhs vo ap A b in dissipative eps vo ip f ->
  linear_user vo ap u A b ->
  forall start y0 tr, integrated_std U eps no xt cf jo jid u BDF1 start y0 tr -> forward_in_time tr ->
  forall ts err n z, times_are tr ts -> (forall k, (k < n)%nat -> ts k <= ts (Datatypes.S k)) ->
  near_bdf1 eps vo ip f ts err n z ->
  forall k t y, (k <= n)%nat -> In (Z.of_nat k, t, y) (reports tr) ->
  length_of ip (vminus o vo y (z k)) <= length_of ip (vminus o vo y0 (z 0%nat)) + elapsed err k.
Proof. exact lin_error_bdf1. Qed.
Print Assumptions C82_error_bdf1.

Theorem C82_error_bdf2 :
  forall (eps : R) (V J H L W U : Type) (no : nlops R V V J H) (ap : J -> V -> V) (apH : H -> V -> V),
  let o := Rops eps in let vo := n_vo no in nl_laws eps no vo ap apH ->
  forall (jo : vops R J) (jid : J), vspace o jo -> matrices vo jo jid ap ->
  forall xt : exts V V J H L,
  linear_ok xt (if_solvable (normal_exact apH)) (if_solvable (qr_exact no ap)) (if_solvable (newton_exact ap)) nothing ->
  forall cf, newton_settings cf ->
  forall (u : isys (S:=R) (V:=V) (J:=J) (W:=W)) (A : R -> J) (b : R -> V),
  forall ip, DissipSpec.inner vo ip -> definite vo ip -> square vo ap ->
  let f := linear_rhs vo ap A b in dissipative eps vo ip f ->
  linear_user vo ap u A b ->
  forall start y0 tr, integrated_std U eps no xt cf jo jid u BDF2 start y0 tr -> forward_in_time tr ->
  forall ts err n z, times_are tr ts -> (forall k, (k < n)%nat -> ts k <= ts (Datatypes.S k)) ->
  near_bdf2 eps vo ip f ts err n z ->
  forall k t y, (k <= n)%nat -> In (Z.of_nat k, t, y) (reports tr) ->
  length_of ip (vminus o vo y (z k)) <= sqrt 2 * length_of ip (vminus o vo y0 (z 0%nat)) + 6 * elapsed err k.
Proof. exact lin_error_bdf2. Qed.
Print Assumptions C82_error_bdf2.

Theorem C82_error_crank_nicolson :
  forall (eps : R) (V J H L W U : Type) (no : nlops R V V J H) (ap : J -> V -> V) (apH : H -> V -> V),
  let o := Rops eps in let vo := n_vo no in nl_laws eps no vo ap apH ->
  forall (jo : vops R J) (jid : J), vspace o jo -> matrices vo jo jid ap ->
  forall xt : exts V V J H L,
  linear_ok xt (if_solvable (normal_exact apH)) (if_solvable (qr_exact no ap)) (if_solvable (newton_exact ap)) nothing ->
  forall cf, newton_settings cf ->
  forall (u : isys (S:=R) (V:=V) (J:=J) (W:=W)) (A : R -> J) (b : R -> V),
  forall ip, DissipSpec.inner vo ip -> definite vo ip -> square vo ap ->
  let f := linear_rhs vo ap A b in dissipative eps vo ip f ->
  linear_user vo ap u A b ->
  forall start y0 tr, integrated_std U eps no xt cf jo jid u CrankNicolson start y0 tr -> forward_in_time tr ->
  forall ts err n z, times_are tr ts -> (forall k, (k < n)%nat -> ts k <= ts (Datatypes.S k)) ->
  (forall k, (Datatypes.S k < n)%nat -> ts (Datatypes.S (Datatypes.S k)) - ts (Datatypes.S k) <= ts (Datatypes.S k) - ts k) ->
  near_cn eps vo ip f ts err n z ->
  forall k t y, (k <= n)%nat -> (0 < k)%nat -> In (Z.of_nat k, t, y) (reports tr) ->
  length_of ip (vminus o vo y (z k)) <= length_of ip (vminus o vo (vminus o vo y0 (z 0%nat)) (vscale vo (1 / 2 * (ts 1%nat - ts 0%nat)) (vminus o vo (f y0 (ts 0%nat)) (f (z 0%nat) (ts 0%nat))))) + elapsed err k.
Proof. exact lin_error_cn. Qed.
Print Assumptions C82_error_crank_nicolson.


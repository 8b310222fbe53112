(** C77: implicit integrations of dissipative equations do not amplify errors. *)
From Coq Require Import ZArith List Reals.
From Verif Require Import Base RInst Laws LawInst AdvanceModel AdvanceSpec ExplicitModel ImplicitModel ImplicitSpec
  StabilitySpec DissipSpec DissipClaims DissipPairs.
Import ListNotations.
Local Open Scope R_scope.

(** Two integrations with the same times and any two solvers, which accept residuals of length [tol]
    and [tol']: however large the steps, the initial difference does not grow ... *)
Theorem C77_bdf1 :
  forall (V J W Ws U J' W' Ws' U' : Type) (eps0 : R) (vo : vops R V) (jo : vops R J) (jo' : vops R J') (jid : J) (jid' : J')
    (u : isys (S:=R) (V:=V) (J:=J) (W:=W)) (u' : isys (S:=R) (V:=V) (J:=J') (W:=W'))
    (solver : Ws -> V -> sol V V J Ws) (solver' : Ws' -> V -> sol V V J' Ws'),
  let o := Rops eps0 in vspace o vo -> vspace o jo -> vspace o jo' ->
  forall ip f, inner vo ip -> dissipative eps0 vo ip f -> rhs_is u f -> rhs_is u' f ->
  forall tol tol' start start' y0 y0' tr tr',
  completed_std U o vo jo jid u solver BDF1 (fun r => length_of ip r <= tol) start y0 tr ->
  completed_std U' o vo jo' jid' u' solver' BDF1 (fun r => length_of ip r <= tol') start' y0' tr' ->
  same_times tr tr' -> forward_in_time tr ->
  apart eps0 vo ip (fun k => length_of ip (vminus o vo y0 y0') + IZR k * (tol + tol')) tr tr'.
Proof. intros. eapply pair_bdf1; try eassumption; (eapply (run_bdf1 (U:=_)); [..|eassumption]; eassumption). Qed.
Print Assumptions C77_bdf1.

(** ... for BDF2 by at most sqrt 2 ... *)
Theorem C77_bdf2 :
  forall (V J W Ws U J' W' Ws' U' : Type) (eps0 : R) (vo : vops R V) (jo : vops R J) (jo' : vops R J') (jid : J) (jid' : J')
    (u : isys (S:=R) (V:=V) (J:=J) (W:=W)) (u' : isys (S:=R) (V:=V) (J:=J') (W:=W'))
    (solver : Ws -> V -> sol V V J Ws) (solver' : Ws' -> V -> sol V V J' Ws'),
  let o := Rops eps0 in vspace o vo -> vspace o jo -> vspace o jo' ->
  forall ip f, inner vo ip -> dissipative eps0 vo ip f -> rhs_is u f -> rhs_is u' f ->
  forall tol tol' start start' y0 y0' tr tr',
  completed_std U o vo jo jid u solver BDF2 (fun r => length_of ip r <= tol) start y0 tr ->
  completed_std U' o vo jo' jid' u' solver' BDF2 (fun r => length_of ip r <= tol') start' y0' tr' ->
  same_times tr tr' -> forward_in_time tr ->
  apart eps0 vo ip (fun k => sqrt 2 * length_of ip (vminus o vo y0 y0') + 6 * (IZR k * (tol + tol'))) tr tr'.
Proof. intros. eapply pair_bdf2; try eassumption; (eapply (run_bdf2 (U:=_)); [..|eassumption]; eassumption). Qed.
Print Assumptions C77_bdf2.

(** ... for Crank-Nicolson with steps that do not grow, the length of e - h/2 (f(y0) - f(y0')) is what
    stays, e the initial difference and h the first step. *)
Theorem C77_crank_nicolson :
  forall (V J W Ws U J' W' Ws' U' : Type) (eps0 : R) (vo : vops R V) (jo : vops R J) (jo' : vops R J') (jid : J) (jid' : J')
    (u : isys (S:=R) (V:=V) (J:=J) (W:=W)) (u' : isys (S:=R) (V:=V) (J:=J') (W:=W'))
    (solver : Ws -> V -> sol V V J Ws) (solver' : Ws' -> V -> sol V V J' Ws'),
  let o := Rops eps0 in vspace o vo -> vspace o jo -> vspace o jo' ->
  forall ip f F fj F' fj', inner vo ip -> dissipative eps0 vo ip f -> rhs_is u f -> rhs_is u' f ->
  repeatable u F fj -> repeatable u' F' fj' ->
  forall tol tol' start start' y0 y0' tr tr',
  completed_std U o vo jo jid u solver CrankNicolson (fun r => length_of ip r <= tol) start y0 tr ->
  completed_std U' o vo jo' jid' u' solver' CrankNicolson (fun r => length_of ip r <= tol') start' y0' tr' ->
  same_times tr tr' -> forward_in_time tr -> steps_not_growing tr ->
  forall t1 s1, In (1%Z, t1, s1) (reports tr) ->
  apart eps0 vo ip (fun k => length_of ip (vminus o vo (vminus o vo y0 y0')
      (vscale vo (1 / 2 * (t1 - start)) (vminus o vo (f y0 start) (f y0' start)))) + IZR k * (tol + tol')) tr tr'.
Proof. intros. eapply pair_cn; try eassumption; (eapply (run_cn (U:=_)); [..|eassumption]; eassumption). Qed.
Print Assumptions C77_crank_nicolson.

(** One integration against any sequence [z] that obeys the scheme at the same times with residuals of
    length [err], such as a solution of the equation: the errors add up and are not amplified. *)
Theorem C77_bdf1_error :
  forall (V J W Ws U : Type) (eps0 : R) (vo : vops R V) (jo : vops R J) (jid : J)
    (u : isys (S:=R) (V:=V) (J:=J) (W:=W)) (solver : Ws -> V -> sol V V J Ws),
  let o := Rops eps0 in vspace o vo -> vspace o jo ->
  forall ip f, inner vo ip -> dissipative eps0 vo ip f -> rhs_is u f ->
  forall tol start y0 tr, completed_std U o vo jo jid u solver BDF1 (fun r => length_of ip r <= tol) start y0 tr ->
  forall ts err n z, times_are tr ts -> (forall k, (k < n)%nat -> ts k <= ts (Datatypes.S k)) ->
  near_bdf1 eps0 vo ip f ts err n z ->
  forall k t y, (k <= n)%nat -> In (Z.of_nat k, t, y) (reports tr) ->
  length_of ip (vminus o vo y (z k)) <= length_of ip (vminus o vo y0 (z 0%nat)) + (INR k * tol + elapsed err k).
Proof. intros. eapply against_bdf1; try eassumption; (eapply (run_bdf1 (U:=_)); [..|eassumption]; eassumption). Qed.
Print Assumptions C77_bdf1_error.

Theorem C77_bdf2_error :
  forall (V J W Ws U : Type) (eps0 : R) (vo : vops R V) (jo : vops R J) (jid : J)
    (u : isys (S:=R) (V:=V) (J:=J) (W:=W)) (solver : Ws -> V -> sol V V J Ws),
  let o := Rops eps0 in vspace o vo -> vspace o jo ->
  forall ip f, inner vo ip -> dissipative eps0 vo ip f -> rhs_is u f ->
  forall tol start y0 tr, completed_std U o vo jo jid u solver BDF2 (fun r => length_of ip r <= tol) start y0 tr ->
  forall ts err n z, times_are tr ts -> (forall k, (k < n)%nat -> ts k <= ts (Datatypes.S k)) ->
  near_bdf2 eps0 vo ip f ts err n z ->
  forall k t y, (k <= n)%nat -> In (Z.of_nat k, t, y) (reports tr) ->
  length_of ip (vminus o vo y (z k)) <=
  sqrt 2 * length_of ip (vminus o vo y0 (z 0%nat)) + 6 * (INR k * tol + elapsed err k).
Proof. intros. eapply against_bdf2; try eassumption; (eapply (run_bdf2 (U:=_)); [..|eassumption]; eassumption). Qed.
Print Assumptions C77_bdf2_error.

Theorem C77_crank_nicolson_error :
  forall (V J W Ws U : Type) (eps0 : R) (vo : vops R V) (jo : vops R J) (jid : J)
    (u : isys (S:=R) (V:=V) (J:=J) (W:=W)) (solver : Ws -> V -> sol V V J Ws),
  let o := Rops eps0 in vspace o vo -> vspace o jo ->
  forall ip f F fj, inner vo ip -> dissipative eps0 vo ip f -> rhs_is u f -> repeatable u F fj ->
  forall tol start y0 tr, completed_std U o vo jo jid u solver CrankNicolson (fun r => length_of ip r <= tol) start y0 tr ->
  forall ts err n z, times_are tr ts -> (forall k, (k < n)%nat -> ts k <= ts (Datatypes.S k)) ->
  (forall k, (Datatypes.S k < n)%nat -> ts (Datatypes.S (Datatypes.S k)) - ts (Datatypes.S k) <= ts (Datatypes.S k) - ts k) ->
  near_cn eps0 vo ip f ts err n z ->
  forall k t y, (k <= n)%nat -> (0 < k)%nat -> In (Z.of_nat k, t, y) (reports tr) ->
  length_of ip (vminus o vo y (z k)) <=
  length_of ip (vminus o vo (vminus o vo y0 (z 0%nat))
    (vscale vo (1 / 2 * (ts 1%nat - ts 0%nat)) (vminus o vo (f y0 (ts 0%nat)) (f (z 0%nat) (ts 0%nat)))))
  + (INR k * tol + elapsed err k).
Proof. intros. eapply against_cn; try eassumption; (eapply (run_cn (U:=_)); [..|eassumption]; eassumption). Qed.
Print Assumptions C77_crank_nicolson_error.

(** Constant symmetric positive definite mass matrices: the same in the energy norm x -> (M x, x),
    residuals measured by r -> (r, M^-1 r). *)
Theorem C77_bdf1_mass_matrix :
  forall (V J W Ws U W' Ws' U' : Type) (eps0 : R) (vo : vops R V) (jo : vops R J) (japp : J -> V -> V)
    (u : isys (S:=R) (V:=V) (J:=J) (W:=W)) (u' : isys (S:=R) (V:=V) (J:=J) (W:=W'))
    (solver : Ws -> V -> sol V V J Ws) (solver' : Ws' -> V -> sol V V J Ws'),
  let o := Rops eps0 in vspace o vo -> vspace o jo ->
  forall ip f m minv, inner vo ip -> dissipative eps0 vo ip f ->
  rhs_mass_is u (fun _ _ => m) f -> rhs_mass_is u' (fun _ _ => m) f ->
  linear vo vo (japp m) -> (forall x, minv (japp m x) = x) -> (forall x, japp m (minv x) = x) ->
  (forall x y, ip (japp m x) y = ip x (japp m y)) -> (forall x, 0 <= ip (japp m x) x) ->
  let energy := fun x y => ip (japp m x) y in
  forall tol tol' start start' y0 y0' tr tr',
  completed_mm U o vo jo japp u solver BDF1 (fun r => length_of energy (minv r) <= tol) start y0 tr ->
  completed_mm U' o vo jo japp u' solver' BDF1 (fun r => length_of energy (minv r) <= tol') start' y0' tr' ->
  same_times tr tr' -> forward_in_time tr ->
  apart eps0 vo energy (fun k => length_of energy (vminus o vo y0 y0') + IZR k * (tol + tol')) tr tr'.
Proof.
  intros. apply (pair_bdf1 eps0 vo energy (fun y t => minv (f y t)) ltac:(assumption)) with (start := start) (start' := start');
    [eapply mass_inner; eassumption|eapply mass_dissipative; eassumption|assumption|assumption
    |(eapply (run_bdf1_mm (U:=_)); [..|eassumption]; eassumption)|(eapply (run_bdf1_mm (U:=_)); [..|eassumption]; eassumption)].
Qed.
Print Assumptions C77_bdf1_mass_matrix.

Theorem C77_bdf2_mass_matrix :
  forall (V J W Ws U W' Ws' U' : Type) (eps0 : R) (vo : vops R V) (jo : vops R J) (japp : J -> V -> V)
    (u : isys (S:=R) (V:=V) (J:=J) (W:=W)) (u' : isys (S:=R) (V:=V) (J:=J) (W:=W'))
    (solver : Ws -> V -> sol V V J Ws) (solver' : Ws' -> V -> sol V V J Ws'),
  let o := Rops eps0 in vspace o vo -> vspace o jo ->
  forall ip f m minv, inner vo ip -> dissipative eps0 vo ip f ->
  rhs_mass_is u (fun _ _ => m) f -> rhs_mass_is u' (fun _ _ => m) f ->
  linear vo vo (japp m) -> (forall x, minv (japp m x) = x) -> (forall x, japp m (minv x) = x) ->
  (forall x y, ip (japp m x) y = ip x (japp m y)) -> (forall x, 0 <= ip (japp m x) x) ->
  let energy := fun x y => ip (japp m x) y in
  forall tol tol' start start' y0 y0' tr tr',
  completed_mm U o vo jo japp u solver BDF2 (fun r => length_of energy (minv r) <= tol) start y0 tr ->
  completed_mm U' o vo jo japp u' solver' BDF2 (fun r => length_of energy (minv r) <= tol') start' y0' tr' ->
  same_times tr tr' -> forward_in_time tr ->
  apart eps0 vo energy (fun k => sqrt 2 * length_of energy (vminus o vo y0 y0') + 6 * (IZR k * (tol + tol'))) tr tr'.
Proof.
  intros. apply (pair_bdf2 eps0 vo energy (fun y t => minv (f y t)) ltac:(assumption)) with (start := start) (start' := start');
    [eapply mass_inner; eassumption|eapply mass_dissipative; eassumption|assumption|assumption
    |(eapply (run_bdf2_mm (U:=_)); [..|eassumption]; eassumption)|(eapply (run_bdf2_mm (U:=_)); [..|eassumption]; eassumption)].
Qed.
Print Assumptions C77_bdf2_mass_matrix.

(** Scalar equations and BDF1: the distance to a solution with Lipschitz derivative (constant C), for
    steps of at most [hm]. There is no exponential, in contrast to C76. *)
Theorem C77_backward_euler_error :
  forall (J W Ws U : Type) (eps0 : R) (jo : vops R J) (jid : J)
    (u : isys (S:=R) (V:=R) (J:=J) (W:=W)) (solver : Ws -> R -> sol R R J Ws) (f : R -> R -> R) (tol : R),
  vspace (Rops eps0) jo -> rhs_is u f -> (forall y z t, (f y t - f z t) * (y - z) <= 0) ->
  forall start y0 tr, completed_std U (Rops eps0) (self_v (Rops eps0)) jo jid u solver BDF1 (fun r => Rabs r <= tol) start y0 tr ->
  forward_in_time tr ->
  forall sol C hm, (forall t, start <= t -> derivable_pt_lim sol t (f (sol t) t)) ->
  (forall s t, start <= s -> start <= t -> Rabs (f (sol s) s - f (sol t) t) <= C * Rabs (s - t)) ->
  (forall k t s t' s', In (k, t, s) (reports tr) -> In ((k + 1)%Z, t', s') (reports tr) -> t' - t <= hm) ->
  forall k t y, In (k, t, y) (reports tr) -> Rabs (y - sol t) <= Rabs (y0 - sol start) + IZR k * (tol + C * (hm * hm)).
Proof. intros. eapply (backward_euler_error U); eassumption. Qed.
Print Assumptions C77_backward_euler_error.

(** Specification of C91: Newton's method started where the residual is small, and integrations of
    nonlinear equations y' = f(y,t) that use it. *)
From Coq Require Import Reals ZArith List.
From Verif Require Import Base RInst Laws AdvanceModel AdvanceSpec ExplicitModel ImplicitModel ImplicitSpec Track
  NonlinDiag NonlinModel NonlinSpec NonlinLaws DissipSpec LinRunSpec NewtonSpec.
Import ListNotations.
Local Open Scope R_scope.

Section Around.
  Context {V Rs J H : Type}.
  Variable no : nlops R V Rs J H.
  Variable ro : vops R Rs.
  Variable apJ : J -> V -> Rs.
  Notation vo := (n_vo no).
  Notation rem F DF x d := (vadd ro (F (vadd vo x d)) (vscale ro (- (1)) (vadd ro (F x) (apJ (DF x) d)))).
  (** How fast the residual shrinks: |F(x_k+1)| <= rate |F(x_k)|^2 *)
  Definition rate (beta gamma : R) : R := gamma / 2 * beta ^ 2.
  (** No root is assumed to exist. At distance at most [rad] from [x0], |v| <= beta |F'(x) v| and F' is
      onto; F(x + d) is F(x) + F'(x) d up to gamma/2 |d|^2. The residual at [x0] is small enough. *)
  Record regular_around (F : V -> Rs) (DF : V -> J) (x0 : V) (rad beta gamma : R) : Prop := {
    ra_beta : 0 <= beta;
    ra_gamma : 0 <= gamma;
    ra_inverse : forall x, apart no x x0 <= rad -> forall v, n_norm no v <= beta * n_rnorm no (apJ (DF x) v);
    ra_onto : forall x, apart no x x0 <= rad -> forall r, exists d, apJ (DF x) d = r;
    ra_smooth : forall x d, apart no x x0 <= rad -> apart no (vadd vo x d) x0 <= rad ->
      n_rnorm no (rem F DF x d) <= gamma / 2 * (n_norm no d) ^ 2;
    ra_small : rate beta gamma * n_rnorm no (F x0) < 1;
    ra_room : beta * n_rnorm no (F x0) <= (1 - rate beta gamma * n_rnorm no (F x0)) * rad }.

  (** The logged states, and the state returned: the residual of the k-th is at most what k quadratic steps leave. *)
  Definition shrinks (eps : R) (cf : config R) (F : V -> Rs) (kappa : R) (x0 : V) (rad : R) (ls : list (line R V)) (x : V) : Prop :=
    (forall k l, nth_error ls k = Some l ->
       n_rnorm no (F (l_state l)) <= quadratic kappa (n_rnorm no (F x0)) k /\ apart no (l_state l) x0 <= rad) /\
    ((exists a l, ls = a ++ [l] /\ l_state l = x /\ line_met (Rops eps) cf l) \/
     (Z.of_nat (length ls) = f_max cf /\ n_rnorm no (F x) <= quadratic kappa (n_rnorm no (F x0)) (length ls))).

  (** [near]: the value the criterion looks at is at most this many times the residual; [far]: where it is met, the
      residual is at most this many times the tolerance. [M]: |F'(x) v| <= M |v|. *)
  Definition weighed (st : stop) (beta M : R) (near far : R) : Prop :=
    match st with
    | WhenAbsCorrection => near = beta /\ far = M
    | WhenAbsResidual => near = 1 /\ far = 1
    | _ => False
    end.
  (** [n] iterations are enough, and allowed. *)
  Definition enough (cf : config R) (kappa near e : R) : Prop :=
    exists n, near * quadratic kappa e n < f_tol cf /\ (Z.of_nat n < f_max cf)%Z.
  (** Conditions on the start of a solve under which it ends where the residual is at most [far] times the tolerance *)
  Definition starts_well (cf : config R) (F : V -> Rs) (DF : V -> J) (x0 : V) (far : R) : Prop :=
    exists rad beta gamma M near, regular_around F DF x0 rad beta gamma /\ weighed (f_stop cf) beta M near far /\
      (f_stop cf = WhenAbsCorrection -> 0 <= M /\ forall x, apart no x x0 <= rad -> forall v, n_rnorm no (apJ (DF x) v) <= M * n_norm no v) /\
      enough cf (rate beta gamma) near (n_rnorm no (F x0)).
End Around.

(** Newton's method with full steps, stopping by the size of the correction or of the residual *)
Definition newton_absolute (cf : config R) : Prop :=
  f_update cf = UStandard /\ (f_stop cf = WhenAbsCorrection \/ f_stop cf = WhenAbsResidual) /\ (0 <= f_max cf < int32_max)%Z.

(** The user's system computes f and, if asked, its Jacobian, without failing. *)
Definition smooth_user {S V J W} (u : isys (S:=S) (V:=V) (J:=J) (W:=W)) (f : V -> S -> V) (Df : V -> S -> J) : Prop :=
  forall y t R Jo w, exists w', is_eval u y t R Jo w = (Ok tt, (f y t, option_map (fun _ => Df y t) Jo, w')).

(** The residual of a step from the states [past], newest first, and its Jacobian I - c dt Df *)
Definition scheme_residual {S V} (o : sops S) (vo : vops S V) (f : V -> S -> V) (name : scheme) (past : list V) (t dt : S) (y : V) : V :=
  match name, past with
  | BDF2, y_n :: y_nm1 :: _ => bdf2_R o vo y_n y_nm1 dt (f y (sadd o t dt)) y
  | CrankNicolson, y_n :: _ => cn_R o vo y_n (f y_n t) dt (f y (sadd o t dt)) y
  | _, y_n :: _ => bdf1_R o vo y_n dt (f y (sadd o t dt)) y
  | _, [] => y
  end.
Definition scheme_jacobian {S V J} (o : sops S) (jo : vops S J) (jid : J) (Df : V -> S -> J) (name : scheme) (past : list V) (t dt : S) (y : V) : J :=
  scheme_J o jo jid (weight_of o name past) dt (Df y (sadd o t dt)).

(** ** Dissipative equations *)
Section Smooth.
  Context {V J : Type} (vo : vops R V) (ap : J -> V -> V) (ip : V -> V -> R).
  (** f(.,t) is differentiable along lines (tested against every w) with derivative Df *)
  Definition derivative_of (f : V -> R -> V) (Df : V -> R -> J) : Prop :=
    forall t x d w s, derivable_pt_lim (fun s => ip (f (vadd vo x (vscale vo s d)) t) w) s
                                       (ip (ap (Df (vadd vo x (vscale vo s d)) t) d) w).
  (** (Df v, v) <= 0 *)
  Definition dissipative_derivative (Df : V -> R -> J) : Prop := forall y t v, ip (ap (Df y t) v) v <= 0.
  (** Df is Lipschitz with constant [lip]. *)
  Definition lipschitz_derivative (Df : V -> R -> J) (lip : R) : Prop :=
    forall x d t v, length_of ip (vadd vo (ap (Df (vadd vo x d) t) v) (vscale vo (- (1)) (ap (Df x t) v)))
      <= lip * length_of ip d * length_of ip v.
End Smooth.

(** The step from the states [past] over [dt] begins with a residual [e] for which the iterations allowed are enough. *)
Definition begun (cf : config R) (c lip dt e : R) : Prop :=
  0 <= dt /\ c * dt * lip / 2 * e < 1 /\ enough cf (c * dt * lip / 2) 1 e.
(** ... for all the steps of a run. *)
Definition well_begun {V} (eps : R) (vo : vops R V) (ip : V -> V -> R) (f : V -> R -> V) (cf : config R) (lip : R) (name : scheme)
  (tr : list (call R V)) : Prop :=
  forall k t y t' y', In (k, t, y) (reports tr) -> In ((k + 1)%Z, t', y') (reports tr) ->
  forall past, (k = 0%Z /\ past = [y]) \/ (exists tp yp, past = [y; yp] /\ In ((k - 1)%Z, tp, yp) (reports tr)) ->
  begun cf (weight_of (Rops eps) name past) lip (t' - t)
    (length_of ip (scheme_residual (Rops eps) vo f name past t (t' - t) y)).

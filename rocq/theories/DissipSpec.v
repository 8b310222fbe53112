(** Stability of implicit integrations (C77): the notions used in the statements. *)
From Coq Require Import ZArith List Reals.
From Verif Require Import Base RInst Laws AdvanceModel AdvanceSpec ExplicitModel ImplicitModel ImplicitSpec ImplicitExtra Track.
Import ListNotations.
Local Open Scope R_scope.

(** Inner products over the reals (definiteness is not needed) *)
Record inner {V : Type} (vo : vops R V) (ip : V -> V -> R) : Prop := {
  ip_sym : forall x y, ip x y = ip y x;
  ip_add : forall x y z, ip (vadd vo x y) z = ip x z + ip y z;
  ip_scale : forall a x z, ip (vscale vo a x) z = a * ip x z;
  ip_pos : forall x, 0 <= ip x x
}.
Definition length_of {V : Type} (ip : V -> V -> R) (x : V) : R := sqrt (ip x x).
(** (f(y,t) - f(z,t), y - z) <= 0: solutions of y' = f(y,t) do not move apart. *)
Definition dissipative {V : Type} (eps0 : R) (vo : vops R V) (ip : V -> V -> R) (f : V -> R -> V) : Prop :=
  forall y z t, ip (vminus (Rops eps0) vo (f y t) (f z t)) (vminus (Rops eps0) vo y z) <= 0.

(** ** Integrations that returned normally, with a new stepper and a solver that accepts residuals
    in [Acc]; [tr]: the calls they made. *)
Section Completed.
  Context {S V J P Ws U : Type} (o : sops S).
  Variables (solver : Ws -> V -> sol V V J Ws) (policy : policy S V V J P) (new_policy : P -> Prop) (name : scheme).
  Let stepper := implicit_step o policy solver name.
  Inductive completed (Acc : V -> Prop) : S -> V -> list (call S V) -> Prop :=
  | CompletedSteps (obs : Z -> S -> V -> U -> outcome unit * U) cs cr p yc ws g0 pol num start y0 w y' g' w' tr :
      (forall ws y, certified Acc (fun _ => False) (solver ws y)) -> new_policy p ->
      implicit_create o name cs cr p yc ws = Ok g0 -> (Z.of_nat num < int32_max)%Z ->
      advance_n_steps o (mk_user (split_obs obs) (pol3 (split_pol pol)) noop_guess (split_step (implicit_fn stepper)))
        (Z.of_nat num) start (y0, (g0, w), []) = (Ok tt, (y', (g', w'), tr)) ->
      completed Acc start y0 tr
  | CompletedTarget (obs : Z -> S -> V -> U -> outcome unit * U) cs cr p yc ws g0 pol recovery fuel start final y0 w y' g' w' tr :
      (forall ws y, ends (fun r => r <> Throw ETimeStep) (solver ws y)) ->
      (forall ws y, certified Acc (fun _ => False) (solver ws y)) -> new_policy p ->
      implicit_create o name cs cr p yc ws = Ok g0 -> seqb o final start = false ->
      to_target o (mk_user (split_obs obs) (split_pol pol) noop_guess (split_step (implicit_fn stepper))) recovery fuel
        start final (y0, (g0, w), []) = (Ok tt, (y', (g', w'), tr)) ->
      completed Acc start y0 tr.
End Completed.
(** without and with mass matrix *)
Definition completed_std {S V J W Ws : Type} (U : Type) (o : sops S) (vo : vops S V) (jo : vops S J) (jid : J)
  (u : isys (S:=S) (V:=V) (J:=J) (W:=W)) (solver : Ws -> V -> sol V V J Ws) (name : scheme) :=
  completed (U:=U) o solver (policy_std o vo jo jid u) (fun p => exists w, p = mk_ppol (-1) w) name.
Definition completed_mm {S V J W Ws : Type} (U : Type) (o : sops S) (vo : vops S V) (jo : vops S J) (japp : J -> V -> V)
  (u : isys (S:=S) (V:=V) (J:=J) (W:=W)) (solver : Ws -> V -> sol V V J Ws) (name : scheme) :=
  completed (U:=U) o solver (policy_mm o vo jo japp u) (fun p => exists m a b w, p = mk_mpol m a b (-1) w) name.

(** Two integrations reported the same step numbers and times; the times do not decrease. *)
Definition same_times {V V'} (tr : list (call R V)) (tr' : list (call R V')) : Prop :=
  map fst (reports tr) = map fst (reports tr').
Definition forward_in_time {V} (tr : list (call R V)) : Prop :=
  forall k t s t' s', In (k, t, s) (reports tr) -> In ((k + 1)%Z, t', s') (reports tr) -> t <= t'.
(** ... and the steps do not grow. *)
Definition steps_not_growing {V} (tr : list (call R V)) : Prop :=
  forall k t s t' s' t'' s'', In (k, t, s) (reports tr) -> In ((k + 1)%Z, t', s') (reports tr) ->
    In ((k + 2)%Z, t'', s'') (reports tr) -> t'' - t' <= t' - t.
(** The states reported with number k are at most [B k] apart. *)
Definition apart {V} (eps0 : R) (vo : vops R V) (ip : V -> V -> R) (B : Z -> R) (tr tr' : list (call R V)) : Prop :=
  forall k t y t' y', In (k, t, y) (reports tr) -> In (k, t', y') (reports tr') ->
    length_of ip (vminus (Rops eps0) vo y y') <= B k.

(** [ts]: the reported times. *)
Definition times_are {V} (tr : list (call R V)) (ts : nat -> R) : Prop :=
  forall k t y, In (Z.of_nat k, t, y) (reports tr) -> t = ts k.
(** Up to number [n] the sequence [z] obeys the scheme at times [ts] with residuals of length at most [err]. *)
Section Near.
  Context {V : Type} (eps0 : R) (vo : vops R V) (ip : V -> V -> R) (f : V -> R -> V) (ts err : nat -> R) (n : nat) (z : nat -> V).
  Notation o := (Rops eps0).
  Notation h k := (ts (Datatypes.S k) - ts k).
  Notation fz k := (f (z k) (ts k)).
  Definition near_bdf1 : Prop := forall k, (k < n)%nat ->
    length_of ip (bdf1_R o vo (z k) (h k) (fz (Datatypes.S k)) (z (Datatypes.S k))) <= err k.
  (** the first step of BDF2 is one of BDF1 *)
  Definition near_bdf2 : Prop :=
    ((0 < n)%nat -> length_of ip (bdf1_R o vo (z 0%nat) (h 0%nat) (fz 1%nat) (z 1%nat)) <= err 0%nat) /\
    forall k, (Datatypes.S k < n)%nat ->
    length_of ip (bdf2_R o vo (z (Datatypes.S k)) (z k) (h (Datatypes.S k)) (fz (Datatypes.S (Datatypes.S k)))
      (z (Datatypes.S (Datatypes.S k)))) <= err (Datatypes.S k).
  Definition near_cn : Prop := forall k, (k < n)%nat ->
    length_of ip (cn_R o vo (z k) (fz k) (h k) (fz (Datatypes.S k)) (z (Datatypes.S k))) <= err k.
End Near.

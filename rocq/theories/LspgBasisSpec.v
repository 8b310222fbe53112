(** Specification of C101: what an LSPG run of a linear FOM depends on. *)
From Coq Require Import Reals ZArith List.
From Verif Require Import Base RInst Laws AdvanceModel AdvanceSpec AdvanceProofs TargetProofs Track ExplicitModel ImplicitModel ImplicitSpec
  NonlinDiag NonlinModel NonlinSpec NonlinLaws LspgModel LspgSpec RomRunSpec RomLsSpec.
Import ListNotations.
Local Open Scope R_scope.

Section Runs.
  Context {X Y J H : Type} (eps : R) (no : nlops R X Y J H) (yo : vops R Y) (jo : vops R J) (ap : J -> X -> Y) (apH : H -> X -> X).
  Variables (ref : Y) (phi : J) (A : R -> Y -> Y) (b : R -> Y) (name : scheme) (tag : lstag).
  Notation o := (Rops eps).
  Definition trial (x : X) : Y := vadd yo ref (ap phi x).
  (** An integration, over a number of steps or to a target, of a new LSPG problem of y' = A(t) y + b(t) in the trial space
      ref + range(phi), with the library's Gauss-Newton, that returned normally; [tr]: the calls it made. *)
  Inductive lspg_run (start : R) (y0 : X) : list (call R X) -> Prop :=
  | RunSteps (L W U : Type) (fom : sfom (S:=R) (Y:=Y) (R:=Y) (J:=J) (B:=J) (W:=W)) Aphi (xt : exts X Y J H L) wr wj cf
      (obs : Z -> R -> X -> U -> outcome unit * U) w0 cs cr zero x0 ws g0 pol num w y' g' w' tr :
      linear_fom yo ap fom phi A b Aphi ->
      linear_ok xt (if_solvable (normal_exact apH)) (if_solvable (qr_exact no ap)) (if_solvable (newton_exact ap)) nothing ->
      weights_ok xt wr wj nothing -> full_steps tag cf ->
      ls_object o ws -> lspg_create o name cs cr zero (fresh_policy w0) x0 ws = Ok g0 ->
      (Z.of_nat num < int32_max)%Z ->
      (forall k t y u, fst (obs k t y u) = Ok tt) -> (forall k t d u, exists dt, fst (pol k t d u) = Ok dt) ->
      advance_n_steps o (mk_user (split_obs obs) (pol3 (split_pol pol)) noop_guess
        (split_step (implicit_fn (implicit_step o (default_policy o yo jo trial fom phi) (as_solver (ls_solve o no xt tag cf)) name))))
        (Z.of_nat num) start (y0, (g0, w), []) = (Ok tt, (y', (g', w'), tr)) ->
      lspg_run start y0 tr
  | RunTarget (L W U : Type) (fom : sfom (S:=R) (Y:=Y) (R:=Y) (J:=J) (B:=J) (W:=W)) Aphi (xt : exts X Y J H L) wr wj cf
      (obs : Z -> R -> X -> U -> outcome unit * U) w0 cs cr zero x0 ws g0 pol recovery h n fuel final w y' g' w' tr :
      linear_fom yo ap fom phi A b Aphi ->
      linear_ok xt (if_solvable (normal_exact apH)) (if_solvable (qr_exact no ap)) (if_solvable (newton_exact ap)) nothing ->
      weights_ok xt wr wj nothing -> full_steps tag cf ->
      ls_object o ws -> lspg_create o name cs cr zero (fresh_policy w0) x0 ws = Ok g0 ->
      0 <= eps -> (forall k t y u, fst (obs k t y u) = Ok tt) ->
      (forall k t x u, exists dt m c, fst (pol k t x u) = Ok (dt, m, c) /\ h <= dt /\ m <= dt /\ (recovery = true -> 1 < c)) ->
      start < final -> final - start <= INR n * h -> (n < fuel)%nat -> (Z.of_nat n < int32_max)%Z ->
      to_target o (mk_user (split_obs obs) (split_pol pol) noop_guess
        (split_step (implicit_fn (implicit_step o (default_policy o yo jo trial fom phi) (as_solver (ls_solve o no xt tag cf)) name))))
        recovery fuel start final (y0, (g0, w), []) = (Ok tt, (y', (g', w'), tr)) ->
      lspg_run start y0 tr.
  (** the least-squares problems of forward steps, with matrix phi - c dt A(t) phi (c = 1 or 2/3), have exactly one solution *)
  Definition steps_regular : Prop :=
    forall c t dt j, (c = 1 \/ c = 2 / 3) -> 0 <= dt -> (forall x, ap j x = vminus o yo (ap phi x) (vscale yo (c * dt) (A t (ap phi x)))) ->
    regular no yo ap apH tag j.
  (** the reports, with the full states *)
  Definition full_reports (tr : list (call R X)) : list (Z * R * Y) := map (fun q => (fst q, trial (snd q))) (reports tr).
End Runs.

(** Model of the steady LSPG problems: rom/lspg_steady.hpp 15-92,
    rom/impl/lspg_steady_system_default.hpp, rom/impl/lspg_steady_system_masked.hpp,
    rom/impl/noop.hpp. No proofs in this file.

    [X]: reduced states; [Y]: FOM states; [Rf], [Jf]: FOM residuals and Jacobian actions on the
    basis; [Rm], [Jm]: masked ones; [B]: basis. [recon]: mapFromReducedState (see SubspaceModel).
    The FOM is a [steady_fom] of GalerkinModel, of which only residualAndJacobianAction is called.
    Default and hyper-reduced problems are the same class (lspg_steady.hpp 11-14). *)
From Coq Require Import List Bool.
From Verif Require Import Base ImplicitModel LspgModel GalerkinModel.

Section SteadyLspg.
  Context {X Y Rf Jf Rm Jm B W : Type}.
  Variable recon : X -> Y.
  Variable phi : B.
  Variable fom : steady_fom (Y:=Y) (Rf:=Rf) (Jf:=Jf) (B:=B) (W:=W).

  (** scaler(fomState, R, Jo) *)
  (* lspg_steady_system_default.hpp 73, lspg_steady_system_masked.hpp 98 (external) *)
  Definition scaler (R J : Type) : Type := Y -> R -> option J -> W -> outcome unit * (R * option J * W).
  (** NoOperation, noop.hpp 71-79 *)
  Definition no_scaling {R J} : scaler R J := fun _ r j w => (Ok tt, (r, j, w)).

  (** The mutable members fomState_, unMaskedFomResidual_, unMaskedFomJacAction_ (the last two of
      masked problems only), and the user's world *)
  (* lspg_steady_system_default.hpp 79, lspg_steady_system_masked.hpp 104, 106-107 *)
  Record sobj := mk_sobj { so_y : Y; so_r : Rf; so_j : Jf; so_w : W }.

  (** lspg_steady_system_default.hpp 63-74: residualAndJacobian(x, R, Jo) *)
  Definition lspg_steady_default (sc : scaler Rf Jf) (x : X) (r : Rf) (j : option Jf) (b : sobj)
    : outcome unit * (Rf * option Jf * sobj) :=
    let y := recon x in
    let '(e, (r1, j1, w1)) := sf_rj fom y r phi j (so_w b) in
    match e with
    | Ok _ =>
        let '(e2, (r2, j2, w2)) := sc y r1 (mask j j1) w1 in
        (e2, (r2, mask j j2, mk_sobj y (so_r b) (so_j b) w2))
    | _ => (e, (r1, mask j j1, mk_sobj y (so_r b) (so_j b) w1))
    end.

  (** lspg_steady_system_masked.hpp 77-99 *)
  Definition lspg_steady_masked (msk : masker (Ru:=Rf) (Ju:=Jf) (R:=Rm) (J:=Jm) (W:=W)) (sc : scaler Rm Jm)
             (x : X) (r : Rm) (j : option Jm) (b : sobj) : outcome unit * (Rm * option Jm * sobj) :=
    let y := recon x in
    let given := match j with Some _ => Some (so_j b) | None => None end in
    let '(e, (r1, j1, w1)) := sf_rj fom y (so_r b) phi given (so_w b) in
    let ua := match mask given j1 with Some a => a | None => so_j b end in
    match e with
    | Ok _ =>
        let '(e2, (r2, w2)) := mk_R msk r1 r w1 in
        match e2 with
        | Ok _ =>
            let '(e3, (j3, w3)) :=
              match j with
              | Some j0 => let '(e3, (j3, w3)) := mk_J msk ua j0 w2 in (e3, (Some j3, w3))
              | None => (Ok tt, (None, w2))
              end in
            match e3 with
            | Ok _ =>
                let '(e4, (r4, j4, w4)) := sc y r2 j3 w3 in
                (e4, (r4, mask j3 j4, mk_sobj y r1 ua w4))
            | _ => (e3, (r2, j3, mk_sobj y r1 ua w3))
            end
        | _ => (e2, (r2, j, mk_sobj y r1 ua w2))
        end
    | _ => (e, (r, j, mk_sobj y r1 ua w1))
    end.
End SteadyLspg.
Arguments mk_sobj {Y Rf Jf W}. Arguments so_y {Y Rf Jf W}. Arguments so_r {Y Rf Jf W}.
Arguments so_j {Y Rf Jf W}. Arguments so_w {Y Rf Jf W}. Arguments sobj : clear implicits.

(** create_steady_problem (1)-(4), lspg_steady.hpp 15-92: the scaler is NoOperation or a reference
    to the user's. *)
(* lspg_steady.hpp 15-28 *)
Definition steady_problem_default {X Y Rf Jf B W} recon phi fom :=
  @lspg_steady_default X Y Rf Jf B W recon phi fom no_scaling.
(* lspg_steady.hpp 33-47 *)
Definition steady_problem_masked {X Y Rf Jf Rm Jm B W} recon phi fom msk :=
  @lspg_steady_masked X Y Rf Jf Rm Jm B W recon phi fom msk no_scaling.

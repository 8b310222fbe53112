(** Model of the unsteady ROM problems that keep a history of full-order-model
    (FOM) states: rom/impl/lspg_unsteady_fom_states_manager.hpp,
    galerkin_unsteady_fom_states_manager.hpp, lspg_unsteady_rj_policy_default.hpp,
    lspg_unsteady_rj_policy_hypred.hpp, lspg_unsteady_mask_decorator.hpp,
    lspg_unsteady_scaling_decorator.hpp, lspg_unsteady_fully_discrete_system.hpp,
    galerkin_unsteady_system_fully_discrete_fom.hpp,
    galerkin_unsteady_system_hypred_fully_discrete_fom.hpp,
    lspg_helpers.hpp, lspg_unsteady_problem.hpp. No proofs in this file.

    [X]: reduced states; [Y]: FOM states; [recon]: mapFromReducedState (see
    SubspaceModel). The assertions are taken as compiled out: an access outside
    the storage is undefined behaviour. *)
From Coq Require Import ZArith List Bool.
From Verif Require Import Base ExplicitModel ImplicitModel.
Import ListNotations.
Local Open Scope Z_scope.

(** ** LspgFomStatesManager *)
Section Manager.
  Context {X Y : Type}.
  Variable recon : X -> Y.

  (* the tags ode::nPlusOne, n, nMinusOne, nMinusTwo taken at lspg_unsteady_fom_states_manager.hpp 81-98, 101-130 *)
  Inductive tag := NPlusOne | N | NMinusOne | NMinusTwo.
  (** The element operator() reads, lspg_unsteady_fom_states_manager.hpp 81-98 *)
  Definition read_index (g : tag) : nat :=
    match g with NPlusOne => 0 | N => 1 | NMinusOne => 2 | NMinusTwo => 3 end.
  (* lspg_unsteady_fom_states_manager.hpp 81-98 *)
  Definition fom_at (g : tag) (data : list Y) : outcome Y :=
    match nth_error data (read_index g) with Some y => Ok y | None => Undef UOutOfBounds end.
  (** The element reconstructAtWithoutStencilUpdate writes, lspg_unsteady_fom_states_manager.hpp 101-130:
      for n-2 it is
      data_[4] *)
  Definition write_index (g : tag) : nat :=
    match g with NPlusOne => 0 | N => 1 | NMinusOne => 2 | NMinusTwo => 4 end.
  (* lspg_unsteady_fom_states_manager.hpp 101-130 *)
  Definition recon_at (g : tag) (x : X) (data : list Y) : outcome (list Y) :=
    match list_set data (write_index g) (recon x) with Some d => Ok d | None => Undef UOutOfBounds end.
  (** The size their assertions ask for *)
  (* lspg_unsteady_fom_states_manager.hpp 82, 87, 92, 97 and 104, 112, 120, 128 *)
  Definition asserted_size (g : tag) : nat :=
    match g with NPlusOne => 1 | N => 2 | NMinusOne => 3 | NMinusTwo => 4 end.
  (** reconstructAtWithStencilUpdate(romState, n()), lspg_unsteady_fom_states_manager.hpp 132-163 *)
  Definition recon_shift (x : X) (data : list Y) : list Y :=
    match data with
    | [a; _] => [a; recon x]
    | [a; b; _] => [a; recon x; b]
    | [a; b; c; _] => [a; recon x; b; c]
    | _ => data
    end.
  (** create_lspg_fom_states_manager, lspg_unsteady_fom_states_manager.hpp 176-205: by scheme;
      [zero] is what setZero (166-169) makes of the clones *)
  Definition manager_for (name : scheme) (zero : Y) : outcome (list Y) :=
    match name with
    | BDF1 => Ok [zero; zero]
    | BDF2 => Ok [zero; zero; zero]
    | CrankNicolson => Ok [zero; zero]
    | _ => Throw ERuntime
    end.
  (** lspg_unsteady_fom_states_manager.hpp 207-228, and galerkin_unsteady_fom_states_manager.hpp 59-78: by number of
      states *)
  Definition manager_of_size (n : nat) (zero : Y) : outcome (list Y) :=
    match n with
    | 2%nat => Ok [zero; zero]
    | 3%nat => Ok [zero; zero; zero]
    | _ => Throw ERuntime
    end.

  (** *** Reconstruction with a step tracker
      The manager with stepTracker_ (initially -1). The same code is in
      lspg_unsteady_rj_policy_default.hpp 146-165, lspg_unsteady_rj_policy_hypred.hpp 152-170,
      lspg_unsteady_fully_discrete_system.hpp 163-193,
      galerkin_unsteady_system_fully_discrete_fom.hpp 173-211 and
      galerkin_unsteady_system_hypred_fully_discrete_fom.hpp 168-205. [st] are the reduced states y_n, y_n-1, ...
      of the stepper; only y_n is used. *)
  (* data_, lspg_unsteady_fom_states_manager.hpp 173; stepTracker_, lspg_unsteady_rj_policy_default.hpp 206; lspg_unsteady_rj_policy_hypred.hpp 257; lspg_unsteady_fully_discrete_system.hpp 199; galerkin_unsteady_system_fully_discrete_fom.hpp 216; galerkin_unsteady_system_hypred_fully_discrete_fom.hpp 211 *)
  Record fomhist := mk_fomhist { fh_data : list Y; fh_trk : Z }.
  Definition reconstruct (y : X) (st : list X) (step : Z) (h : fomhist) : outcome unit * fomhist :=
    match recon_at NPlusOne y (fh_data h) with
    | Ok d =>
        if fh_trk h =? step then (Ok tt, mk_fomhist d (fh_trk h))
        else match st with
             | y_n :: _ => (Ok tt, mk_fomhist (recon_shift y_n d) step)
             | [] => (Undef UOutOfBounds, mk_fomhist d (fh_trk h))
             end
    | Throw e => (Throw e, h)
    | Undef b => (Undef b, h)
    | NoFuel => (NoFuel, h)
    end.
End Manager.
Arguments mk_fomhist {Y}. Arguments fh_data {Y}. Arguments fh_trk {Y}.

(** ** Semi-discrete LSPG policies *)
Section Lspg.
  Context {S X Y R J B W : Type} (o : sops S) (yo : vops S Y).
  Variable recon : X -> Y.

  (** The user's FOM: rhs(y, t, f) and applyJacobian(y, operand, t, result); output
      arguments by reference. *)
  (* fomSystem_ as called at lspg_unsteady_rj_policy_default.hpp 168, 183; lspg_unsteady_rj_policy_hypred.hpp 181, 206, 235 *)
  Record sfom := mk_sfom {
    fo_rhs : Y -> S -> R -> W -> outcome unit * (R * W);
    fo_jac : Y -> B -> S -> J -> W -> outcome unit * (J * W)
  }.
  Variable fom : sfom.
  Variable phi : B.

  (** The policy object: FOM states manager, step tracker, the user's world. *)
  (* lspg_unsteady_rj_policy_default.hpp 206-210; lspg_unsteady_rj_policy_hypred.hpp 257-263 (fomStateHelperInstance_ is always written before it is read) *)
  Record lpol := mk_lpol { lp_h : fomhist (Y:=Y); lp_w : W }.

  (** What a policy does with the reconstructed FOM states y_n+1 and y_n, y_n-1,
      ..., in memory [W]; [second]: BDF2 *)
  (* the part of compute_impl_bdf after the reconstruction: lspg_unsteady_rj_policy_default.hpp 167-197; lspg_unsteady_rj_policy_hypred.hpp 172-248 *)
  Definition evaluation (Wm : Type) : Type :=
    bool -> Y -> list Y -> S -> S -> R -> option J -> Wm -> outcome unit * (R * option J * Wm).

  (** The common part of the two policies: operator()
      (lspg_unsteady_rj_policy_default.hpp 96-131, lspg_unsteady_rj_policy_hypred.hpp 101-137) and
      reconstruction, first lines of compute_impl_bdf. The stencil of right-hand
      sides is not touched. *)
  Definition lspg_bdf (ev : evaluation W) (second : bool) (y : X) (st : list X) (fs : list R) (t : S)
             (step : Z) (dt : S) (r : R) (Jo : option J) (p : lpol)
    : outcome unit * (list R * R * option J * lpol) :=
    let '(r0, h) := reconstruct recon y st step (lp_h p) in
    match r0 with
    | Ok _ =>
        match fh_data h with
        | np1 :: older =>
            let '(r1, (r', j', w')) := ev second np1 older t dt r Jo (lp_w p) in
            (r1, (fs, r', j', mk_lpol h w'))
        | [] => (Undef UOutOfBounds, (fs, r, Jo, mk_lpol h (lp_w p)))
        end
    | _ => (r0, (fs, r, Jo, mk_lpol h (lp_w p)))
    end.
  (* lspg_unsteady_rj_policy_default.hpp 108-130; lspg_unsteady_rj_policy_hypred.hpp 113-136 *)
  Definition lspg_policy (ev : evaluation W) : policy S X R J lpol :=
    fun name y st fs t step dt r Jo p =>
      match name with
      | BDF1 => lspg_bdf ev false y st fs t step dt r Jo p
      | BDF2 => lspg_bdf ev (negb (step =? 1)) y st fs t step dt r Jo p
      | _ => (Throw ERuntime, (fs, r, Jo, p))
      end.

  (** The Jacobian part of compute_impl_bdf (lspg_unsteady_rj_policy_default.hpp 175-197,
      lspg_unsteady_rj_policy_hypred.hpp 228-248): J :=
      applyJacobian(y_n+1, phi), then [fin] *)
  Definition lspg_jac (fin : J -> W -> outcome unit * (J * W)) (np1 : Y) (t : S) (r : R)
             (Jo : option J) (w : W) : outcome unit * (R * option J * W) :=
    match Jo with
    | None => (Ok tt, (r, None, w))
    | Some j =>
        let '(e, (j1, w1)) := fo_jac fom np1 phi t j w in
        match e with
        | Ok _ => let '(e2, (j2, w2)) := fin j1 w1 in (e2, (r, Some j2, w2))
        | _ => (e, (r, Some j1, w1))
        end
    end.
  (** factor = dt * c_f, lspg_unsteady_rj_policy_default.hpp 188-195; lspg_unsteady_rj_policy_hypred.hpp 239-245 *)
  Definition lspg_factor (second : bool) (dt : S) : S :=
    smul o dt (if second then bdf2_c_f o else bdf1_c_f o).
End Lspg.
Arguments mk_sfom {S Y R J B W}. Arguments fo_rhs {S Y R J B W}. Arguments fo_jac {S Y R J B W}.
Arguments mk_lpol {Y W}. Arguments lp_h {Y W}. Arguments lp_w {Y W}.

(** *** Default, lspg_unsteady_rj_policy_default.hpp: right-hand sides and FOM
    states are in the same space, and so are basis and Jacobian action *)
Section Default.
  Context {S X Y J W : Type} (o : sops S) (yo : vops S Y) (jo : vops S J).
  Variable recon : X -> Y.
  Variable fom : sfom (S:=S) (Y:=Y) (R:=Y) (J:=J) (B:=J) (W:=W).
  Variable phi : J.

  (** discrete_residual on the FOM states manager, lspg_unsteady_rj_policy_default.hpp 171-172 *)
  Definition default_residual (second : bool) (np1 f : Y) (older : list Y) (dt : S) : outcome Y :=
    if second then
      match older with
      | y_n :: y_nm1 :: _ => Ok (dres_bdf2 o yo np1 f y_n y_nm1 dt)
      | _ => Undef UOutOfBounds
      end
    else
      match older with
      | y_n :: _ => Ok (dres_bdf1 o yo np1 f y_n dt)
      | [] => Undef UOutOfBounds
      end.
  (** lspg_unsteady_rj_policy_default.hpp 167-197. Exceptions of the FOM pass through. *)
  Definition default_eval : evaluation (S:=S) (Y:=Y) (R:=Y) (J:=J) W :=
    fun second np1 older t dt r Jo w =>
      let '(e, (f, w1)) := fo_rhs fom np1 t r w in
      match e with
      | Ok _ =>
          match default_residual second np1 f older dt with
          | Ok r1 =>
              lspg_jac fom phi
                (fun j w => (Ok tt, (upd1 jo j (lspg_factor o second dt) phi (s1 o), w)))
                np1 t r1 Jo w1
          | Throw x => (Throw x, (f, Jo, w1))
          | Undef b => (Undef b, (f, Jo, w1))
          | NoFuel => (NoFuel, (f, Jo, w1))
          end
      | _ => (e, (f, Jo, w1))
      end.
  (* lspg_unsteady_rj_policy_default.hpp 96-198 *)
  Definition default_policy : policy S X Y J (lpol (Y:=Y) (W:=W)) := lspg_policy recon default_eval.
End Default.

(** *** Hyper-reduced, lspg_unsteady_rj_policy_hypred.hpp: FOM states on the stencil
    mesh, residual and Jacobian action on the sample mesh *)
Section HypRed.
  Context {S X Y R J B W : Type} (o : sops S) (yo : vops S Y).
  Variable recon : X -> Y.
  Variable fom : sfom (S:=S) (Y:=Y) (R:=R) (J:=J) (B:=B) (W:=W).
  Variable phi : B.
  (** updateSampleMeshOperandWithStencilMeshOne(sample, alpha, stencil, beta) *)
  (* hypRedUpdater_ as called at lspg_unsteady_rj_policy_hypred.hpp 194-195, 223-224, 247 *)
  Record updater := mk_updater {
    up_R : R -> S -> Y -> S -> W -> outcome unit * (R * W);
    up_J : J -> S -> B -> S -> W -> outcome unit * (J * W)
  }.
  Variable up : updater.

  (** fomStateHelperInstance_, lspg_unsteady_rj_policy_hypred.hpp 188-190 and 216-219; its old content is not read *)
  Definition hypred_combination (second : bool) (np1 : Y) (older : list Y) : outcome Y :=
    if second then
      match older with
      | y_n :: y_nm1 :: _ => Ok (upd3_0 yo np1 (bdf2_c_np1 o) y_n (bdf2_c_n o) y_nm1 (bdf2_c_nm1 o))
      | _ => Undef UOutOfBounds
      end
    else
      match older with
      | y_n :: _ => Ok (upd2_0 yo np1 (bdf1_c_np1 o) y_n (bdf1_c_n o))
      | [] => Undef UOutOfBounds
      end.
  (** cf = c_f * dt for the residual (lspg_unsteady_rj_policy_hypred.hpp 193, 222), dt * c_f for the Jacobian (239-245) *)
  Definition hypred_cf (second : bool) (dt : S) : S :=
    smul o (if second then bdf2_c_f o else bdf1_c_f o) dt.
  (** lspg_unsteady_rj_policy_hypred.hpp 172-248 *)
  Definition hypred_eval : evaluation (S:=S) (Y:=Y) (R:=R) (J:=J) W :=
    fun second np1 older t dt r Jo w =>
      let '(e, (f, w1)) := fo_rhs fom np1 t r w in
      match e with
      | Ok _ =>
          match hypred_combination second np1 older with
          | Ok c =>
              let '(e2, (r2, w2)) := up_R up f (hypred_cf second dt) c (s1 o) w1 in
              match e2 with
              | Ok _ =>
                  lspg_jac fom phi
                    (fun j w => up_J up j (lspg_factor o second dt) phi (s1 o) w) np1 t r2 Jo w2
              | _ => (e2, (r2, Jo, w2))
              end
          | Throw x => (Throw x, (f, Jo, w1))
          | Undef b => (Undef b, (f, Jo, w1))
          | NoFuel => (NoFuel, (f, Jo, w1))
          end
      | _ => (e, (f, Jo, w1))
      end.
  (* lspg_unsteady_rj_policy_hypred.hpp 101-249 *)
  Definition hypred_policy : policy S X R J (lpol (Y:=Y) (W:=W)) := lspg_policy recon hypred_eval.
End HypRed.
Arguments mk_updater {S Y R J B W}. Arguments up_R {S Y R J B W}. Arguments up_J {S Y R J B W}.

(** *** LspgMaskDecorator, lspg_unsteady_mask_decorator.hpp *)
Section Masked.
  Context {S X Y Ru Ju R J W : Type}.
  Variable base : policy S X Ru Ju (lpol (Y:=Y) (W:=W)).
  (** masker(operand, result) *)
  (* masker_ as called at lspg_unsteady_mask_decorator.hpp 122, 125 *)
  Record masker := mk_masker {
    mk_R : Ru -> R -> W -> outcome unit * (R * W);
    mk_J : Ju -> J -> W -> outcome unit * (J * W)
  }.
  Variable m : masker.
  (** The base with unMaskedResidual_ and unMaskedJacobian_ *)
  (* lspg_unsteady_mask_decorator.hpp 131-132 *)
  Record mkpol := mk_mkpol { mk_base : lpol (Y:=Y) (W:=W); mk_r : Ru; mk_j : Ju }.
  (* model only: the user's world after a call *)
  Definition set_world (p : lpol (Y:=Y) (W:=W)) (w : W) := mk_lpol (lp_h p) w.
  (** lspg_unsteady_mask_decorator.hpp 105-127: the base is always asked for the Jacobian. The stencil of right-hand
      sides is passed on; the base does not use it. *)
  Definition masked_policy : policy S X R J mkpol :=
    fun name y st fs t step dt r Jo p =>
      let '(e, (_, ru, ju, b)) := base name y st [] t step dt (mk_r p) (Some (mk_j p)) (mk_base p) in
      let ju' := match ju with Some j => j | None => mk_j p end in
      match e with
      | Ok _ =>
          let '(e1, (r1, w1)) := mk_R m ru r (lp_w b) in
          match e1, Jo with
          | Ok _, Some j =>
              let '(e2, (j2, w2)) := mk_J m ju' j w1 in
              (e2, (fs, r1, Some j2, mk_mkpol (set_world b w2) ru ju'))
          | _, _ => (e1, (fs, r1, Jo, mk_mkpol (set_world b w1) ru ju'))
          end
      | _ => (e, (fs, r, Jo, mk_mkpol b ru ju'))
      end.
End Masked.
Arguments mk_masker {Ru Ju R J W}. Arguments mk_R {Ru Ju R J W}. Arguments mk_J {Ru Ju R J W}.
Arguments mk_mkpol {Y Ru Ju W}. Arguments mk_base {Y Ru Ju W}. Arguments mk_r {Y Ru Ju W}.
Arguments mk_j {Y Ru Ju W}. Arguments set_world {Y W}.

(** *** LspgScalingDecorator, lspg_unsteady_scaling_decorator.hpp *)
Section Scaled.
  Context {S X Y R J W : Type}.
  Variable base : policy S X R J (lpol (Y:=Y) (W:=W)).
  (** scaler(y_n+1, t, R, Jo) *)
  Variable scaler : Y -> S -> R -> option J -> W -> outcome unit * (R * option J * W).
  (** lspg_unsteady_scaling_decorator.hpp 86-104 *)
  Definition scaled_policy : policy S X R J (lpol (Y:=Y) (W:=W)) :=
    fun name y st fs t step dt r Jo p =>
      let '(e, (fs1, r1, j1, b)) := base name y st fs t step dt r Jo p in
      match e with
      | Ok _ =>
          match fom_at NPlusOne (fh_data (lp_h b)) with
          | Ok np1 =>
              let '(e2, (r2, j2, w2)) := scaler np1 t r1 j1 (lp_w b) in
              (e2, (fs1, r2, mask j1 j2, set_world b w2))
          | Throw x => (Throw x, (fs1, r1, j1, b))
          | Undef b' => (Undef b', (fs1, r1, j1, b))
          | NoFuel => (NoFuel, (fs1, r1, j1, b))
          end
      | _ => (e, (fs1, r1, j1, b))
      end.
End Scaled.

(** ** Fully discrete systems, given to the arbitrary stepper *)
Section FullyDiscrete.
  Context {S X Y Rf Jf R J B W : Type}.
  Variable recon : X -> Y.
  (** discreteTimeResidualAndJacobianAction(step, t, dt, R, phi, Jo, y_n+1, y_n, ...);
      [n] = 2 or 3 states in all *)
  Variable dfom : Z -> S -> S -> Rf -> B -> option Jf -> Y -> list Y -> W ->
                  outcome unit * (Rf * option Jf * W).
  Variable phi : B.

  (* lspg_unsteady_fully_discrete_system.hpp 123-125, 150-152; galerkin_unsteady_system_fully_discrete_fom.hpp 88-90, 117-119; galerkin_unsteady_system_hypred_fully_discrete_fom.hpp 97-99, 126-128 *)
  Definition discrete_to_residual (r : outcome unit) : outcome unit :=
    match r with Throw EDiscreteTimeResidual => Throw EResidualEvaluation | _ => r end.

  (** reconstruction, then the FOM with the states the manager holds, in memory
      [Q]: the common part of the three systems *)
  (* lspg_unsteady_fully_discrete_system.hpp 113-115, 139-143; galerkin_unsteady_system_fully_discrete_fom.hpp 79-82, 106-111; galerkin_unsteady_system_hypred_fully_discrete_fom.hpp 88-92, 115-120 *)
  Definition fd_system {Q : Type} (n : nat)
             (ev : Z -> S -> S -> R -> option J -> Y -> list Y -> Q -> outcome unit * (R * option J * Q))
             (step : Z) (t dt : S) (r : R) (Jo : option J) (y : X) (st : list X)
             (p : fomhist (Y:=Y) * Q) : outcome unit * (R * option J * (fomhist (Y:=Y) * Q)) :=
    let '(r0, h) := reconstruct recon y st step (fst p) in
    match r0 with
    | Ok _ =>
        match fh_data h with
        | np1 :: older =>
            if (length older <? n - 1)%nat then (Undef UOutOfBounds, (r, Jo, (h, snd p)))
            else let '(e, (r', j', q')) := ev step t dt r Jo np1 (firstn (n - 1) older) (snd p) in
                 (e, (r', j', (h, q')))
        | [] => (Undef UOutOfBounds, (r, Jo, (h, snd p)))
        end
    | _ => (r0, (r, Jo, (h, snd p)))
    end.
End FullyDiscrete.

(** *** LSPG, lspg_unsteady_fully_discrete_system.hpp 103-153 *)
Definition lspg_discrete {S Y R J B W : Type}
  (dfom : Z -> S -> S -> R -> B -> option J -> Y -> list Y -> W -> outcome unit * (R * option J * W))
  (phi : B) (step : Z) (t dt : S) (r : R) (Jo : option J) (np1 : Y) (older : list Y) (w : W)
  : outcome unit * (R * option J * W) :=
  let '(e, (r', j', w')) := dfom step t dt r phi Jo np1 older w in
  (discrete_to_residual e, (r', mask Jo j', w')).

(** *** Galerkin, galerkin_unsteady_system_fully_discrete_fom.hpp 69-171 and
    galerkin_unsteady_system_hypred_fully_discrete_fom.hpp 78-166: fomResidual_ and fomJacAction_ are
    members; [proj_R], [proj_J]: phi^T times a vector and a matrix (152-170), or the
    hyper-reduction operator at t_n+1 (162-165) *)
Definition galerkin_discrete {S Y Rf Jf R J B W : Type}
  (dfom : Z -> S -> S -> Rf -> B -> option Jf -> Y -> list Y -> W -> outcome unit * (Rf * option Jf * W))
  (phi : B)
  (proj_R : S -> Rf -> R -> W -> outcome unit * (R * W))
  (proj_J : S -> Jf -> J -> W -> outcome unit * (J * W))
  (step : Z) (t dt : S) (r : R) (Jo : option J) (np1 : Y) (older : list Y) (q : Rf * Jf * W)
  : outcome unit * (R * option J * (Rf * Jf * W)) :=
  let '(fr, fj, w) := q in
  let given := match Jo with Some _ => Some fj | None => None end in
  let '(e, (fr1, fjo, w1)) := dfom step t dt fr phi given np1 older w in
  let fj1 := match mask given fjo with Some j => j | None => fj end in
  match e with
  | Ok _ =>
      let '(e1, (r1, w2)) := proj_R t fr1 r w1 in
      match e1, Jo with
      | Ok _, Some j =>
          let '(e2, (j2, w3)) := proj_J t fj1 j w2 in (e2, (r1, Some j2, (fr1, fj1, w3)))
      | _, _ => (e1, (r1, Jo, (fr1, fj1, w2)))
      end
  | _ => (discrete_to_residual e, (r, Jo, (fr1, fj1, w1)))
  end.

(** computeReducedOperators of the default system, galerkin_unsteady_system_fully_discrete_fom.hpp 150-171:
    ops::product(transpose(), 1, phi, a, 0, out), for the residual and for the Jacobian *)
Definition project_by {S B A V W : Type} (o : sops S) (prod : S -> B -> A -> S -> V -> V) (phi : B)
  (t : S) (a : A) (out : V) (w : W) : outcome unit * (V * W) :=
  (Ok tt, (prod (s1 o) phi a (s0 o) out, w)).

(** ** Creation *)
(** valid_scheme_for_lspg_else_throw, lspg_helpers.hpp 7-14 *)
Definition valid_for_lspg (name : scheme) : outcome unit :=
  match name with BDF1 | BDF2 => Ok tt | _ => Throw ERuntime end.
(** The policy objects as constructed: lspg_unsteady_rj_policy_default.hpp 72-78,
    lspg_unsteady_rj_policy_hypred.hpp 74-83, the scaling decorator (no data of its own), and
    lspg_unsteady_mask_decorator.hpp 80-88 with its two buffers *)
Definition fresh_policy {Y W} (w : W) (d : list Y) : lpol (Y:=Y) (W:=W) := mk_lpol (mk_fomhist d (-1)) w.
(* lspg_unsteady_mask_decorator.hpp 84-87 *)
Definition fresh_masked {Y Ru Ju W} (ru : Ru) (ju : Ju) (w : W) (d : list Y)
  : mkpol (Y:=Y) (Ru:=Ru) (Ju:=Ju) (W:=W) := mk_mkpol (fresh_policy w d) ru ju.
(** create_unsteady_problem (1)-(5), lspg_unsteady.hpp 22-214, with the constructor
    of LspgUnsteadyProblem, lspg_unsteady_problem.hpp 50-67: the scheme check, the
    FOM states manager, the policy object made by [mkp] from it, the stepper *)
Definition lspg_create {S X Y R P Ws : Type} (o : sops S) (name : scheme) (createState : X)
           (createResidual : R) (zero : Y) (mkp : list Y -> P) (y0 : X) (ws : Ws)
  : outcome (@sst S X R P Ws) :=
  match valid_for_lspg name with
  | Ok _ =>
      match manager_for name zero with
      | Ok d => implicit_create o name createState createResidual (mkp d) y0 ws
      | Throw e => Throw e
      | Undef b => Undef b
      | NoFuel => NoFuel
      end
  | Throw e => Throw e
  | Undef b => Undef b
  | NoFuel => NoFuel
  end.
(** Fully discrete problems: lspg_unsteady.hpp 224-249 with lspg_unsteady_problem.hpp
    68-84, and create_unsteady_implicit_problem of galerkin_unsteady_implicit.hpp
    155-206; [total] is TotalNumberOfDesiredStates *)
Definition discrete_create {S X Y Q Ws : Type} (o : sops S) (total : nat) (createState : X)
           (zero : Y) (q : Q) (y0 : X) (ws : Ws) : outcome (@ast S X (fomhist (Y:=Y) * Q) Ws) :=
  match manager_of_size total zero with
  | Ok d => Ok (mk_ast y0 (repeat createState (total - 1)) createState (s0 o) (s0 o) 0
                       (mk_fomhist d (-1), q) ws)
  | Throw e => Throw e
  | Undef b => Undef b
  | NoFuel => NoFuel
  end.

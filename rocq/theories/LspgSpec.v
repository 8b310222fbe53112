(** Specification of the unsteady problems with FOM histories (C34 - C36, C38, C60, C61):
    what the FOM is asked, from the reduced states accepted in the run. *)
From Coq Require Import ZArith List Bool.
From Verif Require Import Base ExplicitModel ImplicitModel ImplicitSpec LspgModel RomSpec.
Import ListNotations.
Local Open Scope Z_scope.

(** Runs after the first may start only if the step attempted last was not step 1 of its
    run: [last], its number; [k], the number of the next step. *)
Fixpoint fresh_starts {S V} (last k : Z) (evs : list (event S V)) (res : list (outcome unit * V)) : Prop :=
  match evs, res with
  | Start _ _ :: evs', _ :: res' => last <> 1 /\ fresh_starts last 1 evs' res'
  | Attempt _ :: evs', (r, _) :: res' =>
      fresh_starts k (match r with Ok _ => k + 1 | _ => k end) evs' res'
  | _, _ => True
  end.
(** The first run. *)
Definition first_run {S V} (evs : list (event S V)) : Prop :=
  exists t0 y0 evs', evs = Start t0 y0 :: evs' /\
    Forall (fun e => match e with Start _ _ => False | _ => True end) evs'.
(** The solver evaluates at least once. *)
Definition asks {V R J Ws} (solver : Ws -> V -> sol V R J Ws) : Prop :=
  forall ws y, match solver ws y with SEnd _ _ _ => False | _ => True end.

(** ** Semi-discrete *)
Section Semi.
  Context {S X Y R J B W : Type} (o : sops S) (yo : vops S Y).
  Variable recon : X -> Y.
  (** One evaluation at FOM state [y]: the right-hand side, then [res]; only if a Jacobian
      is wanted its action on the basis, then [jac]. Exceptions end it and pass through. *)
  Definition seen_fom (fom : sfom) (phi : B) (res : R -> W -> outcome unit * (R * W))
             (jac : J -> W -> outcome unit * (J * W)) (y : Y) (t : S) (r : R) (Jo : option J) (w : W)
    : outcome unit * (R * option J * W) :=
    let '(e, (f, w1)) := fo_rhs fom y t r w in
    match e with
    | Ok _ =>
        let '(e2, (r2, w2)) := res f w1 in
        match e2, Jo with
        | Ok _, Some j =>
            let '(e3, (j3, w3)) := fo_jac fom y phi t j w2 in
            match e3 with
            | Ok _ => let '(e4, (j4, w4)) := jac j3 w3 in (e4, (r2, Some j4, w4))
            | _ => (e3, (r2, Some j3, w3))
            end
        | Ok _, None => (Ok tt, (r2, None, w2))
        | _, _ => (e2, (r2, Jo, w2))
        end
    | _ => (e, (f, Jo, w1))
    end.

  (** The problem of a step: [one] for the first step of a BDF2 run and any BDF1 step, from
      the FOM states y_n+1 and y_n; [two] for other BDF2 steps, from y_n+1, y_n, y_n-1. *)
  Variable Q : Type.
  Variable one : Y -> S -> S -> Y -> R -> option J -> Q -> outcome unit * (R * option J * Q).
  Variable two : Y -> Y -> S -> S -> Y -> R -> option J -> Q -> outcome unit * (R * option J * Q).
  Definition problem_one (tape : list X) (rn : prun S X) (dt : S) (x : X) (r : R) (Jo : option J) (q : Q)
    : outcome unit * (R * option J * Q) :=
    match r_hist rn with
    | x_n :: _ => one (recon x_n) (sadd o (r_t rn) dt) dt (recon x) r Jo q
    | [] => (NoFuel, (r, Jo, q))
    end.
  Definition problem_two (tape : list X) (rn : prun S X) (dt : S) (x : X) (r : R) (Jo : option J) (q : Q)
    : outcome unit * (R * option J * Q) :=
    match r_hist rn with
    | x_n :: x_nm1 :: _ => two (recon x_n) (recon x_nm1) (sadd o (r_t rn) dt) dt (recon x) r Jo q
    | _ => problem_one tape rn dt x r Jo q
    end.
End Semi.
Arguments problem_one {S X Y R J} o recon {Q}. Arguments problem_two {S X Y R J} o recon {Q}.

(** LSPG: the textbook residual of the FOM, and its Jacobian phi - c h J phi. *)
Section Default.
  Context {S Y J W : Type} (o : sops S) (yo : vops S Y) (jo : vops S J).
  Variable fom : sfom (S:=S) (Y:=Y) (R:=Y) (J:=J) (B:=J) (W:=W).
  Variable phi : J.
  Definition lspg_one (y_n : Y) (t dt : S) (y r : Y) (Jo : option J) (w : W) :=
    seen_fom fom phi (fun f w => (Ok tt, (bdf1_R o yo y_n dt f y, w)))
             (fun j w => (Ok tt, (scheme_J o jo phi (s1 o) dt j, w))) y t r Jo w.
  Definition lspg_two (y_n y_nm1 : Y) (t dt : S) (y r : Y) (Jo : option J) (w : W) :=
    seen_fom fom phi (fun f w => (Ok tt, (bdf2_R o yo y_n y_nm1 dt f y, w)))
             (fun j w => (Ok tt, (scheme_J o jo phi (frac o 2 3) dt j, w))) y t r Jo w.
End Default.

(** Hyper-reduced: the updater is asked for  -c h f + (y - y_n)  and so on. *)
Section HypRed.
  Context {S Y R J B W : Type} (o : sops S) (yo : vops S Y).
  Variable fom : sfom (S:=S) (Y:=Y) (R:=R) (J:=J) (B:=B) (W:=W).
  Variable phi : B.
  Variable up : updater (S:=S) (Y:=Y) (R:=R) (J:=J) (B:=B) (W:=W).
  Definition hypred_one (y_n : Y) (t dt : S) (y : Y) (r : R) (Jo : option J) (w : W) :=
    seen_fom fom phi (fun f w => up_R up f (sopp o dt) (vminus o yo y y_n) (s1 o) w)
             (fun j w => up_J up j (sopp o dt) phi (s1 o) w) y t r Jo w.
  Definition hypred_two (y_n y_nm1 : Y) (t dt : S) (y : Y) (r : R) (Jo : option J) (w : W) :=
    let c := sopp o (smul o (frac o 2 3) dt) in
    seen_fom fom phi
      (fun f w => up_R up f c (vadd yo (vminus o yo y (vscale yo (frac o 4 3) y_n))
                                    (vscale yo (frac o 1 3) y_nm1)) (s1 o) w)
      (fun j w => up_J up j c phi (s1 o) w) y t r Jo w.
End HypRed.

(** Masked: the unmasked problem [p], always with Jacobian, in buffers that last, and then
    the masks. *)
Definition then_mask {Ru Ju R J W} (m : masker (Ru:=Ru) (Ju:=Ju) (R:=R) (J:=J) (W:=W))
  (p : Ru -> option Ju -> W -> outcome unit * (Ru * option Ju * W))
  (r : R) (Jo : option J) (q : Ru * Ju * W) : outcome unit * (R * option J * (Ru * Ju * W)) :=
  let '(ru, ju, w) := q in
  let '(e, (ru1, jo1, w1)) := p ru (Some ju) w in
  let ju1 := match jo1 with Some j => j | None => ju end in
  match e with
  | Ok _ =>
      let '(e2, (r2, w2)) := mk_R m ru1 r w1 in
      match e2, Jo with
      | Ok _, Some j => let '(e3, (j3, w3)) := mk_J m ju1 j w2 in (e3, (r2, Some j3, (ru1, ju1, w3)))
      | _, _ => (e2, (r2, Jo, (ru1, ju1, w2)))
      end
  | _ => (e, (r, Jo, (ru1, ju1, w1)))
  end.
(** Scaled: the problem [p], then the scaling at the FOM state [y]. *)
Definition then_scale {S Y R J W} (scaler : Y -> S -> R -> option J -> W -> outcome unit * (R * option J * W))
  (y : Y) (t : S) (p : R -> option J -> W -> outcome unit * (R * option J * W))
  (r : R) (Jo : option J) (w : W) : outcome unit * (R * option J * W) :=
  let '(e, (r1, j1, w1)) := p r Jo w in
  match e with
  | Ok _ => let '(e2, (r2, j2, w2)) := scaler y t r1 j1 w1 in (e2, (r2, mask j1 j2, w2))
  | _ => (e, (r1, j1, w1))
  end.

Definition masked_problem {S X Ru Ju R J W}
  (problem : list X -> prun S X -> S -> X -> Ru -> option Ju -> W -> outcome unit * (Ru * option Ju * W))
  (m : masker (Ru:=Ru) (Ju:=Ju) (R:=R) (J:=J) (W:=W)) tape (rn : prun S X) dt x :=
  then_mask m (problem tape rn dt x).
Definition scaled_problem {S X Y R J W} (o : sops S) (recon : X -> Y)
  (problem : list X -> prun S X -> S -> X -> R -> option J -> W -> outcome unit * (R * option J * W))
  (scaler : Y -> S -> R -> option J -> W -> outcome unit * (R * option J * W)) tape (rn : prun S X) dt x :=
  then_scale scaler (recon x) (sadd o (r_t rn) dt) (problem tape rn dt x).

(** ** Fully discrete, with 2 or 3 states: [z] stands for y_n-1 in the first step *)
Section Discrete.
  Context {S X Y R J Q : Type} (o : sops S).
  Variable recon : X -> Y.
  Variable ev : Z -> S -> S -> R -> option J -> Y -> list Y -> Q -> outcome unit * (R * option J * Q).
  Variable z : Y.
  Definition fom_stencil (three : bool) (hist : list X) : list Y :=
    match three, hist with
    | false, x_n :: _ => [recon x_n]
    | true, [x_n] => [recon x_n; z]
    | true, x_n :: x_nm1 :: _ => [recon x_n; recon x_nm1]
    | _, [] => []
    end.
  Definition problem_discrete (three : bool) (tape : list X) (rn : prun S X) (dt : S) (x : X) (r : R)
             (Jo : option J) (q : Q) : outcome unit * (R * option J * Q) :=
    let '(e, (r', j', q')) :=
      ev (Z.of_nat (length (r_hist rn))) (sadd o (r_t rn) dt) dt r Jo (recon x)
         (fom_stencil three (r_hist rn)) q in
    (match e with Throw EDiscreteTimeResidual => Throw EResidualEvaluation | _ => e end,
     (r', mask Jo j', q')).
  (** The number of states *)
  Definition total (three : bool) : nat := if three then 3 else 2.
  (** In the first step the evaluation does not depend on y_n-1. *)
  Definition ignores_older : Prop := forall t dt r Jo y y_n a b q,
    ev 1 t dt r Jo y [y_n; a] q = ev 1 t dt r Jo y [y_n; b] q.
End Discrete.
(** LSPG asks the FOM itself, about the basis [phi]; ... *)
Definition fom_asked {S Y R J B W : Type}
  (dfom : Z -> S -> S -> R -> B -> option J -> Y -> list Y -> W -> outcome unit * (R * option J * W)) (phi : B)
  (step : Z) (t dt : S) (r : R) (Jo : option J) (y : Y) (older : list Y) (w : W) :=
  dfom step t dt r phi Jo y older w.
(** ... Galerkin asks it in buffers that last, for the Jacobian action only if a Jacobian is
    wanted, and projects what it answered. *)
Definition then_project {S Y Rf Jf R J W : Type}
  (proj_R : S -> Rf -> R -> W -> outcome unit * (R * W)) (proj_J : S -> Jf -> J -> W -> outcome unit * (J * W))
  (ask : Z -> S -> S -> Rf -> option Jf -> Y -> list Y -> W -> outcome unit * (Rf * option Jf * W))
  (step : Z) (t dt : S) (r : R) (Jo : option J) (y : Y) (older : list Y) (q : Rf * Jf * W)
  : outcome unit * (R * option J * (Rf * Jf * W)) :=
  let '(fr, fj, w) := q in
  let '(e, (fr1, jo1, w1)) := ask step t dt fr (option_map (fun _ => fj) Jo) y older w in
  let fj1 := match Jo, jo1 with Some _, Some j => j | _, _ => fj end in
  match e with
  | Ok _ =>
      let '(e2, (r2, w2)) := proj_R t fr1 r w1 in
      match e2, Jo with
      | Ok _, Some j => let '(e3, (j3, w3)) := proj_J t fj1 j w2 in (e3, (r2, Some j3, (fr1, fj1, w3)))
      | _, _ => (e2, (r2, Jo, (fr1, fj1, w2)))
      end
  | _ => (e, (r, Jo, (fr1, fj1, w1)))
  end.

(** ** Reproducing the machine
    Whatever the machine of ImplicitSpec does with [problem] on events the caller may
    perform, the object [g] does: same results, and the solver and the rest of the memory
    end up the same. *)
Section Reproduces.
  Context {S X R J Ws Q G : Type} (o : sops S).
  Variable solver : Ws -> X -> sol X R J Ws.
  Variable problem : list X -> prun S X -> S -> X -> R -> option J -> Q -> outcome unit * (R * option J * Q).
  Variable step : S -> Z -> S -> cmd G unit.
  Variable put : X -> G -> G.
  Variables (get : G -> X) (ws_of : G -> Ws) (rest_of : G -> Q).
  Definition reproduces (may : list (event S X) -> list (outcome unit * X) -> Prop) (g : G) (ws : Ws) (q : Q) : Prop :=
    forall evs res rn' tape' ws' q' t k,
    history o solver problem None [] ws q evs res rn' tape' ws' q' -> may evs res ->
    exists g', perform o step put get evs t k g = (res, g') /\ ws_of g' = ws' /\ rest_of g' = q'.
End Reproduces.
(** Only one run. *)
Definition once {S V} (evs : list (event S V)) (res : list (outcome unit * V)) : Prop := first_run evs.
(** Runs start only after a step other than step 1 was attempted. *)
Definition after_step_2 {S V} (evs : list (event S V)) (res : list (outcome unit * V)) : Prop :=
  fresh_starts (-1) 0 evs res.
(** Any events. *)
Definition always {S V} (evs : list (event S V)) (res : list (outcome unit * V)) : Prop := True.

(** The problem of scheme BDF1 or BDF2. *)
Definition by_scheme {A} (name : scheme) (a b : A) : A := match name with BDF1 => a | _ => b end.
(** The rest of the memory beside the FOM states, per kind of object *)
Definition rest_of_lspg {S X Y R W Ws} (g : @sst S X R (lpol (Y:=Y) (W:=W)) Ws) : W := lp_w (t_p g).
Definition rest_of_masked {S X Y R Ru Ju W Ws} (g : @sst S X R (mkpol (Y:=Y) (Ru:=Ru) (Ju:=Ju) (W:=W)) Ws)
  : Ru * Ju * W := (mk_r (t_p g), mk_j (t_p g), lp_w (mk_base (t_p g))).
Definition rest_of_discrete {S X Y Q Ws} (g : @ast S X (fomhist (Y:=Y) * Q) Ws) : Q := snd (a_w g).

(** ** C38 *)
(** The FOM's right-hand side is [f] and the action of its Jacobian [df], whenever it returns. *)
Definition fom_is {S Y R J B W} (fom : sfom (S:=S) (Y:=Y) (R:=R) (J:=J) (B:=B) (W:=W))
           (f : Y -> S -> R) (df : Y -> B -> S -> J) : Prop :=
  (forall y t r w f' w', fo_rhs fom y t r w = (Ok tt, (f', w')) -> f' = f y t) /\
  (forall y phi t j w j' w', fo_jac fom y phi t j w = (Ok tt, (j', w')) -> j' = df y phi t).
(** ... and it always does, without touching the world. *)
Definition fom_pure {S Y R J B W} (fom : sfom (S:=S) (Y:=Y) (R:=R) (J:=J) (B:=B) (W:=W))
           (f : Y -> S -> R) (df : Y -> B -> S -> J) : Prop :=
  (forall y t r w, fo_rhs fom y t r w = (Ok tt, (f y t, w))) /\
  (forall y phi t j w, fo_jac fom y phi t j w = (Ok tt, (df y phi t, w))).

(** A FOM [fh] on a mesh that is a restriction of that of [fom]: states are restricted by
    [E], right-hand sides by [P], bases by [EB], actions by [PJ]. *)
Record fom_restricts {S Y Yh R Rh J Jh B Bh W} (E : Y -> Yh) (P : R -> Rh) (EB : B -> Bh) (PJ : J -> Jh)
  (fom : sfom (S:=S) (Y:=Y) (R:=R) (J:=J) (B:=B) (W:=W))
  (fh : sfom (S:=S) (Y:=Yh) (R:=Rh) (J:=Jh) (B:=Bh) (W:=W)) : Prop := {
  fr_rhs : forall y t r rh w, restricts P (fo_rhs fh (E y) t rh w) (fo_rhs fom y t r w);
  fr_jac : forall y phi t j jh w, restricts PJ (fo_jac fh (E y) (EB phi) t jh w) (fo_jac fom y phi t j w)
}.
(** An updater that combines restricted objects. *)
Record updater_ok {S Y Yh Rh J Jh Bh W} (yo : vops S Y) (jo : vops S J) (E : Y -> Yh) (P : Y -> Rh)
  (EB : J -> Bh) (PJ : J -> Jh) (up : updater (S:=S) (Y:=Yh) (R:=Rh) (J:=Jh) (B:=Bh) (W:=W)) : Prop := {
  uo_R : forall f a y b w, up_R up (P f) a (E y) b w = (Ok tt, (P (vadd yo (vscale yo a f) (vscale yo b y)), w));
  uo_J : forall j a phi b w,
    up_J up (PJ j) a (EB phi) b w = (Ok tt, (PJ (vadd jo (vscale jo a j) (vscale jo b phi)), w))
}.
(** FOM states on the restricted mesh *)
Definition states_restrict {Y Yh} (E : Y -> Yh) (h : fomhist (Y:=Y)) : fomhist (Y:=Yh) :=
  mk_fomhist (map E (fh_data h)) (fh_trk h).

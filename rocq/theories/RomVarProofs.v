(** Lemmas behind C98. *)
From Coq Require Import Reals ZArith List Lra Lia Bool.
From Verif Require Import Base RInst Laws LawInst ExplicitModel AdvanceModel AdvanceSpec AdvanceProofs TargetProofs Track ImplicitModel ImplicitSpec ImplicitProofs ImplicitRefine ImplicitExtra ImplicitMore
  NonlinDiag NonlinModel NonlinWp NonlinDiagProofs NonlinSpec NonlinRuns NonlinProofs NonlinSolve NonlinLines NonlinClaims NonlinSeq NonlinFollow NonlinLaws NonlinExact
  NonlinReal NonlinTheory NonlinRest NonlinMoreSpec NonlinMore NewtonSpec NewtonRunSpec NewtonRunProofs NewtonRunSteps GaussSpec GaussProofs GaussClaims
  LspgModel RomSpec LspgSpec LspgProofs LspgInst LspgClaims LspgMore LspgAsks GalerkinModel GalerkinSpec GalerkinProofs RomRunSpec RomRunProofs CompleteRun ExactRun LspgGnSpec LspgGnProofs RomVarSpec.
Import ListNotations.
Local Open Scope R_scope.

(** * Problems that never fail *)
Definition never_fails {S X R J Q} (problem : list X -> ImplicitSpec.prun S X -> S -> X -> R -> option J -> Q -> outcome unit * (R * option J * Q)) : Prop :=
  forall tape t x_n hist dt x r Jo q, fst (problem tape (mk_prun t (x_n :: hist)) dt x r Jo q) = Ok tt.
Lemma gives_computes {S X R J Q} (problem : list X -> ImplicitSpec.prun S X -> S -> X -> R -> option J -> Q -> outcome unit * (R * option J * Q)) res jac :
  gives problem res jac -> never_fails problem ->
  forall tape t x_n hist dt, computes (problem tape (mk_prun t (x_n :: hist)) dt) (res (x_n :: hist) t dt) (jac (x_n :: hist) t dt).
Proof.
  intros HG HN tape t x_n hist dt x r Jo q. pose proof (HN tape t x_n hist dt x r Jo q) as E1.
  destruct (problem tape (mk_prun t (x_n :: hist)) dt x r Jo q) as [e [[r' j'] q']] eqn:E. cbn [fst] in E1. rewrite E1 in *.
  destruct (HG _ _ _ _ _ _ _ _ _ _ _ _ E) as [-> ->]. eexists _, _. split; [reflexivity|]. destruct Jo; [reflexivity|exact I].
Qed.
Section Never.
  Context {S X Y W : Type} (o : sops S) (recon : X -> Y).
  Lemma seen_never {Rs J B} (fom : sfom (S:=S) (Y:=Y) (R:=Rs) (J:=J) (B:=B) (W:=W)) phi res jac y t r Jo w : fom_returns fom phi ->
    (forall a w, fst (res a w) = Ok tt) -> (forall a w, fst (jac a w) = Ok tt) -> fst (seen_fom fom phi res jac y t r Jo w) = Ok tt.
  Proof.
    intros [H1 H2] HR HJ. cbv [seen_fom].
    pose proof (H1 y t r w) as E1. destruct (fo_rhs fom y t r w) as [e [f1 w1]]. cbn [fst] in E1. rewrite E1.
    pose proof (HR f1 w1) as E2. destruct (res f1 w1) as [e2 [r2 w2]]. cbn [fst] in E2. rewrite E2. destruct Jo as [j|]; [|reflexivity].
    pose proof (H2 y t j w2) as E3. destruct (fo_jac fom y phi t j w2) as [e3 [j3 w3]]. cbn [fst] in E3. rewrite E3.
    pose proof (HJ j3 w3) as E4. destruct (jac j3 w3) as [e4 [j4 w4]]. exact E4.
  Qed.
  Lemma default_never1 {J} (yo : vops S Y) (jo : vops S J) (fom : sfom (S:=S) (Y:=Y) (R:=Y) (J:=J) (B:=J) (W:=W)) phi : fom_returns fom phi ->
    never_fails (problem_one o recon (lspg_one o yo jo fom phi)).
  Proof. intros Hf tape t x_n hist dt x r Jo q. apply seen_never; [exact Hf| |]; reflexivity. Qed.
  Lemma default_never2 {J} (yo : vops S Y) (jo : vops S J) (fom : sfom (S:=S) (Y:=Y) (R:=Y) (J:=J) (B:=J) (W:=W)) phi : fom_returns fom phi ->
    never_fails (problem_two o recon (lspg_one o yo jo fom phi) (lspg_two o yo jo fom phi)).
  Proof. intros Hf tape t x_n [|x_nm1 hist] dt x r Jo q; (apply seen_never; [exact Hf| |]; reflexivity). Qed.
  Lemma hypred_never1 {Rs J B} (yo : vops S Y) (fom : sfom (S:=S) (Y:=Y) (R:=Rs) (J:=J) (B:=B) (W:=W)) phi up : fom_returns fom phi -> updater_returns up ->
    never_fails (problem_one o recon (hypred_one o yo fom phi up)).
  Proof. intros Hf [U1 U2] tape t x_n hist dt x r Jo q. apply seen_never; [exact Hf| |]; intros; [apply U1|apply U2]. Qed.
  Lemma hypred_never2 {Rs J B} (yo : vops S Y) (fom : sfom (S:=S) (Y:=Y) (R:=Rs) (J:=J) (B:=B) (W:=W)) phi up : fom_returns fom phi -> updater_returns up ->
    never_fails (problem_two o recon (hypred_one o yo fom phi up) (hypred_two o yo fom phi up)).
  Proof. intros Hf [U1 U2] tape t x_n [|x_nm1 hist] dt x r Jo q; (apply seen_never; [exact Hf| |]; intros; [apply U1|apply U2]). Qed.
  Lemma masked_never {Ru Ju Rs J} problem (m : masker (Ru:=Ru) (Ju:=Ju) (R:=Rs) (J:=J) (W:=W)) : mask_returns m -> never_fails problem ->
    never_fails (S:=S) (X:=X) (masked_problem problem m).
  Proof.
    intros [M1 M2] HN tape t x_n hist dt x r Jo [[ru ju] w]. cbv [masked_problem then_mask].
    pose proof (HN tape t x_n hist dt x ru (Some ju) w) as E1.
    destruct (problem tape (mk_prun t (x_n :: hist)) dt x ru (Some ju) w) as [e [[ru1 jo1] w1]]. cbn [fst] in E1. rewrite E1.
    pose proof (M1 ru1 r w1) as E2. destruct (mk_R m ru1 r w1) as [e2 [r2 w2]]. cbn [fst] in E2. rewrite E2.
    destruct Jo as [j|]; [|reflexivity].
    set (ju1 := match jo1 with Some j => j | None => ju end).
    pose proof (M2 ju1 j w2) as E3. destruct (mk_J m ju1 j w2) as [e3 [j3 w3]]. exact E3.
  Qed.
  Lemma scaled_never {Rs J} problem (scaler : Y -> S -> Rs -> option J -> W -> outcome unit * (Rs * option J * W)) : scaler_returns scaler -> never_fails problem ->
    never_fails (S:=S) (X:=X) (scaled_problem o recon problem scaler).
  Proof.
    intros HS HN tape t x_n hist dt x r Jo w. cbv [scaled_problem then_scale]. cbn [r_t].
    pose proof (HN tape t x_n hist dt x r Jo w) as E1.
    destruct (problem tape (mk_prun t (x_n :: hist)) dt x r Jo w) as [e [[r1 j1] w1]]. cbn [fst] in E1. rewrite E1.
    pose proof (HS (recon x) (sadd o t dt) r1 j1 w1) as E2. destruct (scaler (recon x) (sadd o t dt) r1 j1 w1) as [e2 [[r2 j2] w2]]. exact E2.
  Qed.
  Lemma discrete_never {Rs J Q} (ev : Z -> S -> S -> Rs -> option J -> Y -> list Y -> Q -> outcome unit * (Rs * option J * Q)) z three :
    (forall step t dt r Jo y older q, fst (ev step t dt r Jo y older q) = Ok tt) -> never_fails (problem_discrete o recon ev z three).
  Proof.
    intros HE tape t x_n hist dt x r Jo q. cbv [problem_discrete]. cbn [r_hist r_t].
    pose proof (HE (Z.of_nat (length (x_n :: hist))) (sadd o t dt) dt r Jo (recon x) (fom_stencil recon z three (x_n :: hist)) q) as E1.
    destruct (ev (Z.of_nat (length (x_n :: hist))) (sadd o t dt) dt r Jo (recon x) (fom_stencil recon z three (x_n :: hist)) q) as [e [[r1 j1] q1]].
    cbn [fst] in E1. rewrite E1. reflexivity.
  Qed.
  Lemma lspg_discrete_never {Rs J B} (dfom : Z -> S -> S -> Rs -> B -> option J -> Y -> list Y -> W -> outcome unit * (Rs * option J * W)) phi :
    dfom_returns dfom phi -> forall step t dt r Jo y older q, fst (lspg_discrete dfom phi step t dt r Jo y older q) = Ok tt.
  Proof.
    intros HD step t dt r Jo y older q. cbv [lspg_discrete]. pose proof (HD step t dt r Jo y older q) as E.
    destruct (dfom step t dt r phi Jo y older q) as [e [[r1 j1] w1]]. cbn [fst] in E. rewrite E. reflexivity.
  Qed.
  Lemma galerkin_discrete_never {Rf Jf Rs J B} (dfom : Z -> S -> S -> Rf -> B -> option Jf -> Y -> list Y -> W -> outcome unit * (Rf * option Jf * W)) phi
    (proj_R : S -> Rf -> Rs -> W -> outcome unit * (Rs * W)) (proj_J : S -> Jf -> J -> W -> outcome unit * (J * W)) :
    dfom_returns dfom phi -> proj_returns proj_R -> proj_returns proj_J ->
    forall step t dt r Jo y older q, fst (galerkin_discrete dfom phi proj_R proj_J step t dt r Jo y older q) = Ok tt.
  Proof.
    intros HD HR HJ step t dt r Jo y older [[fr fj] w]. cbv [galerkin_discrete].
    set (jo := match Jo with Some _ => Some fj | None => None end).
    pose proof (HD step t dt fr jo y older w) as E. destruct (dfom step t dt fr phi jo y older w) as [e [[r1 j1] w1]]. cbn [fst] in E. rewrite E.
    pose proof (HR t r1 r w1) as E2. destruct (proj_R t r1 r w1) as [e2 [r2 w2]]. cbn [fst] in E2. rewrite E2.
    destruct Jo as [j|]; [|reflexivity].
    match goal with |- context [proj_J t ?a j w2] => pose proof (HJ t a j w2) as E3; destruct (proj_J t a j w2) as [e3 [j3 w3]] end. exact E3.
  Qed.
End Never.

(** * Solvers that always end *)
Section Each.
  Context {eps : R} {X Rs J Ws U : Type}.
  Notation o := (Rops eps).
  Variable solver : Ws -> X -> sol X Rs J Ws.
  Hypothesis Hasks : asks solver.
  Variable WI : Ws -> Prop.
  Variable goal : (X -> Rs) -> (X -> J) -> X -> X -> Prop.
  Hypothesis HS : forall (Q : Type) (rj : X -> Rs -> option J -> Q -> outcome unit * (Rs * option J * Q)) F DF ws y w, computes rj F DF -> WI ws ->
    exists y' ws' w', run_solver rj (solver ws y) y ws w = (Ok tt, (y', ws', w')) /\ WI ws' /\ goal F DF y y'.
  Definition each (res : list X -> R -> R -> X -> Rs) (jac : list X -> R -> R -> X -> J) (past : list X) (t dt : R) (x : X) : Prop :=
    match past with
    | x_n :: _ => goal (res past t dt) (jac past t dt) x_n x
    | [] => True
    end.
  Lemma each_finds {Q} (problem : list X -> ImplicitSpec.prun R X -> R -> X -> Rs -> option J -> Q -> outcome unit * (Rs * option J * Q)) res jac :
    gives problem res jac -> never_fails problem ->
    forall tape t y hist dt ws q, WI ws ->
    exists y1 ws1 q1, run_solver (problem (y :: tape) (mk_prun t (y :: hist)) dt) (solver ws y) y ws q = (Ok tt, (y1, ws1, q1)) /\
      WI ws1 /\ each res jac (y :: hist) t dt y1.
  Proof. intros HG HN tape t y hist dt ws q Hw. exact (HS Q _ _ _ ws y q (gives_computes problem res jac HG HN (y :: tape) t y hist dt) Hw). Qed.
  Variable obs : Z -> R -> X -> U -> outcome unit * U.
  Hypothesis Ho : forall k t y u, fst (obs k t y u) = Ok tt.

  (** LSPG *)
  Section Semi.
    Context {Y Pp Q : Type}.
    Variable recon : X -> Y.
    Variable hist_of : Pp -> fomhist (Y:=Y).
    Variable rest : Pp -> Q.
    Variable pol : policy R X Rs J Pp.
    Variables pr1 pr2 : list X -> ImplicitSpec.prun R X -> R -> X -> Rs -> option J -> Q -> outcome unit * (Rs * option J * Q).
    Variable mkp : list Y -> Pp.
    Variable q0 : Q.
    Hypothesis Hmk : forall d, hist_of (mkp d) = mk_fomhist d (-1) /\ rest (mkp d) = q0.
    Hypothesis T1 : through o recon any false (fun a : list Rs * Pp => hist_of (snd a)) (fun a => rest (snd a)) (std_rj pol BDF1) pr1.
    Hypothesis T2 : through o recon any true (fun a : list Rs * Pp => hist_of (snd a)) (fun a => rest (snd a)) (std_rj pol BDF2) pr2.
    Variables (res : scheme -> list X -> R -> R -> X -> Rs) (jac : scheme -> list X -> R -> R -> X -> J).
    Hypotheses (G1 : gives pr1 (res BDF1) (jac BDF1)) (G2 : gives pr2 (res BDF2) (jac BDF2)).
    Hypotheses (N1 : never_fails pr1) (N2 : never_fails pr2).
    Variables (name : scheme) (cs : X) (cr : Rs) (zero : Y) (x0 : X) (ws : Ws) (g0 : @sst R X Rs Pp Ws).
    Hypothesis Hws : WI ws.
    Hypothesis E : lspg_create o name cs cr zero mkp x0 ws = Ok g0.
    Notation step := (implicit_step o pol solver name).
    Notation P := (each (res name) (jac name)).
    Lemma semi_finds tape t y hist dt ws' q : WI ws' ->
      exists y1 ws1 q1, run_solver (by_scheme name pr1 pr2 (y :: tape) (mk_prun t (y :: hist)) dt) (solver ws' y) y ws' q = (Ok tt, (y1, ws1, q1)) /\
        WI ws1 /\ P (y :: hist) t dt y1.
    Proof. destruct name; try discriminate E; cbn [by_scheme]; apply each_finds; assumption. Qed.
    Lemma semi_begins start y0 : exists tape ws q, (exists last,
         inv_lspg recon any hist_of rest (match name with BDF1 => false | _ => true end) last (Some (mk_prun start [y0])) tape (put_ode y0 g0) ws q) /\
      WI ws.
    Proof. exists [], ws, q0. split; [|exact Hws]. eapply (semi_inv_ws o recon hist_of rest mkp q0 Hmk); exact E. Qed.
    Notation refines := (semi_refines o recon solver Hasks hist_of rest pol pr1 pr2 mkp T1 T2 name cs cr zero x0 ws g0 E).
    Lemma semi_each_n_steps pl num start y0 w : (Z.of_nat num < int32_max)%Z -> (forall k t d u, exists dt, fst (pl k t d u) = Ok dt) ->
      exists y' g' w' tr l,
        advance_n_steps o (mk_user (split_obs obs) (pol3 (split_pol pl)) noop_guess (split_step (implicit_fn step)))
          (Z.of_nat num) start (y0, (g0, w), []) = (Ok tt, (y', (g', w'), tr)) /\
        length l = S num /\ reports tr = numbered l /\ hd y0 (map snd l) = y' /\ linked_from Rplus P start y0 l.
    Proof.
      intros Hn Hp.
      destruct (exact_n_steps o solver _ step put_ode t_y _ put_ode_get refines WI P semi_finds start y0 obs g0 (semi_begins start y0) pl num w Hn Ho Hp)
        as (y' & g' & w' & tr & t' & d' & l & E1 & El & HK & HR).
      exists y', g', w', tr, ((t', d', y') :: l). split; [exact E1|]. split; [cbn [length]; rewrite El; reflexivity|]. split; [exact HR|].
      split; [reflexivity|exact HK].
    Qed.
    Lemma semi_each_target pl recovery h n fuel start final y0 w : 0 <= eps ->
      (forall k t x u, exists dt m c, fst (pl k t x u) = Ok (dt, m, c) /\ h <= dt /\ m <= dt /\ (recovery = true -> 1 < c)) ->
      start < final -> final - start <= INR n * h -> (n < fuel)%nat -> (Z.of_nat n < int32_max)%Z ->
      exists y' g' w' tr l,
        to_target o (mk_user (split_obs obs) (split_pol pl) noop_guess (split_step (implicit_fn step))) recovery fuel
          start final (y0, (g0, w), []) = (Ok tt, (y', (g', w'), tr)) /\
        reports tr = numbered l /\ hd y0 (map snd l) = y' /\ linked_from Rplus P start y0 l.
    Proof.
      intros He Hp Hlt Hn Hf Hm.
      destruct (exact_target_ends eps solver _ step put_ode t_y _ put_ode_get refines WI P semi_finds obs g0
             pl recovery h n fuel start final y0 w (semi_begins start y0) He Ho Hp Hlt Hn Hf Hm) as (y' & g' & w' & tr & t' & d' & l & E1 & HK & HR).
      exists y', g', w', tr, ((t', d', y') :: l). split; [exact E1|]. split; [exact HR|]. split; [reflexivity|exact HK].
    Qed.
  End Semi.
  (** fully discrete *)
  Section Discrete.
    Context {Y Q : Type}.
    Variable recon : X -> Y.
    Variable ev : Z -> R -> R -> Rs -> option J -> Y -> list Y -> Q -> outcome unit * (Rs * option J * Q).
    Variables (F : Z -> R -> R -> Y -> list Y -> Rs) (FJ : Z -> R -> R -> Y -> list Y -> J).
    Hypothesis HG : forall step t dt r Jo y older q r' j' q', ev step t dt r Jo y older q = (Ok tt, (r', j', q')) ->
      r' = F step t dt y older /\ j' = option_map (fun _ => FJ step t dt y older) Jo.
    Hypothesis HN : forall step t dt r Jo y older q, fst (ev step t dt r Jo y older q) = Ok tt.
    Variable three : bool.
    Variables (cs : X) (zero : Y) (q0 : Q) (x0 : X) (ws : Ws) (g0 : @ast R X (fomhist (Y:=Y) * Q) Ws).
    Hypothesis Hws : WI ws.
    Hypothesis E : discrete_create o (total three) cs zero q0 x0 ws = Ok g0.
    Notation step := (arb_step o (fd_system recon (total three) ev) solver (total three - 1)).
    Notation P := (each (discrete_at o recon zero three F) (discrete_at o recon zero three FJ)).
    Lemma discrete_finds tape t y hist dt ws' q : WI ws' ->
      exists y1 ws1 q1, run_solver (problem_discrete o recon ev zero three (y :: tape) (mk_prun t (y :: hist)) dt) (solver ws' y) y ws' q = (Ok tt, (y1, ws1, q1)) /\
        WI ws1 /\ P (y :: hist) t dt y1.
    Proof. apply each_finds; [apply discrete_gives; exact HG|apply discrete_never; exact HN]. Qed.
    Lemma discrete_begins start y0 : exists tape ws q, (exists last, inv_arb recon (eq zero) three (total three - 1) last (Some (mk_prun start [y0])) tape (put_arb y0 g0) ws q) /\ WI ws.
    Proof.
      destruct (discrete_inv o recon three cs zero q0 x0 ws g0 E start y0) as (tape & ws1 & q1 & last & K).
      exists tape, ws1, q1. split; [exists last; exact K|].
      assert (E' : a_ws g0 = ws) by (destruct three; injection E as E'; rewrite <- E'; reflexivity).
      cbv [inv_arb] in K. destruct K as [K _]. rewrite <- K. cbn [put_arb a_ws]. rewrite E'. exact Hws.
    Qed.
    Notation refines := (discrete_refines o recon ev solver Hasks three cs zero q0 x0 ws g0 E).
    Lemma discrete_each_n_steps pl num start y0 w : (Z.of_nat num < int32_max)%Z -> (forall k t d u, exists dt, fst (pl k t d u) = Ok dt) ->
      exists y' g' w' tr l,
        advance_n_steps o (mk_user (split_obs obs) (pol3 (split_pol pl)) noop_guess (split_step (arb_fn step)))
          (Z.of_nat num) start (y0, (g0, w), []) = (Ok tt, (y', (g', w'), tr)) /\
        length l = S num /\ reports tr = numbered l /\ hd y0 (map snd l) = y' /\ linked_from Rplus P start y0 l.
    Proof.
      intros Hn Hp.
      destruct (exact_n_steps o solver _ step put_arb a_y _ put_arb_get refines WI P discrete_finds start y0 obs g0 (discrete_begins start y0) pl num w Hn Ho Hp)
        as (y' & g' & w' & tr & t' & d' & l & E1 & El & HK & HR).
      exists y', g', w', tr, ((t', d', y') :: l). split; [exact E1|]. split; [cbn [length]; rewrite El; reflexivity|]. split; [exact HR|].
      split; [reflexivity|exact HK].
    Qed.
    Lemma discrete_each_target pl recovery h n fuel start final y0 w : 0 <= eps ->
      (forall k t x u, exists dt m c, fst (pl k t x u) = Ok (dt, m, c) /\ h <= dt /\ m <= dt /\ (recovery = true -> 1 < c)) ->
      start < final -> final - start <= INR n * h -> (n < fuel)%nat -> (Z.of_nat n < int32_max)%Z ->
      exists y' g' w' tr l,
        to_target o (mk_user (split_obs obs) (split_pol pl) noop_guess (split_step (arb_fn step))) recovery fuel
          start final (y0, (g0, w), []) = (Ok tt, (y', (g', w'), tr)) /\
        reports tr = numbered l /\ hd y0 (map snd l) = y' /\ linked_from Rplus P start y0 l.
    Proof.
      intros He Hp Hlt Hn Hf Hm.
      destruct (exact_target_ends eps solver _ step put_arb a_y _ put_arb_get refines WI P discrete_finds obs g0
             pl recovery h n fuel start final y0 w (discrete_begins start y0) He Ho Hp Hlt Hn Hf Hm) as (y' & g' & w' & tr & t' & d' & l & E1 & HK & HR).
      exists y', g', w', tr, ((t', d', y') :: l). split; [exact E1|]. split; [exact HR|]. split; [reflexivity|exact HK].
    Qed.
  End Discrete.
End Each.

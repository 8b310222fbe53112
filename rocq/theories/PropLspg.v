(** C34 - C36, C38, C60, C61: unsteady LSPG and the fully discrete problems.
    [recon]: mapFromReducedState; [once], [after_step_2], [reproduces]: see LspgSpec. *)
From Coq Require Import ZArith List Bool Reals QArith Qcanon.
From Verif Require Import Base QcInst RInst Laws NonlinModel NonlinSpec ExplicitModel ExplicitExtra ImplicitModel ImplicitSpec
  ImplicitWitness LspgModel RomSpec LspgSpec LspgProofs LspgInst LspgClaims LspgWitness LspgMore LspgAsks.
Import ListNotations.
Local Open Scope Z_scope.

(** C34. In one run, with any failures and retries, the problem behaves as the machine that
    keeps all accepted reduced states and asks the FOM about their reconstructions. *)
Theorem C34_default :
  forall (S X Y J W Ws : Type) (o : sops S) (yo : vops S Y) (jo : vops S J) (recon : X -> Y)
    (fom : sfom) (phi : J) (solver : Ws -> X -> sol X Y J Ws) (w0 : W) name cs cr (zero : Y) (x0 : X) (ws : Ws) g,
  sfield o -> schar0 o -> vspace o yo -> vspace o jo -> asks solver ->
  lspg_create o name cs cr zero (fresh_policy w0) x0 ws = Ok g ->
  let one := problem_one o recon (lspg_one o yo jo fom phi) in
  let two := problem_two o recon (lspg_one o yo jo fom phi) (lspg_two o yo jo fom phi) in
  reproduces o solver (by_scheme name one two)
    (implicit_step o (default_policy o yo jo recon fom phi) solver name) put_ode t_y t_ws rest_of_lspg once g ws w0.
Proof. intros. eapply default_reproduces; eauto. Qed.
Print Assumptions C34_default.

Theorem C34_hyper_reduced :
  forall (S X Y R J B W Ws : Type) (o : sops S) (yo : vops S Y) (recon : X -> Y)
    (fom : sfom) (phi : B) (up : updater) (solver : Ws -> X -> sol X R J Ws) (w0 : W) name cs cr (zero : Y) (x0 : X)
    (ws : Ws) g,
  sfield o -> schar0 o -> vspace o yo -> asks solver ->
  lspg_create o name cs cr zero (fresh_policy w0) x0 ws = Ok g ->
  let one := problem_one o recon (hypred_one o yo fom phi up) in
  let two := problem_two o recon (hypred_one o yo fom phi up) (hypred_two o yo fom phi up) in
  reproduces o solver (by_scheme name one two)
    (implicit_step o (hypred_policy o yo recon fom phi up) solver name) put_ode t_y t_ws rest_of_lspg once g ws w0.
Proof. intros. eapply hypred_reproduces; eauto. Qed.
Print Assumptions C34_hyper_reduced.

Theorem C34_masked :
  forall (S X Y J R Jm W Ws : Type) (o : sops S) (yo : vops S Y) (jo : vops S J) (recon : X -> Y)
    (fom : sfom) (phi : J) (m : masker) (solver : Ws -> X -> sol X R Jm Ws) (w0 : W) name cs cr (zero : Y) ru ju (x0 : X)
    (ws : Ws) g,
  sfield o -> schar0 o -> vspace o yo -> vspace o jo -> asks solver ->
  lspg_create o name cs cr zero (fresh_masked ru ju w0) x0 ws = Ok g ->
  let one := problem_one o recon (lspg_one o yo jo fom phi) in
  let two := problem_two o recon (lspg_one o yo jo fom phi) (lspg_two o yo jo fom phi) in
  reproduces o solver (by_scheme name (masked_problem one m) (masked_problem two m))
    (implicit_step o (masked_policy (default_policy o yo jo recon fom phi) m) solver name)
    put_ode t_y t_ws rest_of_masked once g ws (ru, ju, w0).
Proof. intros. eapply masked_reproduces; eauto. Qed.
Print Assumptions C34_masked.

Theorem C34_scaled :
  forall (S X Y J W Ws : Type) (o : sops S) (yo : vops S Y) (jo : vops S J) (recon : X -> Y)
    (fom : sfom) (phi : J) scaler (solver : Ws -> X -> sol X Y J Ws) (w0 : W) name cs cr (zero : Y) (x0 : X) (ws : Ws) g,
  sfield o -> schar0 o -> vspace o yo -> vspace o jo -> asks solver ->
  lspg_create o name cs cr zero (fresh_policy w0) x0 ws = Ok g ->
  let one := problem_one o recon (lspg_one o yo jo fom phi) in
  let two := problem_two o recon (lspg_one o yo jo fom phi) (lspg_two o yo jo fom phi) in
  reproduces o solver (by_scheme name (scaled_problem o recon one scaler) (scaled_problem o recon two scaler))
    (implicit_step o (scaled_policy (default_policy o yo jo recon fom phi) scaler) solver name)
    put_ode t_y t_ws rest_of_lspg once g ws w0.
Proof. intros. eapply scaled_reproduces; eauto. Qed.
Print Assumptions C34_scaled.

Theorem C34_scaled_hyper_reduced :
  forall (S X Y R J B W Ws : Type) (o : sops S) (yo : vops S Y) (recon : X -> Y)
    (fom : sfom) (phi : B) (up : updater) scaler (solver : Ws -> X -> sol X R J Ws) (w0 : W) name cs cr (zero : Y) (x0 : X)
    (ws : Ws) g,
  sfield o -> schar0 o -> vspace o yo -> asks solver ->
  lspg_create o name cs cr zero (fresh_policy w0) x0 ws = Ok g ->
  let one := problem_one o recon (hypred_one o yo fom phi up) in
  let two := problem_two o recon (hypred_one o yo fom phi up) (hypred_two o yo fom phi up) in
  reproduces o solver (by_scheme name (scaled_problem o recon one scaler) (scaled_problem o recon two scaler))
    (implicit_step o (scaled_policy (hypred_policy o yo recon fom phi up) scaler) solver name)
    put_ode t_y t_ws rest_of_lspg once g ws w0.
Proof. intros. eapply scaled_hypred_reproduces; eauto. Qed.
Print Assumptions C34_scaled_hyper_reduced.

(** Fully discrete, with 2 or 3 states: y_n-1 of the first step is the zero state. *)
Theorem C34_fully_discrete :
  forall (S X Y R J B W Ws : Type) (o : sops S) (recon : X -> Y)
    (dfom : Z -> S -> S -> R -> B -> option J -> Y -> list Y -> W -> outcome unit * (R * option J * W)) (phi : B)
    (solver : Ws -> X -> sol X R J Ws) (three : bool) cs (zero : Y) (w0 : W) (x0 : X) (ws : Ws) g,
  asks solver ->
  discrete_create o (total three) cs zero w0 x0 ws = Ok g ->
  reproduces o solver (problem_discrete o recon (fom_asked dfom phi) zero three)
    (arb_step o (fd_system recon (total three) (lspg_discrete dfom phi)) solver (total three - 1))
    put_arb a_y a_ws rest_of_discrete once g ws w0.
Proof. intros. eapply discrete_once; try eassumption. intros. apply lspg_discrete_looks. Qed.
Print Assumptions C34_fully_discrete.

Theorem C34_galerkin_fully_discrete :
  forall (S X Y Rf Jf R J B W Ws : Type) (o : sops S) (recon : X -> Y)
    (dfom : Z -> S -> S -> Rf -> B -> option Jf -> Y -> list Y -> W -> outcome unit * (Rf * option Jf * W)) (phi : B)
    (proj_R : S -> Rf -> R -> W -> outcome unit * (R * W)) (proj_J : S -> Jf -> J -> W -> outcome unit * (J * W))
    (solver : Ws -> X -> sol X R J Ws) (three : bool) cs (zero : Y) (q0 : Rf * Jf * W) (x0 : X) (ws : Ws) g,
  asks solver ->
  discrete_create o (total three) cs zero q0 x0 ws = Ok g ->
  reproduces o solver (problem_discrete o recon (then_project proj_R proj_J (fom_asked dfom phi)) zero three)
    (arb_step o (fd_system recon (total three) (galerkin_discrete dfom phi proj_R proj_J)) solver (total three - 1))
    put_arb a_y a_ws rest_of_discrete once g ws q0.
Proof. intros. eapply discrete_once; try eassumption. intros. apply galerkin_discrete_looks. Qed.
Print Assumptions C34_galerkin_fully_discrete.

(** The solvers of the library meet the hypothesis [asks]; ... *)
Theorem C34_newton_asks :
  forall (S V R J H L : Type) (o : sops S) (no : nlops S V R J H) (xt : exts V R J H L) (cf : config S),
  root_supported cf -> 1 <= f_max cf -> asks (as_solver (root_solve o no xt cf)).
Proof. exact @newton_asks. Qed.
Print Assumptions C34_newton_asks.

Theorem C34_least_squares_asks :
  forall (S V R J H L : Type) (o : sops S) (no : nlops S V R J H) (xt : exts V R J H L) (tag : lstag) (cf : config S),
  ls_supported tag cf -> 1 <= f_max cf -> asks (as_solver (ls_solve o no xt tag cf)).
Proof. exact @least_squares_asks. Qed.
Print Assumptions C34_least_squares_asks.

(** ... it is needed: after a step accepted without any evaluation (y = 5 here) BDF2 uses a FOM
    state y_n-1 that is one step too old. *)
Theorem C34_no_evaluation_refuted :
  exists y1 y3, w34_res = [(Ok tt, q 1); (Ok tt, y1); (Ok tt, q 5); (Ok tt, y3)] /\
  bdf1_eq QcV (fun y => y) (plus1 (q 1)) half (plus1 y1) /\
  ~ bdf2_eq QcS QcV (fun y => y) (plus1 (q 5)) (plus1 y1) half (plus1 y3) /\
  bdf2_eq QcS QcV (fun y => y) (plus1 (q 5)) (plus1 (q 1)) half (plus1 y3).
Proof. exact no_evaluation_stale. Qed.
Print Assumptions C34_no_evaluation_refuted.

(** C35. The same for several runs, if the step attempted last before a new run was not step 1. *)
Theorem C35_default_partial :
  forall (S X Y J W Ws : Type) (o : sops S) (yo : vops S Y) (jo : vops S J) (recon : X -> Y)
    (fom : sfom) (phi : J) (solver : Ws -> X -> sol X Y J Ws) (w0 : W) name cs cr (zero : Y) (x0 : X) (ws : Ws) g,
  sfield o -> schar0 o -> vspace o yo -> vspace o jo -> asks solver ->
  lspg_create o name cs cr zero (fresh_policy w0) x0 ws = Ok g ->
  let one := problem_one o recon (lspg_one o yo jo fom phi) in
  let two := problem_two o recon (lspg_one o yo jo fom phi) (lspg_two o yo jo fom phi) in
  reproduces o solver (by_scheme name one two)
    (implicit_step o (default_policy o yo jo recon fom phi) solver name) put_ode t_y t_ws rest_of_lspg after_step_2 g ws w0.
Proof. intros. eapply default_reproduces; eauto. Qed.
Print Assumptions C35_default_partial.

Theorem C35_hyper_reduced_partial :
  forall (S X Y R J B W Ws : Type) (o : sops S) (yo : vops S Y) (recon : X -> Y)
    (fom : sfom) (phi : B) (up : updater) (solver : Ws -> X -> sol X R J Ws) (w0 : W) name cs cr (zero : Y) (x0 : X)
    (ws : Ws) g,
  sfield o -> schar0 o -> vspace o yo -> asks solver ->
  lspg_create o name cs cr zero (fresh_policy w0) x0 ws = Ok g ->
  let one := problem_one o recon (hypred_one o yo fom phi up) in
  let two := problem_two o recon (hypred_one o yo fom phi up) (hypred_two o yo fom phi up) in
  reproduces o solver (by_scheme name one two)
    (implicit_step o (hypred_policy o yo recon fom phi up) solver name) put_ode t_y t_ws rest_of_lspg after_step_2 g ws w0.
Proof. intros. eapply hypred_reproduces; eauto. Qed.
Print Assumptions C35_hyper_reduced_partial.

Theorem C35_masked_partial :
  forall (S X Y J R Jm W Ws : Type) (o : sops S) (yo : vops S Y) (jo : vops S J) (recon : X -> Y)
    (fom : sfom) (phi : J) (m : masker) (solver : Ws -> X -> sol X R Jm Ws) (w0 : W) name cs cr (zero : Y) ru ju (x0 : X)
    (ws : Ws) g,
  sfield o -> schar0 o -> vspace o yo -> vspace o jo -> asks solver ->
  lspg_create o name cs cr zero (fresh_masked ru ju w0) x0 ws = Ok g ->
  let one := problem_one o recon (lspg_one o yo jo fom phi) in
  let two := problem_two o recon (lspg_one o yo jo fom phi) (lspg_two o yo jo fom phi) in
  reproduces o solver (by_scheme name (masked_problem one m) (masked_problem two m))
    (implicit_step o (masked_policy (default_policy o yo jo recon fom phi) m) solver name)
    put_ode t_y t_ws rest_of_masked after_step_2 g ws (ru, ju, w0).
Proof. intros. eapply masked_reproduces; eauto. Qed.
Print Assumptions C35_masked_partial.

Theorem C35_scaled_partial :
  forall (S X Y J W Ws : Type) (o : sops S) (yo : vops S Y) (jo : vops S J) (recon : X -> Y)
    (fom : sfom) (phi : J) scaler (solver : Ws -> X -> sol X Y J Ws) (w0 : W) name cs cr (zero : Y) (x0 : X) (ws : Ws) g,
  sfield o -> schar0 o -> vspace o yo -> vspace o jo -> asks solver ->
  lspg_create o name cs cr zero (fresh_policy w0) x0 ws = Ok g ->
  let one := problem_one o recon (lspg_one o yo jo fom phi) in
  let two := problem_two o recon (lspg_one o yo jo fom phi) (lspg_two o yo jo fom phi) in
  reproduces o solver (by_scheme name (scaled_problem o recon one scaler) (scaled_problem o recon two scaler))
    (implicit_step o (scaled_policy (default_policy o yo jo recon fom phi) scaler) solver name)
    put_ode t_y t_ws rest_of_lspg after_step_2 g ws w0.
Proof. intros. eapply scaled_reproduces; eauto. Qed.
Print Assumptions C35_scaled_partial.

Theorem C35_scaled_hyper_reduced_partial :
  forall (S X Y R J B W Ws : Type) (o : sops S) (yo : vops S Y) (recon : X -> Y)
    (fom : sfom) (phi : B) (up : updater) scaler (solver : Ws -> X -> sol X R J Ws) (w0 : W) name cs cr (zero : Y) (x0 : X)
    (ws : Ws) g,
  sfield o -> schar0 o -> vspace o yo -> asks solver ->
  lspg_create o name cs cr zero (fresh_policy w0) x0 ws = Ok g ->
  let one := problem_one o recon (hypred_one o yo fom phi up) in
  let two := problem_two o recon (hypred_one o yo fom phi up) (hypred_two o yo fom phi up) in
  reproduces o solver (by_scheme name (scaled_problem o recon one scaler) (scaled_problem o recon two scaler))
    (implicit_step o (scaled_policy (hypred_policy o yo recon fom phi up) scaler) solver name)
    put_ode t_y t_ws rest_of_lspg after_step_2 g ws w0.
Proof. intros. eapply scaled_hypred_reproduces; eauto. Qed.
Print Assumptions C35_scaled_hyper_reduced_partial.

(** With 3 states the FOM must moreover not use y_n-1 in its first step. *)
Theorem C35_fully_discrete_partial :
  forall (S X Y R J B W Ws : Type) (o : sops S) (recon : X -> Y)
    (dfom : Z -> S -> S -> R -> B -> option J -> Y -> list Y -> W -> outcome unit * (R * option J * W)) (phi : B)
    (solver : Ws -> X -> sol X R J Ws) (three : bool) cs (zero : Y) (w0 : W) (x0 : X) (ws : Ws) g,
  (three = true -> ignores_older (fom_asked dfom phi)) -> asks solver ->
  discrete_create o (total three) cs zero w0 x0 ws = Ok g ->
  forall z, reproduces o solver (problem_discrete o recon (fom_asked dfom phi) z three)
    (arb_step o (fd_system recon (total three) (lspg_discrete dfom phi)) solver (total three - 1))
    put_arb a_y a_ws rest_of_discrete after_step_2 g ws w0.
Proof. intros. eapply discrete_fresh; try eassumption; intros; [apply lspg_discrete_looks|apply lspg_ignores; auto]. Qed.
Print Assumptions C35_fully_discrete_partial.

Theorem C35_galerkin_fully_discrete_partial :
  forall (S X Y Rf Jf R J B W Ws : Type) (o : sops S) (recon : X -> Y)
    (dfom : Z -> S -> S -> Rf -> B -> option Jf -> Y -> list Y -> W -> outcome unit * (Rf * option Jf * W)) (phi : B)
    (proj_R : S -> Rf -> R -> W -> outcome unit * (R * W)) (proj_J : S -> Jf -> J -> W -> outcome unit * (J * W))
    (solver : Ws -> X -> sol X R J Ws) (three : bool) cs (zero : Y) (q0 : Rf * Jf * W) (x0 : X) (ws : Ws) g,
  (three = true -> ignores_older (fom_asked dfom phi)) -> asks solver ->
  discrete_create o (total three) cs zero q0 x0 ws = Ok g ->
  forall z, reproduces o solver (problem_discrete o recon (then_project proj_R proj_J (fom_asked dfom phi)) z three)
    (arb_step o (fd_system recon (total three) (galerkin_discrete dfom phi proj_R proj_J)) solver (total three - 1))
    put_arb a_y a_ws rest_of_discrete after_step_2 g ws q0.
Proof. intros. eapply discrete_fresh; try eassumption; intros; [apply galerkin_discrete_looks|apply galerkin_ignores; auto]. Qed.
Print Assumptions C35_galerkin_fully_discrete_partial.

(** Otherwise step 1 of the new run starts from the first run's initial condition: y' = y with
    trial map x -> x+1, runs from x = 1 and x = 2, one step each. *)
Theorem C35_refuted :
  wstart BDF1 = Ok (wobj BDF1) /\
  exists y1 y2, w35_res = [(Ok tt, q 1); (Ok tt, y1); (Ok tt, q 2); (Ok tt, y2)] /\
  bdf1_eq QcV (fun y => y) (plus1 (q 1)) half (plus1 y1) /\
  ~ bdf1_eq QcV (fun y => y) (plus1 (q 2)) half (plus1 y2) /\ y2 = y1.
Proof. exact second_run_stale. Qed.
Print Assumptions C35_refuted.

(** In general: if step 1 was the last one reconstructed, step 1 ignores the stepper's y_n. *)
Theorem C35_stale_start :
  forall (S X Y R J W : Type) (recon : X -> Y) (ev : evaluation W) (name : scheme)
    (y : X) (st st' : list X) (fs : list R) (t dt : S) (r : R) (Jo : option J) (p : lpol (Y:=Y) (W:=W)),
  fh_trk (lp_h p) = 1 ->
  lspg_policy recon ev name y st fs t 1 dt r Jo p = lspg_policy recon ev name y st' fs t 1 dt r Jo p.
Proof. exact @stale_start. Qed.
Print Assumptions C35_stale_start.

Theorem C35_stale_start_discrete :
  forall (S X Y R J Q : Type) (recon : X -> Y) (n : nat)
    (ev : Z -> S -> S -> R -> option J -> Y -> list Y -> Q -> outcome unit * (R * option J * Q))
    (t dt : S) (r : R) (Jo : option J) (y : X) (st st' : list X) (p : fomhist * Q),
  fh_trk (fst p) = 1 ->
  fd_system recon n ev 1 t dt r Jo y st p = fd_system recon n ev 1 t dt r Jo y st' p.
Proof. exact @stale_start_discrete. Qed.
Print Assumptions C35_stale_start_discrete.

(** C36. The FOM states manager, with as many states as its assertions ask for. *)
Theorem C36_read :
  forall (Y : Type) (g : tag) (data : list Y), (asserted_size g <= length data)%nat ->
  exists y, fom_at g data = Ok y /\ nth_error data (read_index g) = Some y.
Proof. exact @fom_at_ok. Qed.
Print Assumptions C36_read.

Theorem C36_write_partial :
  forall (X Y : Type) (recon : X -> Y) (g : tag) (x : X) (data : list Y),
  g <> NMinusTwo -> (asserted_size g <= length data)%nat ->
  exists d, recon_at recon g x data = Ok d /\ fom_at g d = Ok (recon x) /\ length d = length data /\
    forall i, i <> read_index g -> nth_error d i = nth_error data i.
Proof. exact @recon_at_ok. Qed.
Print Assumptions C36_write_partial.

Theorem C36_write_refuted :
  forall (X Y : Type) (recon : X -> Y) (x : X) (a b c d : Y),
  recon_at recon NMinusTwo x [a; b; c; d] = Undef UOutOfBounds.
Proof. exact @recon_at_nm2. Qed.
Print Assumptions C36_write_refuted.

Theorem C36_wrong_entry_refuted :
  forall (X Y : Type) (recon : X -> Y) (x : X) (a b c d e : Y) (l : list Y),
  recon_at recon NMinusTwo x (a :: b :: c :: d :: e :: l) = Ok (a :: b :: c :: d :: recon x :: l) /\
  fom_at NMinusTwo (a :: b :: c :: d :: recon x :: l) = Ok d.
Proof. exact @recon_at_nm2_more. Qed.
Print Assumptions C36_wrong_entry_refuted.

Theorem C36_shift :
  forall (X Y : Type) (recon : X -> Y) (x : X) (data : list Y), (2 <= length data <= 4)%nat ->
  exists np1 older, data = np1 :: older /\ recon_shift recon x data = np1 :: recon x :: removelast older.
Proof. exact @recon_shift_ok. Qed.
Print Assumptions C36_shift.

Theorem C36_shift_other_sizes :
  forall (X Y : Type) (recon : X -> Y) (x : X) (data : list Y), (length data < 2 \/ 4 < length data)%nat ->
  recon_shift recon x data = data.
Proof. exact @recon_shift_other. Qed.
Print Assumptions C36_shift_other_sizes.

(** C38. Residual and Jacobian of a call, with an affine trial map: the BDF residual of the FOM, and
    its derivative with respect to the reduced state. *)
Theorem C38_bdf1 :
  forall (X Y J W : Type) (eps0 : R) (xo : vops R X) (yo : vops R Y) (jo : vops R J) (nx : X -> R) (ny : Y -> R)
    (japp : J -> X -> Y) (phi : J) (tr : Y),
  vspace (Rops eps0) yo -> vspace (Rops eps0) jo -> normed yo ny -> (forall d, (0 <= nx d)%R) ->
  actions yo jo japp -> bounded xo nx yo ny (japp phi) ->
  forall (fom : sfom) (f : Y -> R -> Y) (df : Y -> J -> R -> J) (Df : Y -> R -> Y -> Y),
  fom_is fom f df -> (forall y t d, japp (df y phi t) d = Df y t (japp phi d)) ->
  let recon := fun x => vadd yo (japp phi x) tr in
  forall (x : X) (st : list X) (fs : list Y) (t : R) (step : Z) (dt : R) (r : Y) (j : J) (p : lpol (Y:=Y) (W:=W))
    (fs' : list Y) (r' : Y) (j' : option J) (p' : lpol),
  default_policy (Rops eps0) yo jo recon fom phi BDF1 x st fs t step dt r (Some j) p = (Ok tt, (fs', r', j', p')) ->
  derivative2 yo ny yo ny (fun y => f y t) (recon x) (Df (recon x) t) ->
  exists y_n jj, fom_at N (fh_data (lp_h p')) = Ok y_n /\ j' = Some jj /\
    let F := fun x => bdf1_R (Rops eps0) yo y_n dt (f (recon x) t) (recon x) in
    r' = F x /\ derivative2 xo nx yo ny F x (japp jj).
Proof. exact @lspg_call_one. Qed.
Print Assumptions C38_bdf1.

Theorem C38_bdf2 :
  forall (X Y J W : Type) (eps0 : R) (xo : vops R X) (yo : vops R Y) (jo : vops R J) (nx : X -> R) (ny : Y -> R)
    (japp : J -> X -> Y) (phi : J) (tr : Y),
  vspace (Rops eps0) yo -> vspace (Rops eps0) jo -> normed yo ny -> (forall d, (0 <= nx d)%R) ->
  actions yo jo japp -> bounded xo nx yo ny (japp phi) ->
  forall (fom : sfom) (f : Y -> R -> Y) (df : Y -> J -> R -> J) (Df : Y -> R -> Y -> Y),
  fom_is fom f df -> (forall y t d, japp (df y phi t) d = Df y t (japp phi d)) ->
  let recon := fun x => vadd yo (japp phi x) tr in
  forall (x : X) (st : list X) (fs : list Y) (t : R) (step : Z) (dt : R) (r : Y) (j : J) (p : lpol (Y:=Y) (W:=W))
    (fs' : list Y) (r' : Y) (j' : option J) (p' : lpol),
  default_policy (Rops eps0) yo jo recon fom phi BDF2 x st fs t step dt r (Some j) p = (Ok tt, (fs', r', j', p')) ->
  step <> 1 ->
  derivative2 yo ny yo ny (fun y => f y t) (recon x) (Df (recon x) t) ->
  exists y_n y_nm1 jj, fom_at N (fh_data (lp_h p')) = Ok y_n /\
    fom_at NMinusOne (fh_data (lp_h p')) = Ok y_nm1 /\ j' = Some jj /\
    let F := fun x => bdf2_R (Rops eps0) yo y_n y_nm1 dt (f (recon x) t) (recon x) in
    r' = F x /\ derivative2 xo nx yo ny F x (japp jj).
Proof. exact @lspg_call_two. Qed.
Print Assumptions C38_bdf2.

(** A call of the hyper-reduced problem gives the restriction of what the default problem gives,
    for a FOM and an updater that restrict. *)
Theorem C38_hyper_reduced :
  forall (S X Y Yh Rh J Jh Bh W : Type) (o : sops S) (yo : vops S Y) (yho : vops S Yh) (jo : vops S J),
  sfield o -> schar0 o -> vspace o yo -> vspace o yho -> vspace o jo ->
  forall (E : Y -> Yh) (P : Y -> Rh) (EB : J -> Bh) (PJ : J -> Jh), linear yo yho E ->
  forall (recon : X -> Y) (fom fh : sfom) (up : updater) (phi : J),
  fom_restricts E P EB PJ fom fh -> updater_ok yo jo E P EB PJ up ->
  forall (name : scheme) (x : X) (st : list X) (fs : list Y) (fsh : list Rh) (t : S) (step : Z) (dt : S) (r : Y) (rh : Rh)
    (Jo : option J) (Joh : option Jh) (p : lpol (Y:=Y) (W:=W)), Joh = None <-> Jo = None ->
  let '(eh, (fsh', rh', jh', ph')) :=
    hypred_policy o yho (fun x => E (recon x)) fh (EB phi) up name x st fsh t step dt rh Joh
                  (mk_lpol (states_restrict E (lp_h p)) (lp_w p)) in
  let '(e, (fs', r', j', p')) := default_policy o yo jo recon fom phi name x st fs t step dt r Jo p in
  eh = e /\ fsh' = fsh /\ fs' = fs /\ ph' = mk_lpol (states_restrict E (lp_h p')) (lp_w p') /\
  (e = Ok tt -> rh' = P r' /\ jh' = option_map PJ j').
Proof. exact @policy_restricts. Qed.
Print Assumptions C38_hyper_reduced.

(** The masked problem gives the mask of what the default problem gives. *)
Theorem C38_masked :
  forall (S X Y R Ju J W : Type) (o : sops S) (yo : vops S Y) (jo : vops S Ju) (recon : X -> Y) (fom : sfom) (phi : Ju)
    (P : Y -> R) (PJ : Ju -> J) (m : masker),
  (forall ru r w, mk_R m ru r w = (Ok tt, (P ru, w))) -> (forall ju j w, mk_J m ju j w = (Ok tt, (PJ ju, w))) ->
  let base := default_policy o yo jo recon fom phi in
  forall (name : scheme) (x : X) (st : list X) (fs : list R) (t : S) (step : Z) (dt : S) (r : R) (Jo : option J)
    (p : mkpol (Y:=Y) (W:=W)),
  let '(e, (fs', r', j', p')) := masked_policy base m name x st fs t step dt r Jo p in
  let '(eb, (_, rb, jb, pb)) := base name x st [] t step dt (mk_r p) (Some (mk_j p)) (mk_base p) in
  e = eb /\ fs' = fs /\ mk_base p' = pb /\
  (e = Ok tt -> r' = P rb /\ j' = match Jo with Some _ => option_map PJ jb | None => None end).
Proof. intros. apply masked_is_mask; [assumption|assumption|]. intros. apply default_keeps_jac. Qed.
Print Assumptions C38_masked.

(** With the identity as trial map the problem is the FOM's own BDF problem (problem_bdf1 and
    problem_bdf2 are those of C16 and C17). *)
Theorem C38_identity_bdf1 :
  forall (S Y J W : Type) (o : sops S) (yo : vops S Y) (jo : vops S J) (jid : J) (fom : sfom) (u : isys (W:=W))
    (f : Y -> S -> Y) (df : Y -> J -> S -> J) (jac : Y -> S -> J),
  fom_pure fom f df -> pure_system u (fun y t => Ok (f y t, jac y t)) (fun _ _ j => j) ->
  (forall y t, df y jid t = jac y t) ->
  forall tape (rn : prun S Y) dt y r Jo w,
  problem_one o (fun y => y) (lspg_one o yo jo fom jid) tape rn dt y r Jo w =
  problem_bdf1 o yo jo jid u tape rn dt y r Jo w.
Proof. exact @identity_one. Qed.
Print Assumptions C38_identity_bdf1.

Theorem C38_identity_bdf2 :
  forall (S Y J W : Type) (o : sops S) (yo : vops S Y) (jo : vops S J) (jid : J) (fom : sfom) (u : isys (W:=W))
    (f : Y -> S -> Y) (df : Y -> J -> S -> J) (jac : Y -> S -> J),
  fom_pure fom f df -> pure_system u (fun y t => Ok (f y t, jac y t)) (fun _ _ j => j) ->
  (forall y t, df y jid t = jac y t) ->
  forall tape (rn : prun S Y) dt y r Jo w,
  problem_two o (fun y => y) (lspg_one o yo jo fom jid) (lspg_two o yo jo fom jid) tape rn dt y r Jo w =
  problem_bdf2 o yo jo jid u tape rn dt y r Jo w.
Proof. exact @identity_two. Qed.
Print Assumptions C38_identity_bdf2.

(** C60. A velocity failure of the FOM leaves the step as it is and the state changed. *)
Theorem C60_refuted :
  wstart BDF1 = Ok (wobj BDF1) /\
  exists g1, wlspg 1%nat BDF1 (q 0) 1 half (wobj BDF1) = (Throw EVelocity, g1) /\ t_y g1 <> t_y (wobj BDF1).
Proof. exact (conj eq_refl lspg_velocity_failure). Qed.
Print Assumptions C60_refuted.

(** C61. Without a request for the Jacobian the FOM's Jacobian plays no role ... *)
Theorem C61_default :
  forall (S X Y J W : Type) (o : sops S) (yo : vops S Y) (jo : vops S J) (recon : X -> Y) (fom fom' : sfom) (phi : J)
    (name : scheme) (y : X) (st : list X) (fs : list Y) (t : S) (step : Z) (dt : S) (r : Y) (p : lpol (Y:=Y) (W:=W)),
  fo_rhs fom = fo_rhs fom' ->
  default_policy o yo jo recon fom phi name y st fs t step dt r None p =
  default_policy o yo jo recon fom' phi name y st fs t step dt r None p.
Proof. exact @default_no_jacobian. Qed.
Print Assumptions C61_default.

Theorem C61_hyper_reduced :
  forall (S X Y R J B W : Type) (o : sops S) (yo : vops S Y) (recon : X -> Y) (fom fom' : sfom) (phi : B) (up : updater)
    (name : scheme) (y : X) (st : list X) (fs : list R) (t : S) (step : Z) (dt : S) (r : R) (p : lpol (Y:=Y) (W:=W)),
  fo_rhs fom = fo_rhs fom' ->
  hypred_policy (J:=J) o yo recon fom phi up name y st fs t step dt r None p =
  hypred_policy o yo recon fom' phi up name y st fs t step dt r None p.
Proof. exact @hypred_no_jacobian. Qed.
Print Assumptions C61_hyper_reduced.

Theorem C61_scaled :
  forall (S X Y R J W : Type) (base base' : policy S X R J lpol)
    (scaler : Y -> S -> R -> option J -> W -> outcome unit * (R * option J * W))
    (name : scheme) (y : X) (st : list X) (fs : list R) (t : S) (step : Z) (dt : S) (r : R) (p : lpol),
  base name y st fs t step dt r None p = base' name y st fs t step dt r None p ->
  scaled_policy base scaler name y st fs t step dt r None p = scaled_policy base' scaler name y st fs t step dt r None p.
Proof. exact @scaled_no_jacobian. Qed.
Print Assumptions C61_scaled.

(** ... but the masked problem computes it: one right-hand side and one Jacobian. *)
Theorem C61_masked_refuted :
  let p := fresh_masked (q 0) (q 0) (0%nat, 0%nat) [q 0; q 0] in
  let '(e, (_, _, _, p')) := masked_policy (wpol never) wmask BDF1 (q 1) [q 1] [] (q 0) 1 half (q 0) None p in
  e = Ok tt /\ lp_w (mk_base p') = (1%nat, 1%nat).
Proof. exact masked_computes_jacobian. Qed.
Print Assumptions C61_masked_refuted.

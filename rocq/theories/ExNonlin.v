(** Concrete cases meeting the hypotheses of the theorems in [PropNonlin.v] and
    [PropQr.v]: a residual of three entries in two unknowns, linear solves by the modified
    Gram-Schmidt factorisation. *)
From Coq Require Import Reals ZArith List Bool Lia Lra QArith Qcanon.
From Verif Require Import Base QcInst RInst FloatInst Laws LawInst ExplicitModel ExplicitExtra ImplicitModel ImplicitSpec
  NonlinDiag NonlinModel NonlinWp NonlinDiagProofs NonlinSpec NonlinRuns NonlinFollow NonlinLaws NonlinExact
  NonlinReal NonlinTheory NonlinRest Tuples NonlinWitness NonlinMoreSpec NonlinMore NonlinStep NonlinWitness2
  QrModel QrSpec QrProofs QrSolve QrExts QrEnd QrReuse.
From Verif Require Export TupleMats.
Import ListNotations.
Local Open Scope R_scope.

Section Ex.
  Variable eps : R.
  Notation o := (Rops eps).
  Notation V2 := (tup R 2).
  Notation V3 := (tup R 3).
  Notation no := (tuple_ops o sqrt 3 2).
  Notation reg32 := (reg R V2 V3 (mat (S:=R) 3 2) (mat (S:=R) 2 2) (object eps 3 2)).
  (** (x^2 - 2, x + y, x - 1) *)
  Definition exF (v : V2) : V3 := let '(x, (y, _)) := v in (x * x - 2, (x + y, (x - 1, tt))).
  Definition exDF (v : V2) : mat (S:=R) 3 2 := let '(x, (y, _)) := v in ((2 * x, (1, (1, tt))), ((0, (1, (0, tt))), tt)).
  (** a system that counts its calls *)
  Definition exsys (v : V2) (r : V3) (j : option (mat (S:=R) 3 2)) (w : nat) : outcome unit * (V3 * option (mat (S:=R) 3 2) * nat) :=
    (Ok tt, (exF v, match j with Some _ => Some (exDF v) | None => None end, Datatypes.S w)).
  Example ex_computes : computes exsys exF exDF.
  Proof. intros y r j w. eexists. eexists. split; [reflexivity|]. destruct j; reflexivity. Qed.
  Example ex_sys_ok : sys_ok (graph exsys) (fun y r => r = exF y) (fun y j => j = exDF y) nothing.
  Proof. exact (computes_ok exsys _ _ ex_computes). Qed.
  Example ex_plain : plain_system exsys.
  Proof. intros y r j w e z E. injection E as <- _. exact I. Qed.
  (** weights 1, 2, 3 *)
  Definition exw : V3 := (1, (2, (3, tt))).
  Definition exwr (r : V3) : V3 := tmap2 Rmult exw r.
  Definition exwj (j : mat (S:=R) 3 2) : mat (S:=R) 3 2 := tmap exwr j.
  Notation xt b := (mgs_exts eps 3 2 exwr exwj b).
  Example ex_weights : forall b f, weights_ok (xt b) exwr exwj f.
  Proof. intros b f. split; intros; cbn in *; congruence. Qed.
  Lemma t3 : forall a b c a' b' c' : R, a = a' -> b = b' -> c = c' -> (a, (b, (c, tt))) = (a', (b', (c', tt))).
  Proof. intros; subst; reflexivity. Qed.
  Example ex_weighting : weighting (tvec o 3) (tapply o) exwr exwj /\ symmetric_psd no exwr.
  Proof.
    split; [split; [split|]|split].
    - intros [a [b [c []]]] [a' [b' [c' []]]]. cbn. apply t3; ring.
    - intros k [a [b [c []]]]. cbn. apply t3; ring.
    - intros [[a1 [a2 [a3 []]]] [[b1 [b2 [b3 []]]] []]] [x [y []]]. cbn. apply t3; ring.
    - intros [a [b [c []]]] [a' [b' [c' []]]]. cbn. unfold tdot. cbn. ring.
    - intros [a [b [c []]]]. cbn. unfold tdot. cbn.
      pose proof (Rle_0_sqr a). pose proof (Rle_0_sqr b). pose proof (Rle_0_sqr c). unfold Rsqr in *. lra.
  Qed.
  (** the compact form with the square roots of weights 1, 4, 9 *)
  Example ex_compact : forall r q, n_rdot no (exwr r) q = n_rdot no r (exwr q).
  Proof. exact (proj1 (proj2 ex_weighting)). Qed.
  Example ex_linear : linear_ok (xt false) (if_solvable (normal_exact (tapply o))) (if_solvable (qr_exact no (tapply o)))
    (if_solvable (newton_exact (tapply o))) nothing.
  Proof. apply mgs_linear. Qed.
  Example ex_linear_strict : linear_ok (xt true) (normal_exact (tapply o)) (qr_exact no (tapply o)) (newton_exact (tapply o)) anything.
  Proof. apply mgs_linear_strict. Qed.
  Example ex_linear_computes : exists D Dq Dn, linear_computes D Dq Dn (xt false).
  Proof.
    exists (fun h g => direct eps 2 h g),
      (fun j r => solution eps 2 (fst (factors eps 3 (tlist j))) (snd (factors eps 3 (tlist j))) r), (fun j r => direct eps 2 j r).
    pose proof ex_linear as K. split; try (intros; cbn in *; congruence).
    - intros j r v c l l1 q l2 d l3 E1 E2 E3. exact (proj1 (qr_chain eps 3 2 exwr exwj false _ _ _ _ _ _ _ _ _ _ E1 E2 E3)).
    - exact (lk_f2 K).
    - exact (lk_f3 K).
  Qed.
  Example ex_laws : nl_laws eps no (tvec o 3) (tapply o) (tapply o).
  Proof. apply tuple_laws. Qed.
  Example ex_halvings : ten_halvings o /\ halving_ends o.
  Proof. split; [apply ten_R|apply ten_ends; apply ten_R]. Qed.
  (** the Jacobian has full rank everywhere *)
  Example ex_full_rank : forall v, full_rank no (tvec o 3) (tapply o) (exDF v).
  Proof.
    intros [x [y []]] [a [b []]] E. cbn in E. 
    assert (E2 : a * 1 + (b * 1 + 0) = 0) by exact (f_equal (fun z => fst (snd z)) E).
    assert (E3 : a * 1 + (b * 0 + 0) = 0) by exact (f_equal (fun z => fst (snd (snd z))) E).
    cbn. repeat f_equal; lra.
  Qed.
  Example ex_damped : forall v mu, 0 < mu ->
    positive_definite no (tapply o) (n_adddiag no (n_jtj no (exDF v) (exDF v)) mu).
  Proof. intros v mu Hmu. eapply full_rank_pd; [apply ex_laws|lra|apply ex_full_rank]. Qed.
  (** new solver objects, at (3, 1) *)
  Definition exreg (diags : list diag) : reg32 :=
    set_x (3, (1, tt)) (new_reg o (tconst 0 2) (tconst 0 3) (tconst (tconst 0 3) 2) (tconst (tconst 0 2) 2) (new_object eps 3 2) diags).
  Example ex_objects : ls_object o (exreg ls_diags) /\ root_object o (exreg root_diags).
  Proof. split; repeat split. Qed.
  (** settings *)
  Example ex_settings : forall u st, In u [UStandard; UBacktrack; UArmijo] ->
    ls_supported GaussNewton (mk_config 100 st (1 / 1000) u None).
  Proof. intros u st [<-|[<-|[<-|[]]]]; cbn; try exact I; discriminate. Qed.
  Example ex_settings_lm : forall u st, In u [UStandard; ULMSchedule1; ULMSchedule2] -> ls_supported LevMar (mk_config 100 st (1 / 1000) u None).
  Proof. intros u st [<-|[<-|[<-|[]]]]; cbn; try exact I; reflexivity. Qed.
  Example ex_settings_root : forall u st, In u [UStandard; UBacktrack] ->
    In st [WhenAbsCorrection; WhenRelCorrection; WhenAbsResidual; WhenRelResidual] ->
    root_supported (mk_config 100 st (1 / 1000) u None).
  Proof. intros u st [<-|[<-|[]]] [<-|[<-|[<-|[<-|[]]]]]; split; cbn; try exact I; discriminate. Qed.

  (** C31, C40: an affine residual in three equations, two unknowns: A = exDF (1, 0) *)
  Definition exA : mat (S:=R) 3 2 := exDF (1, (0, tt)).
  Definition exaff (v : V2) (r : V3) (j : option (mat (S:=R) 3 2)) (w : unit) : outcome unit * (V3 * option (mat (S:=R) 3 2) * unit) :=
    (Ok tt, (affine (tvec o 3) (tapply o) exA (1, (2, (3, tt))) v, match j with Some _ => Some exA | None => None end, w)).
  Example ex_affine : computes exaff (affine (tvec o 3) (tapply o) exA (1, (2, (3, tt)))) (fun _ => exA) /\
    full_rank no (tvec o 3) (tapply o) exA.
  Proof. split; [|apply ex_full_rank]. intros y r j w. eexists. eexists. split; [reflexivity|]. destruct j; reflexivity. Qed.
  (** ... and every hypothesis of C31_gauss_newton on its solvability *)
  Example ex_solvable : forall r0, exists d, qr_exact no (tapply o) exA r0 d.
  Proof.
    intros r0. eexists. apply solution_qr. apply diag_of_indep. apply (proj1 (full_rank_indep eps 3 2 exA)). apply ex_full_rank.
  Qed.

  (** C40, C57, C58 *)
  Example ex_independent : independent (tvec o 3) (tlist exA).
  Proof. apply (proj1 (full_rank_indep eps 3 2 exA)). apply ex_full_rank. Qed.
  Example ex_usable : usable o (new_mgs (S:=R) (tlist exA)).
  Proof. left. reflexivity. Qed.
  Example ex_not_orthogonal : forall a b, nth_error (tlist exA) 0 = Some a -> nth_error (tlist exA) 1 = Some b -> tdot o a b <> 0.
  Proof. intros a b Ha Hb. injection Ha as <-. injection Hb as <-. unfold tdot. cbn. lra. Qed.
End Ex.

(** C53: y' = A y + b in two unknowns, without and with a mass matrix *)
Section Ode.
  Variable eps : R.
  Notation o := (Rops eps).
  Example ex_tuple_matrices : forall n, vspace o (mat_ops eps n n) /\ matrices (tvec o n) (mat_ops eps n n) (tid n) (tapply o).
  Proof. apply tuple_matrices. Qed.
  (** the oscillator y1' = y2, y2' = t - y1, and mass matrix diag(2, 3) *)
  Definition osc (t : R) : mat (S:=R) 2 2 := ((0, (-1, tt)), ((1, (0, tt)), tt)).
  Definition drive (t : R) : tup R 2 := (0, (t, tt)).
  Definition mass23 (t : R) : mat (S:=R) 2 2 := ((2, (0, tt)), ((0, (3, tt)), tt)).
  Definition osc_user : isys (S:=R) (V:=tup R 2) (J:=mat (S:=R) 2 2) (W:=unit) :=
    mk_isys (fun y t f Jo w => (Ok tt, (linear_rhs (tvec o 2) (tapply o) osc drive y t, match Jo with Some _ => Some (osc t) | None => None end, w)))
            (fun y t M f Jo w => (Ok tt, (mass23 t, linear_rhs (tvec o 2) (tapply o) osc drive y t, match Jo with Some _ => Some (osc t) | None => None end, w))).
  Example ex_linear_ode : linear_ode (tvec o 2) (tapply o) osc_user osc drive /\ linear_ode_mm (tvec o 2) (tapply o) osc_user mass23 osc drive.
  Proof.
    split.
    - intros y t f Jo w. eexists. eexists. split; [reflexivity|]. destruct Jo; [reflexivity|congruence].
    - intros y t M f Jo w. eexists. eexists. split; [reflexivity|]. destruct Jo; [reflexivity|congruence].
  Qed.
  (** the step matrices are invertible for every step size *)
  Lemma inv2 : forall (K : mat (S:=R) 2 2), full_rank (tuple_ops o sqrt 2 2) (tvec o 2) (tapply o) K -> invertible (tvec o 2) (tapply o) K.
  Proof. intros K Hf. split; [exact Hf|]. exact (square_onto eps 2 K Hf). Qed.
  Example ex_invertible : forall c dt t, invertible (tvec o 2) (tapply o) (scheme_J o (mat_ops eps 2 2) (tid 2) c dt (osc t)) /\
    invertible (tvec o 2) (tapply o) (scheme_J o (mat_ops eps 2 2) (mass23 t) c dt (osc t)).
  Proof.
    intros c dt t. split; apply inv2; intros [x [y []]] E; cbn in E.
    - assert (E1 := f_equal fst E). assert (E2 := f_equal (fun z => fst (snd z)) E). cbn [fst snd] in E1, E2.
      set (h := c * dt) in *.
      assert (F1 : x - h * y = 0) by (rewrite <- E1; change (sadd o) with Rplus; change (smul o) with Rmult; change (sopp o) with Ropp; subst h; ring).
      assert (F2 : h * x + y = 0) by (rewrite <- E2; change (sadd o) with Rplus; change (smul o) with Rmult; change (sopp o) with Ropp; subst h; ring).
      assert (Hx : x * (1 + h * h) = 0) by (replace y with (- (h * x)) in F1 by lra; lra).
      pose proof (Rle_0_sqr h) as P. unfold Rsqr in P. apply Rmult_integral in Hx. destruct Hx as [Hx|Hx]; [|lra].
      subst x. cbn. repeat f_equal. lra.
    - assert (E1 := f_equal fst E). assert (E2 := f_equal (fun z => fst (snd z)) E). cbn [fst snd] in E1, E2.
      set (h := c * dt) in *.
      assert (F1 : 2 * x - h * y = 0) by (rewrite <- E1; change (sadd o) with Rplus; change (smul o) with Rmult; change (sopp o) with Ropp; subst h; ring).
      assert (F2 : h * x + 3 * y = 0) by (rewrite <- E2; change (sadd o) with Rplus; change (smul o) with Rmult; change (sopp o) with Ropp; subst h; ring).
      assert (Hx : x * (6 + h * h) = 0) by (replace y with (- (h * x) / 3) in F1 by lra; lra).
      pose proof (Rle_0_sqr h) as P. unfold Rsqr in P. apply Rmult_integral in Hx. destruct Hx as [Hx|Hx]; [|lra].
      subst x. cbn. repeat f_equal. lra.
  Qed.
End Ode.

(** C21, C24, C49, C50, C52, C56 with rational and binary64 numbers: see the runs in
    [NonlinWitness.v] and [NonlinWitness2.v], whose hypotheses are *)
Example ex_rational : forall (F DF : Qc -> Qc) (x : Qc), computes (sys1 F DF) F DF /\ plain_system (sys1 (S:=Qc) F DF) /\ ten_halvings QcS /\ ten_halvings F64 /\
  ls_object QcS (reg1 QcS ls_diags x) /\ root_object QcS (reg1 QcS root_diags x) /\
  linear_computes (fun h g => g / h)%Qc (fun j r => r / j)%Qc (fun j r => r / j)%Qc (x1 QcS).
Proof.
  intros F DF x. split; [apply sys1_computes|]. split; [intros y r j w e z E; injection E as <- _; exact I|].
  split; [exact ten_Qc|]. split; [exact ten_F64|]. split; [apply reg1_ls|]. split; [apply reg1_root|]. exact (x1_linear QcS).
Qed.
Example ex_failing : fails_with_residual sys_trial /\ plain_system sys_trial.
Proof.
  split; [exact sys_trial_fails|]. intros y r j w e z E. unfold sys_trial in E. destruct (Qc_eq_bool y (q 0)); injection E as <- _; try exact I.
  intros [H|H]; discriminate.
Qed.
(** C32: every list of diagnostics; here two of them, recorded twice *)
Example ex_records : forall (x y : Qc) r, In r [(IResidual, x, true); (ICorrection, x, true); (IResidual, y, false)] ->
  exists d, In d [ResidualRel; CorrectionAbs] /\ fst (about d) = fst (fst r).
Proof. intros x y r [<-|[<-|[<-|[]]]]; cbn; eauto. Qed.

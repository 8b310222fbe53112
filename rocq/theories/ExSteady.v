(** Cases meeting the hypotheses of [PropSteady.v]. *)
From Coq Require Import ZArith List Bool Lia Reals Lra QArith Qcanon.
From Verif Require Import Base QcInst RInst Laws LawInst ExplicitModel ExplicitExtra ImplicitModel
  ImplicitSpec ImplicitWitness ExImplicit LspgModel LspgSpec RomSpec ExLspg GalerkinModel GalerkinSpec ExGalerkin
  NonlinDiag NonlinModel NonlinSpec NonlinLaws Tuples QrModel QrSpec QrExts ExNonlin
  SteadyLspgModel SteadyLspgSpec SteadyLspgProofs TrilinosModel TrilinosSpec TrilinosProofs PropSteady.
Import ListNotations.

(** C67: the FOM of [ExGalerkin]; the masker swaps the components; the scaler multiplies by the
    first component of the FOM state. *)
Definition st_sc : scaler (Y:=P2) (W:=gW) P2 P2 :=
  fun y r j w => match gcall tt tt w with
                 | (Ok _, (_, w')) => (Ok tt, (vscale ex_p2 (fst y) r, option_map (vscale ex_p2 (fst y)) j, w'))
                 | (e, (_, w')) => (e, (r, j, w'))
                 end.
Example ex_st_scaler : scaler_is true healthy st_sc (fun y => vscale ex_p2 (fst y)) (fun y => vscale ex_p2 (fst y)).
Proof. intros y r j [n fl] Hw. unfold healthy in *. cbn in Hw. subst fl. repeat split. Qed.
Example ex_st_fom : steady_rj_is true healthy g_sfom (fun y => g_rhs y (q 0)) (fun y phi => g_jac y phi (q 0)).
Proof. intros y r phi j w Hw. apply gcall_returns. exact Hw. Qed.
Example ex_st_all :
  lspg_steady (Rm:=P2) (Jm:=P2) true healthy g_recon g_basis g_sfom P2 P2 (fun _ r => r) (fun _ j => j)
    (steady_problem_default g_recon g_basis g_sfom) /\
  lspg_steady (Rm:=P2) (Jm:=P2) true healthy g_recon g_basis g_sfom P2 P2 (fun _ a => (snd a, fst a)) (fun _ a => (snd a, fst a))
    (steady_problem_masked g_recon g_basis g_sfom g_msk) /\
  lspg_steady (Rm:=P2) (Jm:=P2) true healthy g_recon g_basis g_sfom P2 P2
    (fun y a => vscale ex_p2 (fst y) (snd a, fst a)) (fun y a => vscale ex_p2 (fst y) (snd a, fst a))
    (lspg_steady_masked g_recon g_basis g_sfom g_msk st_sc).
Proof.
  split; [apply SteadyDefault|]. split; [apply SteadyMasked; apply ex_g_msk|].
  exact (SteadyMaskedScaled true healthy g_recon g_basis g_sfom g_msk _ _ st_sc _ _ ex_g_msk ex_st_scaler).
Qed.
Definition st_obj (fl : bool) : sobj P2 P2 P2 gW := mk_sobj (q 9, q 9) (q 9, q 9) (q 9, q 9) (0%nat, fl).
Definition st_shown (r : outcome unit * (P2 * option P2 * sobj P2 P2 P2 gW)) :=
  let sh (a : P2) := (this (fst a), this (snd a)) in
  (fst r, sh (fst (fst (snd r))), option_map sh (snd (fst (snd r))), fst (so_w (snd (snd r)))).
(** At x = 5: y = (4, 4), residual (4, -4), Jacobian action (4/5, -3/5). *)
Example ex_st_values :
  st_shown (steady_problem_default g_recon g_basis g_sfom (q 5) (q 7, q 7) (Some (q 7, q 7)) (st_obj false))
    = (Ok tt, (4%Q, (-4)%Q), Some ((4 # 5)%Q, (-3 # 5)%Q), 1%nat) /\
  st_shown (lspg_steady_masked g_recon g_basis g_sfom g_msk st_sc (q 5) (q 7, q 7) (Some (q 7, q 7)) (st_obj false))
    = (Ok tt, ((-16)%Q, 16%Q), Some ((-12 # 5)%Q, (16 # 5)%Q), 4%nat) /\
  st_shown (lspg_steady_masked g_recon g_basis g_sfom g_msk st_sc (q 5) (q 7, q 7) None (st_obj false))
    = (Ok tt, ((-16)%Q, 16%Q), None, 3%nat) /\
  st_shown (lspg_steady_masked g_recon g_basis g_sfom g_msk st_sc (q 5) (q 7, q 7) (Some (q 7, q 7)) (st_obj true))
    = (Throw (EUser 1), (7%Q, 7%Q), Some (7%Q, 7%Q), 0%nat).
Proof. repeat split; vm_compute; reflexivity. Qed.

(** The derivative: residual y^2 on the line, map x -> 2 x + 1; the masker multiplies by 2. *)
Definition st_rfom : steady_fom (Y:=R) (Rf:=R) (Jf:=R) (B:=R) (W:=nat) :=
  mk_steady_fom (fun y r w => (Ok tt, ((y * y)%R, w)))
    (fun y r phi j w => (Ok tt, ((y * y)%R, option_map (fun _ => (2 * y * phi)%R) j, Datatypes.S w)))
    (fun y v r w => (Ok tt, ((2 * y * v)%R, w))).
Definition st_rmsk : masker (Ru:=R) (Ju:=R) (R:=R) (J:=R) (W:=nat) :=
  mk_masker (fun a r w => (Ok tt, ((2 * a)%R, w))) (fun a r w => (Ok tt, ((2 * a)%R, w))).
Example ex_st_derivative :
  exists r' j' b',
    steady_problem_masked (fun x => 2 * x + 1)%R 2%R st_rfom st_rmsk 3%R 9%R (Some 9%R) (mk_sobj 0%R 0%R 0%R 0%nat)
      = (Ok tt, (r', Some j', b')) /\
    r' = (2 * (7 * 7))%R /\
    derivative2 Rv Rabs Rv Rabs (fun x => 2 * ((2 * x + 1) * (2 * x + 1)))%R 3%R (Rmult j').
Proof.
  do 3 eexists. split; [reflexivity|]. split; [cbn; ring|].
  refine (proj2 (C67_jacobian_is_derivative R R R R R R R nat R R Rv Rv Rv Rv Rabs Rabs Rabs Rabs Rabs_pos Rabs_pos
    (fun x => 2 * x + 1)%R (Rmult 2) Rmult Rmult _ (bo_bound _ _ _ _ _ ex_bounded) true (fun _ => True) 2%R st_rfom
    (fun y => y * y)%R (fun y phi => 2 * y * phi)%R (fun y => Rmult (2 * y)) (Rmult 2) (Rmult 2)
    (steady_problem_masked (fun x => 2 * x + 1)%R 2%R st_rfom st_rmsk) _ ex_derivative2 _ ex_bounded _ _
    3%R 9%R 9%R (mk_sobj 0%R 0%R 0%R 0%nat) _ _ _ I eq_refl)).
  - intros x d. cbn. ring.
  - intros y r phi j w _. repeat split.
  - intros y d. ring.
  - intros A d. ring.
  - apply SteadyMasked. split; intros; repeat split.
Qed.

(** C68: three equations, two modes. FOM: y -> diag(1, 2, 3) y + (1, 2, 3); basis [exA], shift (1, 1, 1).
    The masker drops the first equation. *)
Section Solve.
  Local Open Scope R_scope.
  Variable eps : R.
  Notation o := (Rops eps).
  Notation V2 := (tup R 2).
  Notation V3 := (tup R 3).
  Notation M32 := (mat (S:=R) 3 2).
  Definition sv_shift : V3 := (1, (1, (1, tt))).
  Definition sv_recon (x : V2) : V3 := vadd (tvec o 3) (tapply o exA x) sv_shift.
  Definition sv_f (y : V3) : V3 := vadd (tvec o 3) (exwr y) exw.
  Definition sv_fom : steady_fom (Y:=V3) (Rf:=V3) (Jf:=M32) (B:=M32) (W:=nat) :=
    mk_steady_fom (fun y r w => (Ok tt, (sv_f y, w)))
      (fun y r phi j w => (Ok tt, (sv_f y, option_map (fun _ => exwj phi) j, Datatypes.S w)))
      (fun y v r w => (Ok tt, (r, w))).
  Example ex_sv_fom : steady_rj_is true (fun _ => True) sv_fom sv_f (fun _ phi => exwj phi).
  Proof. intros y r phi j w _. repeat split. Qed.
  Example ex_sv_affine :
    affine_fom (tvec o 2) (tvec o 3) (tvec o 3) sv_recon exA (tapply o) sv_f (fun _ phi => exwj phi) (tapply o exA) exwr.
  Proof.
    split.
    - exists sv_shift. reflexivity.
    - exact (wg_lin _ _ _ _ (proj1 (ex_weighting eps))).
    - exists exw. reflexivity.
    - exists (exwj exA). split; [reflexivity|]. intros [a [b []]]. cbn. apply t3; ring.
  Qed.
  Example ex_sv_default :
    lspg_steady (Rm:=V2) (Jm:=mat (S:=R) 2 2) true (fun _ => True) sv_recon exA sv_fom _ _ (fun _ r => r) (fun _ j => j)
      (steady_problem_default sv_recon exA sv_fom) /\
    (forall d, exwr (tapply o exA d) = vzero (tvec o 3) -> d = vzero (tvec o 2)).
  Proof.
    split; [apply SteadyDefault|]. intros [a [b []]] E. cbn in E.
    assert (E2 : 2 * (a * 1 + (b * 1 + 0)) = 0) by exact (f_equal (fun z => fst (snd z)) E).
    assert (E3 : 3 * (a * 1 + (b * 0 + 0)) = 0) by exact (f_equal (fun z => fst (snd (snd z))) E).
    cbn. repeat f_equal; lra.
  Qed.
  Definition sv_drop (v : V3) : V2 := snd v.
  Definition sv_msk : masker (Ru:=V3) (Ju:=M32) (R:=V2) (J:=mat (S:=R) 2 2) (W:=nat) :=
    mk_masker (fun a r w => (Ok tt, (sv_drop a, w))) (fun a j w => (Ok tt, (tmap sv_drop a, w))).
  Example ex_sv_masked :
    lspg_steady (Rm:=V2) (Jm:=mat (S:=R) 2 2) true (fun _ => True) sv_recon exA sv_fom _ _ (fun _ => sv_drop) (fun _ => tmap sv_drop)
      (steady_problem_masked sv_recon exA sv_fom sv_msk) /\
    linear (tvec o 3) (tvec o 2) sv_drop /\ (forall (a : M32) (d : V2), tapply o (tmap sv_drop a : mat (S:=R) 2 2) d = sv_drop (tapply o a d)) /\
    (forall d : V2, sv_drop (exwr (tapply o exA d)) = vzero (tvec o 2) -> d = vzero (tvec o 2)).
  Proof.
    split; [apply SteadyMasked; split; intros; repeat split|]. split; [split; reflexivity|].
    split; [intros [[a1 [a2 [a3 []]]] [[b1 [b2 [b3 []]]] []]] [x [y []]]; reflexivity|].
    intros [a [b []]] E. cbn in E.
    assert (E2 : 2 * (a * 1 + (b * 1 + 0)) = 0) by exact (f_equal (fun z => fst z) E).
    assert (E3 : 3 * (a * 1 + (b * 0 + 0)) = 0) by exact (f_equal (fun z => fst (snd z)) E).
    cbn. repeat f_equal; lra.
  Qed.
  (** ... and the theorem applies to a new Gauss-Newton object. *)
  Definition sv_cf : config R := mk_config 10 WhenAbsCorrection (1 / 1000) UStandard None.
  Example ex_sv_gauss_newton : forall r s' w',
    exec (steady_problem_default sv_recon exA sv_fom)
      (ls_solve o (tuple_ops o sqrt 3 2) (mgs_exts eps 3 2 exwr exwj false) GaussNewtonQr sv_cf)
      (exreg eps ls_diags, mk_sobj (tconst 0 3) (tconst 0 3) exA 0%nat) = (r, (s', w')) ->
    r = Ok tt /\
    (length (g_log s') = 1%nat \/
     forall z, n_rnorm (tuple_ops o sqrt 3 2) (sv_f (sv_recon (g_x s'))) <= n_rnorm (tuple_ops o sqrt 3 2) (sv_f (sv_recon z))).
  Proof.
    intros r s' w' E.
    edestruct (C68_lspg_gauss_newton V3 V3 M32 V2 (mat (S:=R) 2 2) M32 nat eps 3 2 (tvec o 3) (tvec o 3) (tvec_space o (R_field eps) 3)
      sv_recon exA (tapply o) sv_fom sv_f (fun _ phi => exwj phi) (tapply o exA) exwr ex_sv_affine (fun r => r) (fun j => j)
      (steady_problem_default sv_recon exA sv_fom) exwr exwj GaussNewtonQr sv_cf (exreg eps ls_diags)) with (12 := E)
      as (ls & L & Hr & Hcase & _); cbn [sv_cf f_update f_stop f_tol f_max]; auto; try lra; try (unfold int32_max; lia).
    - exact ex_sv_fom.
    - split; reflexivity.
    - exact (proj1 ex_sv_default).
    - exact (proj2 ex_sv_default).
    - exact (proj1 (ex_objects eps)).
    - split; [exact Hr|]. rewrite L. cbn [exreg set_x new_reg g_log app]. destruct Hcase as [[H1 _]|[_ H2]]; auto.
  Qed.
  (** Galerkin: the hyper-reduction operator is the transpose of the basis. *)
  Definition sv_proj (v : V3) : V2 := (tdot o (fst exA) v, (tdot o (fst (snd exA)) v, tt)).
  Definition sv_red : reducer (S:=R) (X:=V2) (J:=mat (S:=R) 2 2) (W:=nat) V3 M32 :=
    mk_reducer (fun a t r w => (Ok tt, (sv_proj a, w))) (fun a t j w => (Ok tt, (tmap sv_proj a, w))).
  Example ex_sv_galerkin :
    galerkin_steady (Rm:=V3) (Jm:=M32) true (fun _ => True) o (tvec o 2) (mat_ops eps 2 2) sv_recon exA sv_fom
      sv_proj (tmap sv_proj) (steady_hypred sv_recon exA sv_fom 0 sv_red) /\
    linear (tvec o 3) (tvec o 2) sv_proj /\ (forall (a : M32) (d : V2), tapply o (tmap sv_proj a : mat (S:=R) 2 2) d = sv_proj (tapply o a d)) /\
    (forall d : V2, sv_proj (exwr (tapply o exA d)) = vzero (tvec o 2) -> d = vzero (tvec o 2)) /\
    root_supported sv_cf /\ root_object o (set_x (3, (1, tt)) (new_reg o (tconst 0 2) (tconst 0 2) (tconst (tconst 0 2) 2)
       (tconst (tconst 0 2) 2) (new_object eps 2 2) root_diags)).
  Proof.
    split; [|split; [|split; [|split; [|split]]]].
    - exact (HypredSteady true (fun _ => True) o (tvec o 2) (mat_ops eps 2 2) sv_recon exA sv_fom 0 sv_red (fun _ => sv_proj) (fun _ => tmap sv_proj)
        (conj (fun a t r w _ => conj I (conj (fun _ => eq_refl) (fun _ => eq_refl))) (fun a t r w _ => conj I (conj (fun _ => eq_refl) (fun _ => eq_refl))))).
    - split; [intros [a1 [a2 [a3 []]]] [b1 [b2 [b3 []]]]|intros k [a1 [a2 [a3 []]]]];
        unfold sv_proj, tdot; cbn; apply (f_equal2 pair); [ring|f_equal; ring|ring|f_equal; ring].
    - intros [[a1 [a2 [a3 []]]] [[b1 [b2 [b3 []]]] []]] [x [y []]]. unfold sv_proj, tdot. cbn.
      apply (f_equal2 pair); [ring|f_equal; ring].
    - intros [a [b []]] E. unfold sv_proj, tdot in E. cbn in E.
      pose proof (f_equal (fun z => fst z) E) as E1. pose proof (f_equal (fun z => fst (snd z)) E) as E2. cbn in E1, E2.
      cbn. repeat f_equal; lra.
    - split; cbn; try exact I; discriminate.
    - repeat split.
  Qed.
End Solve.

(** C69: a periodic mesh of three cells, f_i = y_(i+1); the sample mesh is {2, 0} and the stencil mesh has
    its own order. *)
Definition tr_sample : list Z := [2; 0]%Z.
Definition tr_stencil : list Z := [2; 1; 0]%Z.
Notation Q3 := (tup Qc 3).
Definition tr_f (y : Q3) : Q3 := let '(a, (b, (c, _))) := y in (b, (c, (a, tt))).
Definition tr_fh (y : tup Qc 3) : tup Qc 2 := let '(c, (b, (a, _))) := y in (a, (b, tt)).
Definition tr_fom : sfom (S:=Qc) (Y:=Q3) (R:=Q3) (J:=tup Q3 1) (B:=tup Q3 1) (W:=nat) :=
  mk_sfom (fun y t r w => if Nat.eqb w 3 then (Throw EVelocity, (r, w)) else (Ok tt, (tr_f y, Datatypes.S w)))
          (fun y phi t j w => (Ok tt, (tmap tr_f phi, w))).
Definition tr_fom_h : sfom (S:=Qc) (Y:=tup Qc 3) (R:=tup Qc 2) (J:=tup (tup Qc 2) 1) (B:=tup (tup Qc 3) 1) (W:=nat) :=
  mk_sfom (fun y t r w => if Nat.eqb w 3 then (Throw EVelocity, (r, w)) else (Ok tt, (tr_fh y, Datatypes.S w)))
          (fun y phi t j w => (Ok tt, (tmap tr_fh phi, w))).
Example ex_tr_restricts :
  incl tr_sample tr_stencil /\
  fom_restricts (restricted QcS tr_stencil) (restricted QcS tr_sample) (restricted_cols QcS tr_stencil)
    (restricted_cols QcS tr_sample) tr_fom tr_fom_h.
Proof.
  split; [intros g; cbn; intuition|]. split.
  - intros [a [b [c []]]] t r rh w. cbn. destruct (Nat.eqb w 3); repeat split. discriminate.
  - intros y [[a [b [c []]]] []] t j jh w. cbn. repeat split.
Qed.
Definition tr_s : tmv Qc := mk_tmv tr_sample [[q 1; q 2]; [q 3; q 4]].
Definition tr_st : tmv Qc := mk_tmv tr_stencil [[q 10; q 20; q 30]; [q 40; q 50; q 60]].
Example ex_tr_combined :
  well_formed tr_s /\ well_formed tr_st /\
  match update_sample QcS tr_s (q 2) tr_st (q 1) with Ok v => map (map this) (t_cols v) | _ => [] end
    = [[12; 34]; [46; 68]]%Q.
Proof.
  split; [|split; [|vm_compute; reflexivity]]; split; cbn; repeat constructor; cbn; intuition discriminate.
Qed.
Example ex_tr_missing : update_sample QcS tr_s (q 2) (mk_tmv [1; 0]%Z [[q 20; q 30]; [q 50; q 60]]) (q 1) = Undef UOutOfBounds.
Proof.
  apply (C69_missing_index_refuted Qc QcS (q 2) (q 1) tr_s _ 2%Z); try discriminate; try (cbn; intuition discriminate);
    split; cbn; repeat constructor; cbn; intuition discriminate.
Qed.

(** Lemmas behind C14-C20, C46-C47. *)
From Coq Require Import ZArith List Bool Lia Field Reals Lra QArith Qcanon.
From Verif Require Import Base Laws LawInst QcInst RInst ExplicitModel ImplicitModel ImplicitSpec ImplicitProofs
  ImplicitRefine.
Import ListNotations.
Local Open Scope Z_scope.

(** * Roots of the residuals are the solutions of the scheme's equation (C14) *)
Section Roots.
  Context {S V J : Type} (o : sops S) (vo : vops S V) (jo : vops S J).
  Variable japp : J -> V -> V.
  Hypotheses (HF : sfield o) (HC : schar0 o) (HV : vspace o vo).
  Add Field SFroots : (sfield_th o HF).
  Ltac coef := cbv beta iota zeta delta [neg1 frac s_of_pos]; field; nz o HF HC.
  Ltac vec := cbv delta [bdf1_R bdf2_R cn_R vminus] beta iota zeta; vreduce o vo HF HV; coef.

  Lemma vminus_0 a b : vminus o vo a b = vzero vo <-> a = b.
  Proof.
    split; intros H.
    - transitivity (vadd vo (vminus o vo a b) b); [vec|]. rewrite H. apply (va_0_l _ _ HV).
    - subst b. vec.
  Qed.
  Lemma sub_move a b c : vminus o vo a b = c <-> a = vadd vo b c.
  Proof. split; intros H; [rewrite <- H|rewrite H]; vec. Qed.

  Lemma root_bdf1 (f : V -> V) y_n h y :
    bdf1_R o vo y_n h (f y) y = vzero vo <-> bdf1_eq vo f y_n h y.
  Proof.
    cbv [bdf1_R bdf1_eq]. rewrite vminus_0. apply sub_move.
  Qed.
  Lemma root_bdf2 (f : V -> V) y_n y_nm1 h y :
    bdf2_R o vo y_n y_nm1 h (f y) y = vzero vo <-> bdf2_eq o vo f y_n y_nm1 h y.
  Proof.
    cbv [bdf2_R bdf2_eq]. rewrite vminus_0.
    replace (vadd vo (vminus o vo y (vscale vo (frac o 4 3) y_n)) (vscale vo (frac o 1 3) y_nm1))
      with (vminus o vo (vadd vo y (vscale vo (frac o 1 3) y_nm1)) (vscale vo (frac o 4 3) y_n)) by vec.
    apply sub_move.
  Qed.
  Lemma root_cn (f : V -> V) f_n y_n h y :
    cn_R o vo y_n f_n h (f y) y = vzero vo <-> cn_eq o vo f_n f y_n h y.
  Proof. cbv [cn_R cn_eq]. rewrite vminus_0. apply sub_move. Qed.
  Lemma root_bdf1_mm M (f : V -> V) y_n h y :
    bdf1_R_mm o vo japp y_n h M (f y) y = vzero vo <->
    japp M (vminus o vo y y_n) = vscale vo h (f y).
  Proof. cbv [bdf1_R_mm]. apply vminus_0. Qed.
  Lemma root_bdf2_mm M (f : V -> V) y_n y_nm1 h y :
    bdf2_R_mm o vo japp y_n y_nm1 h M (f y) y = vzero vo <->
    japp M (vadd vo (vminus o vo y (vscale vo (frac o 4 3) y_n)) (vscale vo (frac o 1 3) y_nm1))
    = vscale vo (smul o (frac o 2 3) h) (f y).
  Proof. cbv [bdf2_R_mm]. apply vminus_0. Qed.
End Roots.

(** * The Jacobians are the derivatives of the residuals (C15) *)
Section Deriv.
  Context {V J : Type} (eps0 : R) (vo : vops R V) (jo : vops R J).
  Notation o := (Rops eps0).
  Variable jid : J.
  Variable japp : J -> V -> V.
  Variable norm : V -> R.
  Hypotheses (HV : vspace o vo) (HN : normed vo norm).
  (** Applying a matrix is linear in the matrix; the identity does nothing. *)
  Hypothesis app_add : forall a b x, japp (vadd jo a b) x = vadd vo (japp a x) (japp b x).
  Hypothesis app_scale : forall c a x, japp (vscale jo c a) x = vscale vo c (japp a x).
  Hypothesis app_id : forall x, japp jid x = x.
  Let HF := R_field eps0.

  Lemma norm_scale_le a x e : (norm x <= e)%R -> (norm (vscale vo a x) <= Rabs a * e)%R.
  Proof.
    intros H. rewrite (n_scale _ _ HN). apply Rmult_le_compat_l; [apply Rabs_pos|exact H].
  Qed.

  (** A residual that differs from lead(y) by c f(y). *)
  Lemma derivative_comb (F f : V -> V) (L Lf lead : V -> V) (c : R) (y : V) :
    (forall d, vadd vo (F (vadd vo y d)) (vscale vo (-1)%R (vadd vo (F y) (L d))) =
               vscale vo c (vadd vo (f (vadd vo y d)) (vscale vo (-1)%R (vadd vo (f y) (Lf d))))) ->
    derivative vo norm f y Lf -> derivative vo norm F y L.
  Proof.
    intros HE HD e He.
    destruct (HD (e / (Rabs c + 1))%R) as (del & Hd & H).
    { apply Rdiv_lt_0_compat; [exact He|]. pose proof (Rabs_pos c). lra. }
    exists del. split; [exact Hd|]. intros d Hn. rewrite HE.
    eapply Rle_trans; [apply norm_scale_le; apply H; exact Hn|].
    pose proof (Rabs_pos c) as Hc. pose proof (n_pos _ _ HN d) as Hp.
    replace (Rabs c * (e / (Rabs c + 1) * norm d))%R with ((Rabs c / (Rabs c + 1)) * (e * norm d))%R
      by (field; lra).
    rewrite <- (Rmult_1_l (e * norm d)) at 2. apply Rmult_le_compat_r.
    - apply Rmult_le_pos; lra.
    - apply (Rmult_le_reg_r (Rabs c + 1)); [lra|]. field_simplify; lra.
  Qed.

  Lemma neg1_R : neg1 o = (-1)%R.
  Proof. cbv [neg1]. change (sopp o (s1 o)) with (- 1)%R. lra. Qed.

  Ltac vec := vreduce (Rops eps0) vo HF HV;
    change (smul (Rops eps0)) with Rmult; change (sadd (Rops eps0)) with Rplus; change (s0 (Rops eps0)) with 0%R;
    change (s1 (Rops eps0)) with 1%R; change (sopp (Rops eps0)) with Ropp; change (sdiv (Rops eps0)) with Rdiv; try field.

  Lemma deriv_bdf1 (f : V -> V) (j : J) y_n h y :
    derivative vo norm f y (japp j) ->
    derivative vo norm (fun x => bdf1_R o vo y_n h (f x) x) y (japp (scheme_J o jo jid (s1 o) h j)).
  Proof.
    apply (derivative_comb _ _ _ _ (fun x => x) (- h)%R). intros d.
    cbv [scheme_J jminus bdf1_R vminus]. rewrite app_add, !app_scale, app_id, neg1_R. vec.
  Qed.
  Lemma deriv_bdf2 (f : V -> V) (j : J) y_n y_nm1 h y :
    derivative vo norm f y (japp j) ->
    derivative vo norm (fun x => bdf2_R o vo y_n y_nm1 h (f x) x) y
               (japp (scheme_J o jo jid (frac o 2 3) h j)).
  Proof.
    apply (derivative_comb _ _ _ _ (fun x => x) (- (frac o 2 3 * h))%R). intros d.
    cbv [scheme_J jminus bdf2_R vminus]. rewrite app_add, !app_scale, app_id, neg1_R.
    generalize (frac o 2 3) (frac o 4 3) (frac o 1 3). intros a b c. vec.
  Qed.
  Lemma deriv_cn (f : V -> V) (j : J) y_n f_n h y :
    derivative vo norm f y (japp j) ->
    derivative vo norm (fun x => cn_R o vo y_n f_n h (f x) x) y
               (japp (scheme_J o jo jid (frac o 1 2) h j)).
  Proof.
    apply (derivative_comb _ _ _ _ (fun x => x) (- (frac o 1 2 * h))%R). intros d.
    cbv [scheme_J jminus cn_R vminus]. rewrite app_add, !app_scale, app_id, neg1_R.
    generalize (frac o 1 2). intros a. vec.
  Qed.
  (** With a mass matrix that does not depend on the state. *)
  Hypothesis app_lin : forall M, linear vo vo (japp M).
  Lemma deriv_bdf1_mm (f : V -> V) (j M : J) y_n h y :
    derivative vo norm f y (japp j) ->
    derivative vo norm (fun x => bdf1_R_mm o vo japp y_n h M (f x) x) y
               (japp (scheme_J o jo M (s1 o) h j)).
  Proof.
    apply (derivative_comb _ _ _ _ (fun x => x) (- h)%R). intros d.
    cbv [scheme_J jminus bdf1_R_mm vminus]. rewrite app_add, !app_scale, neg1_R.
    rewrite !(lin_add _ _ _ (app_lin M)). vec.
  Qed.
  Lemma deriv_bdf2_mm (f : V -> V) (j M : J) y_n y_nm1 h y :
    derivative vo norm f y (japp j) ->
    derivative vo norm (fun x => bdf2_R_mm o vo japp y_n y_nm1 h M (f x) x) y
               (japp (scheme_J o jo M (frac o 2 3) h j)).
  Proof.
    apply (derivative_comb _ _ _ _ (fun x => x) (- (frac o 2 3 * h))%R). intros d.
    cbv [scheme_J jminus bdf2_R_mm vminus]. rewrite app_add, !app_scale, neg1_R.
    rewrite !(lin_add _ _ _ (app_lin M)).
    generalize (frac o 2 3) (frac o 4 3) (frac o 1 3). intros a b c. vec.
  Qed.
End Deriv.

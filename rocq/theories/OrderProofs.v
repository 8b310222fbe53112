(** C94: local errors of the schemes along smooth solutions. *)
From Coq Require Import Reals ZArith List Lra Lia.
From Verif Require Import Base RInst Laws LawInst ExplicitModel ExplicitSpec ImplicitModel ImplicitSpec StabilitySpec DissipSpec DissipProofs RomErrorRuns
  OrderSpec OrderCalculus OrderTrees.
Import ListNotations.
Local Open Scope R_scope.

(** ** Functions of one variable *)
Section Scalar.
  Variables (g g1 g2 g3 : R -> R) (lo hi K : R).
  Notation deriv a b := (forall t, lo <= t <= hi -> derivable_pt_lim a t (b t)).
  Lemma affine_lim a b a0 c s : derivable_pt_lim a (a0 + c * s) (b (a0 + c * s)) -> derivable_pt_lim (fun s => a (a0 + c * s)) s (c * b (a0 + c * s)).
  Proof.
    intros H. rewrite Rmult_comm. apply (derivable_pt_lim_comp (fun s => a0 + c * s) a s c); [|exact H].
    refine (eq_ind _ (derivable_pt_lim _ s) (derivable_pt_lim_plus (fct_cte a0) (mult_real_fct c id) s _ _ (derivable_pt_lim_const a0 s)
      (derivable_pt_lim_scal id c s 1 (derivable_pt_lim_id s))) _ _). ring.
  Qed.
  Lemma scal_lim a b c s : derivable_pt_lim a s b -> derivable_pt_lim (fun s => c * a s) s (c * b).
  Proof. apply derivable_pt_lim_scal. Qed.
  Lemma plus_lim a b a' b' s : derivable_pt_lim a s a' -> derivable_pt_lim b s b' -> derivable_pt_lim (fun s => a s + b s) s (a' + b').
  Proof. apply derivable_pt_lim_plus. Qed.
  Lemma minus_lim a b a' b' s : derivable_pt_lim a s a' -> derivable_pt_lim b s b' -> derivable_pt_lim (fun s => a s - b s) s (a' - b').
  Proof. apply derivable_pt_lim_minus. Qed.
  Lemma const_lim c s : derivable_pt_lim (fun _ => c) s 0.
  Proof. apply derivable_pt_lim_const. Qed.
  Lemma by_s_lim a b s : derivable_pt_lim a s b -> derivable_pt_lim (fun s => s * a s) s (a s + s * b).
  Proof. intros H. refine (eq_ind _ (derivable_pt_lim _ s) (derivable_pt_lim_mult id a s 1 b (derivable_pt_lim_id s) H) _ _). unfold id. ring. Qed.
  Lemma is_lim a s b c : derivable_pt_lim a s b -> b = c -> derivable_pt_lim a s c. Proof. intros H ->. exact H. Qed.
  (** |a(y) - a(x)| <= K (y - x) where |b| <= K *)
  Lemma incr a b x y : deriv a b -> (forall t, lo <= t <= hi -> Rabs (b t) <= K) -> lo <= x -> x <= y -> y <= hi -> Rabs (a y - a x) <= K * (y - x).
  Proof.
    intros Hd Hb Hx Hxy Hy. pose proof (compare (fun s => a (x + 1 * s) - a x) (fun s => 1 * b (x + 1 * s) - 0) (y - x) K 0 ltac:(lra)) as Q. cbv beta in Q.
    replace (x + 1 * (y - x)) with y in Q by ring. eapply Rle_trans; [apply Q|right; cbn; field].
    - intros s Hs. apply minus_lim; [|apply const_lim]. apply (affine_lim a b). apply Hd. lra.
    - replace (x + 1 * 0) with x by ring. ring.
    - intros s Hs. replace (1 * b (x + 1 * s) - 0) with (b (x + 1 * s)) by ring. cbn [pow]. rewrite Rmult_1_r. apply Hb. lra.
  Qed.
  Hypothesis D1 : deriv g g1.
  Hypothesis D2 : deriv g1 g2.
  Lemma scalar_euler t h : (forall t, lo <= t <= hi -> Rabs (g2 t) <= K) -> lo <= t -> 0 <= h -> t + h <= hi -> Rabs (g (t + h) - g t - h * g1 t) <= K / 2 * h ^ 2.
  Proof.
    intros HK Ht Hh He. pose proof (compare (fun s => g (t + 1 * s) - g t - s * g1 t) (fun s => 1 * g1 (t + 1 * s) - 0 - (g1 t + s * 0)) h K 1 Hh) as Q. cbv beta in Q.
    replace (t + 1 * h) with (t + h) in Q by ring. eapply Rle_trans; [apply Q|right; cbn; field].
    - intros s Hs. apply minus_lim; [apply minus_lim; [|apply const_lim]; apply (affine_lim g g1), D1; lra|apply (by_s_lim (fun _ => g1 t)), const_lim].
    - replace (t + 1 * 0) with t by ring. ring.
    - intros s Hs. replace (1 * g1 (t + 1 * s) - 0 - (g1 t + s * 0)) with (g1 (t + s) - g1 t) by (rewrite !Rmult_1_l; ring).
      eapply Rle_trans; [apply (incr g1 g2 t (t + s) D2 HK); lra|right; ring].
  Qed.
  Lemma scalar_backward t h : (forall t, lo <= t <= hi -> Rabs (g2 t) <= K) -> lo <= t -> 0 <= h -> t + h <= hi -> Rabs (g (t + h) - g t - h * g1 (t + h)) <= K / 2 * h ^ 2.
  Proof.
    intros HK Ht Hh He. pose proof (compare (fun s => g (t + h) - g ((t + h) + (-1) * s) - s * g1 (t + h)) (fun s => 0 - (-1) * g1 ((t + h) + (-1) * s) - (g1 (t + h) + s * 0)) h K 1 Hh) as Q. cbv beta in Q.
    replace (t + h + -1 * h) with t in Q by ring. eapply Rle_trans; [apply Q|right; cbn; field].
    - intros s Hs. apply minus_lim; [apply minus_lim; [apply const_lim|]; apply (affine_lim g g1), D1; lra|apply (by_s_lim (fun _ => g1 (t + h))), const_lim].
    - replace (t + h + -1 * 0) with (t + h) by ring. ring.
    - intros s Hs. replace (0 - -1 * g1 (t + h + -1 * s) - (g1 (t + h) + s * 0)) with (- (g1 (t + h) - g1 (t + h + -1 * s))) by ring. rewrite Rabs_Ropp.
      eapply Rle_trans; [apply (incr g1 g2 (t + h + -1 * s) (t + h) D2 HK); lra|right; ring].
  Qed.
  Hypothesis D3 : deriv g2 g3.
  Hypothesis HK : forall t, lo <= t <= hi -> Rabs (g3 t) <= K.
  Lemma K_pos : lo <= hi -> 0 <= K.
  Proof. intros H. eapply Rle_trans; [apply Rabs_pos|apply (HK lo); lra]. Qed.
  Lemma scalar_trapezoid t h : lo <= t -> 0 <= h -> t + h <= hi -> Rabs (g (t + h) - g t - 1 / 2 * h * (g1 t + g1 (t + h))) <= K / 12 * h ^ 3.
  Proof.
    intros Ht Hh He.
    assert (I : forall s, 0 <= s <= h -> Rabs (g1 (t + s) - g1 t - s * g2 (t + s)) <= K / 2 * s ^ 2).
    { intros x Hx. pose proof (compare (fun s => g1 (t + 1 * s) - g1 t - s * g2 (t + 1 * s)) (fun s => 1 * g2 (t + 1 * s) - 0 - (g2 (t + 1 * s) + s * (1 * g3 (t + 1 * s)))) x K 1 ltac:(lra)) as Q.
      cbv beta in Q. replace (t + 1 * x) with (t + x) in Q by ring. eapply Rle_trans; [apply Q|right; cbn; field].
      - intros s Hs. apply minus_lim; [apply minus_lim; [|apply const_lim]; apply (affine_lim g1 g2), D2; lra|]. apply (by_s_lim (fun s => g2 (t + 1 * s))), (affine_lim g2 g3), D3. lra.
      - replace (t + 1 * 0) with t by ring. ring.
      - intros s Hs. replace (1 * g2 (t + 1 * s) - 0 - (g2 (t + 1 * s) + s * (1 * g3 (t + 1 * s)))) with (- (s * g3 (t + 1 * s))) by ring.
        rewrite Rabs_Ropp, Rabs_mult, (Rabs_pos_eq s) by lra. cbn [pow]. rewrite Rmult_1_r, (Rmult_comm K). apply Rmult_le_compat_l; [lra|]. apply HK. lra. }
    pose proof (compare (fun s => g (t + 1 * s) - g t - s * (1 / 2 * (g1 t + g1 (t + 1 * s)))) (fun s => 1 * g1 (t + 1 * s) - 0 - (1 / 2 * (g1 t + g1 (t + 1 * s)) + s * (1 / 2 * (0 + 1 * g2 (t + 1 * s))))) h (K / 4) 2 Hh) as Q.
    cbv beta in Q. replace (t + 1 * h) with (t + h) in Q by ring.
    replace (1 / 2 * h * (g1 t + g1 (t + h))) with (h * (1 / 2 * (g1 t + g1 (t + h)))) by ring. eapply Rle_trans; [apply Q|right; cbn; field].
    - intros s Hs. apply minus_lim; [apply minus_lim; [|apply const_lim]; apply (affine_lim g g1), D1; lra|].
      apply (by_s_lim (fun s => 1 / 2 * (g1 t + g1 (t + 1 * s)))), (scal_lim (fun s => g1 t + g1 (t + 1 * s))), plus_lim; [apply const_lim|]. apply (affine_lim g1 g2), D2. lra.
    - replace (t + 1 * 0) with t by ring. ring.
    - intros s Hs. rewrite !Rmult_1_l. replace (g1 (t + s) - 0 - (1 / 2 * (g1 t + g1 (t + s)) + s * (1 / 2 * (0 + g2 (t + s))))) with (1 / 2 * (g1 (t + s) - g1 t - s * g2 (t + s))) by field.
      rewrite Rabs_mult, (Rabs_pos_eq (1 / 2)) by lra. specialize (I s Hs). lra.
  Qed.
  Lemma scalar_ab2 t h : lo <= t -> 0 <= h -> t + h + h <= hi ->
    Rabs (g (t + h + h) - g (t + h) - h * (3 / 2 * g1 (t + h) + - (1 / 2) * g1 t)) <= 5 / 12 * K * h ^ 3.
  Proof.
    intros Ht Hh He. set (m := t + h) in *.
    set (u1 := fun s => 1 * g1 (m + 1 * s) - 0 - ((3 / 2 * g1 m - 1 / 2 * g1 (m + (-1) * s)) + s * (0 - 1 / 2 * ((-1) * g2 (m + (-1) * s))))).
    assert (I : forall s, 0 <= s <= h -> Rabs (u1 s) <= 5 / 4 * K * s ^ 2).
    { intros x Hx. pose proof (compare u1 (fun s => 1 * (1 * g2 (m + 1 * s)) - 0 - ((0 - 1 / 2 * ((-1) * g2 (m + (-1) * s))) + ((0 - 1 / 2 * ((-1) * g2 (m + (-1) * s))) + s * (0 - 1 / 2 * ((-1) * ((-1) * g3 (m + (-1) * s)))))))
        x (5 / 2 * K) 1 ltac:(lra)) as Q. eapply Rle_trans; [apply Q|right; cbn; field].
      - intros s Hs. unfold u1. assert (L1 : derivable_pt_lim (fun s => g1 (m + -1 * s)) s (-1 * g2 (m + -1 * s))) by (apply (affine_lim g1 g2), D2; unfold m in *; lra).
        assert (L2 : derivable_pt_lim (fun s => g2 (m + -1 * s)) s (-1 * g3 (m + -1 * s))) by (apply (affine_lim g2 g3), D3; unfold m in *; lra).
        apply (minus_lim (fun s => 1 * g1 (m + 1 * s) - 0)).
        + apply (minus_lim (fun s => 1 * g1 (m + 1 * s))); [|apply const_lim]. apply (scal_lim (fun s => g1 (m + 1 * s))), (affine_lim g1 g2), D2. unfold m in *. lra.
        + apply (plus_lim (fun s => 3 / 2 * g1 m - 1 / 2 * g1 (m + -1 * s))).
          * apply (minus_lim (fun _ => 3 / 2 * g1 m)); [apply const_lim|]. apply (scal_lim (fun s => g1 (m + -1 * s))), L1.
          * apply (by_s_lim (fun s => 0 - 1 / 2 * (-1 * g2 (m + -1 * s)))). apply (minus_lim (fun _ => 0)); [apply const_lim|].
            apply (scal_lim (fun s => -1 * g2 (m + -1 * s))), (scal_lim (fun s => g2 (m + -1 * s))), L2.
      - unfold u1. replace (m + 1 * 0) with m by ring. replace (m + -1 * 0) with m by ring. field.
      - intros s Hs. match goal with |- Rabs ?e <= _ => replace e with ((g2 (m + 1 * s) - g2 (m + -1 * s)) + s * (1 / 2 * g3 (m + -1 * s))) by field end.
        eapply Rle_trans; [apply Rabs_triang|].
        pose proof (incr g2 g3 (m + -1 * s) (m + 1 * s) D3 HK ltac:(unfold m in *; lra) ltac:(lra) ltac:(unfold m in *; lra)) as J1.
        rewrite Rabs_mult, (Rabs_pos_eq s), (Rabs_mult (1 / 2)), (Rabs_pos_eq (1 / 2)) by lra.
        pose proof (HK (m + -1 * s) ltac:(unfold m in *; lra)) as J2. apply (Rmult_le_compat_l s) in J2; [|lra]. cbn [pow]. lra. }
    pose proof (compare (fun s => g (m + 1 * s) - g m - s * (3 / 2 * g1 m - 1 / 2 * g1 (m + (-1) * s))) u1 h (5 / 4 * K) 2 Hh) as Q. cbv beta in Q.
    replace (m + -1 * h) with t in Q by (unfold m; ring). replace (m + 1 * h) with (m + h) in Q by ring.
    replace (h * (3 / 2 * g1 m + - (1 / 2) * g1 t)) with (h * (3 / 2 * g1 m - 1 / 2 * g1 t)) by ring. eapply Rle_trans; [apply Q|right; cbn; field].
    - intros s Hs. unfold u1. assert (L1 : derivable_pt_lim (fun s => g1 (m + -1 * s)) s (-1 * g2 (m + -1 * s))) by (apply (affine_lim g1 g2), D2; unfold m in *; lra).
      apply (minus_lim (fun s => g (m + 1 * s) - g m)); [apply minus_lim; [|apply const_lim]; apply (affine_lim g g1), D1; unfold m in *; lra|].
      apply (by_s_lim (fun s => 3 / 2 * g1 m - 1 / 2 * g1 (m + -1 * s))), (minus_lim (fun _ => 3 / 2 * g1 m)); [apply const_lim|]. apply (scal_lim (fun s => g1 (m + -1 * s))), L1.
    - replace (m + 1 * 0) with m by ring. ring.
    - exact I.
  Qed.
  Lemma scalar_bdf2 t h : lo <= t -> 0 <= h -> t + h + h <= hi ->
    Rabs (g (t + h + h) - 4 / 3 * g (t + h) + 1 / 3 * g t - 2 / 3 * h * g1 (t + h + h)) <= 2 / 9 * K * h ^ 3.
  Proof.
    intros Ht Hh He. set (m := t + h + h) in *. replace (t + h) with (m + -1 * h) by (unfold m; ring). replace t with (m + -2 * h) at 1 by (unfold m; ring).
    set (u1 := fun s => 0 - 4 / 3 * (-1 * g1 (m + -1 * s)) + 1 / 3 * (-2 * g1 (m + -2 * s)) - (2 / 3 * g1 m + s * 0)).
    assert (I : forall s, 0 <= s <= h -> Rabs (u1 s) <= 2 / 3 * K * s ^ 2).
    { intros x Hx. pose proof (compare u1 (fun s => 0 - 4 / 3 * (-1 * (-1 * g2 (m + -1 * s))) + 1 / 3 * (-2 * (-2 * g2 (m + -2 * s))) - (0 + (0 + s * 0))) x (4 / 3 * K) 1 ltac:(lra)) as Q.
      eapply Rle_trans; [apply Q|right; cbn; field].
      - intros s Hs. unfold u1. apply (minus_lim (fun s => 0 - 4 / 3 * (-1 * g1 (m + -1 * s)) + 1 / 3 * (-2 * g1 (m + -2 * s)))).
        + apply (plus_lim (fun s => 0 - 4 / 3 * (-1 * g1 (m + -1 * s)))).
          * apply (minus_lim (fun _ => 0)); [apply const_lim|]. apply (scal_lim (fun s => -1 * g1 (m + -1 * s))), (scal_lim (fun s => g1 (m + -1 * s))), (affine_lim g1 g2), D2. unfold m in *; lra.
          * apply (scal_lim (fun s => -2 * g1 (m + -2 * s))), (scal_lim (fun s => g1 (m + -2 * s))), (affine_lim g1 g2), D2. unfold m in *; lra.
        + apply (plus_lim (fun _ => 2 / 3 * g1 m)); [apply const_lim|]. apply (by_s_lim (fun _ : R => 0)), const_lim.
      - unfold u1. replace (m + -1 * 0) with m by ring. replace (m + -2 * 0) with m by ring. field.
      - intros s Hs. match goal with |- Rabs ?e <= _ => replace e with (- (4 / 3) * (g2 (m + -1 * s) - g2 (m + -2 * s))) by field end.
        rewrite Rabs_mult, Rabs_Ropp, (Rabs_pos_eq (4 / 3)) by lra.
        pose proof (incr g2 g3 (m + -2 * s) (m + -1 * s) D3 HK ltac:(unfold m in *; lra) ltac:(lra) ltac:(unfold m in *; lra)) as J1. cbn [pow]. lra. }
    pose proof (compare (fun s => g m - 4 / 3 * g (m + -1 * s) + 1 / 3 * g (m + -2 * s) - s * (2 / 3 * g1 m)) u1 h (2 / 3 * K) 2 Hh) as Q. cbv beta in Q.
    replace (2 / 3 * h * g1 m) with (h * (2 / 3 * g1 m)) by ring. eapply Rle_trans; [apply Q|right; cbn; field].
    - intros s Hs. unfold u1. apply (minus_lim (fun s => g m - 4 / 3 * g (m + -1 * s) + 1 / 3 * g (m + -2 * s))).
      + apply (plus_lim (fun s => g m - 4 / 3 * g (m + -1 * s))).
        * apply (minus_lim (fun _ => g m)); [apply const_lim|]. apply (scal_lim (fun s => g (m + -1 * s))), (affine_lim g g1), D1. unfold m in *; lra.
        * apply (scal_lim (fun s => g (m + -2 * s))), (affine_lim g g1), D1. unfold m in *; lra.
      + apply (by_s_lim (fun _ => 2 / 3 * g1 m)), const_lim.
    - replace (m + -1 * 0) with m by ring. replace (m + -2 * 0) with m by ring. field.
    - exact I.
  Qed.
End Scalar.

(** ** Local errors *)
Section Local.
  Context {V : Type} (eps0 : R) (vo : vops R V) (ip : V -> V -> R).
  Notation o := (Rops eps0).
  Hypotheses (HV : vspace o vo) (HI : inner vo ip).
  Notation len := (length_of ip).
  Notation "a -- b" := (vminus o vo a b) (at level 50, left associativity).
  Notation "a ++ b" := (vadd vo a b).
  Notation "c ** a" := (vscale vo c a) (at level 40, left associativity).
  Variables (f : V -> R -> V) (sol : R -> V) (t0 T : R).
  Hypothesis Hs : solution ip f sol t0 T.
  Ltac vr := unfold vminus, neg1; vreduce (Rops eps0) vo (R_field eps0) HV; cbn.
  Lemma by_test r K : 0 <= K -> (forall w, Rabs (ip r w) <= K * len w) -> len r <= K.
  Proof.
    intros HK A. specialize (A r). pose proof (len_sq vo ip HI r) as Sq. pose proof (pos_len eps0 vo ip HV HI r). pose proof (Rle_abs (ip r r)). rewrite <- Sq in *.
    destruct (Req_dec (len r) 0) as [E|E]; [rewrite E; exact HK|]. apply Rmult_le_reg_r with (len r); lra.
  Qed.
  Lemma abs_ip x w M : len x <= M -> Rabs (ip x w) <= M * len w.
  Proof.
    intros H. pose proof (ip_le eps0 vo ip HI x w M H) as P1.
    pose proof (ip_le eps0 vo ip HI ((- (1)) ** x) w M) as P2. rewrite (scaled eps0 vo ip HV HI), Rabs_Ropp, Rabs_R1, Rmult_1_l, (ip_scale _ _ HI) in P2. specialize (P2 H).
    apply Rabs_le. lra.
  Qed.
  Ltac parts := unfold bdf1_R, bdf2_R, cn_R, frac; rewrite ?(ip_minus eps0 vo ip HI), ?(ip_add _ _ HI), ?(ip_scale _ _ HI), ?(ip_minus eps0 vo ip HI), ?(ip_add _ _ HI), ?(ip_scale _ _ HI).
  Section Second.
    Variable M : R.
    Hypothesis Hm : twice_smooth ip f sol t0 T M.
    Lemma M2_pos : 0 <= T -> 0 <= M.
    Proof. intros HT. destruct Hm as (y2 & _ & B). eapply Rle_trans; [apply (pos_len eps0 vo ip HV HI (y2 t0))|apply B; lra]. Qed.
    Lemma euler_local t h : t0 <= t -> 0 <= h -> t + h <= t0 + T -> len (sol (t + h) -- (sol t ++ h ** f (sol t) t)) <= M / 2 * h ^ 2.
    Proof.
      intros Ht Hh He. pose proof (M2_pos ltac:(lra)). destruct Hm as (y2 & d2 & B).
      apply by_test; [apply Rmult_le_pos; [lra|apply pow_le, Hh]|]. intros w. parts.
      replace (M / 2 * h ^ 2 * len w) with (M * len w / 2 * h ^ 2) by field.
      replace (ip (sol (t + h)) w - (ip (sol t) w + h * ip (f (sol t) t) w)) with (ip (sol (t + h)) w - ip (sol t) w - h * ip (f (sol t) t) w) by ring.
      apply (scalar_euler (fun s => ip (sol s) w) (fun s => ip (f (sol s) s) w) (fun s => ip (y2 s) w) t0 (t0 + T)); try assumption.
      - apply Hs.
      - apply d2.
      - intros s Hs'. apply abs_ip, B, Hs'.
    Qed.
    Lemma backward_local t t' : t0 <= t -> t <= t' -> t' <= t0 + T -> len (bdf1_R o vo (sol t) (t' - t) (f (sol t') t') (sol t')) <= M / 2 * (t' - t) ^ 2.
    Proof.
      intros Ht Hh He. pose proof (M2_pos ltac:(lra)). destruct Hm as (y2 & d2 & B).
      apply by_test; [apply Rmult_le_pos; [lra|apply pow_le; lra]|]. intros w. parts.
      replace (M / 2 * (t' - t) ^ 2 * len w) with (M * len w / 2 * (t' - t) ^ 2) by field.
      pose proof (scalar_backward (fun s => ip (sol s) w) (fun s => ip (f (sol s) s) w) (fun s => ip (y2 s) w) t0 (t0 + T) (M * len w)) as Q. cbv beta in Q.
      specialize (Q (Hs w) (d2 w) t (t' - t)). replace (t + (t' - t)) with t' in Q by ring. apply Q; try lra. intros s Hs'. apply abs_ip, B, Hs'.
    Qed.
  End Second.
  Section Third.
    Variable M : R.
    Hypothesis Hm : thrice_smooth ip f sol t0 T M.
    Lemma M3_pos : 0 <= T -> 0 <= M.
    Proof. intros HT. destruct Hm as (y2 & y3 & _ & _ & B). eapply Rle_trans; [apply (pos_len eps0 vo ip HV HI (y3 t0))|apply B; lra]. Qed.
    Lemma trapezoid_local t t' : t0 <= t -> t <= t' -> t' <= t0 + T ->
      len (cn_R o vo (sol t) (f (sol t) t) (t' - t) (f (sol t') t') (sol t')) <= M / 12 * (t' - t) ^ 3.
    Proof.
      intros Ht Hh He. pose proof (M3_pos ltac:(lra)). destruct Hm as (y2 & y3 & d2 & d3 & B).
      apply by_test; [apply Rmult_le_pos; [lra|apply pow_le; lra]|]. intros w. parts. cbn.
      replace (M / 12 * ((t' - t) * ((t' - t) * ((t' - t) * 1))) * len w) with (M * len w / 12 * (t' - t) ^ 3) by field.
      pose proof (scalar_trapezoid (fun s => ip (sol s) w) (fun s => ip (f (sol s) s) w) (fun s => ip (y2 s) w) (fun s => ip (y3 s) w) t0 (t0 + T) (M * len w)) as Q. cbv beta in Q.
      specialize (Q (Hs w) (d2 w) (d3 w)). specialize (Q (fun s Hs' => abs_ip _ w M (B s Hs')) t (t' - t)). replace (t + (t' - t)) with t' in Q by ring. apply Q; lra.
    Qed.
    Lemma ab2_local t h : t0 <= t -> 0 <= h -> t + h + h <= t0 + T ->
      len (sol (t + h + h) -- (sol (t + h) ++ h ** (3 / 2 ** f (sol (t + h)) (t + h) ++ - (1 / 2) ** f (sol t) t))) <= 5 / 12 * M * h ^ 3.
    Proof.
      intros Ht Hh He. pose proof (M3_pos ltac:(lra)). destruct Hm as (y2 & y3 & d2 & d3 & B).
      apply by_test; [apply Rmult_le_pos; [lra|apply pow_le, Hh]|]. intros w. parts.
      replace (5 / 12 * M * h ^ 3 * len w) with (5 / 12 * (M * len w) * h ^ 3) by field.
      match goal with |- Rabs ?e <= _ => replace e with (ip (sol (t + h + h)) w - ip (sol (t + h)) w - h * (3 / 2 * ip (f (sol (t + h)) (t + h)) w + - (1 / 2) * ip (f (sol t) t) w)) by ring end.
      apply (scalar_ab2 (fun s => ip (sol s) w) (fun s => ip (f (sol s) s) w) (fun s => ip (y2 s) w) (fun s => ip (y3 s) w) t0 (t0 + T) (M * len w) (Hs w) (d2 w) (d3 w)
        (fun s Hs' => abs_ip _ w M (B s Hs'))); assumption.
    Qed.
    Lemma bdf2_local t t' t'' : t0 <= t -> t <= t' -> t' - t = t'' - t' -> t'' <= t0 + T ->
      len (bdf2_R o vo (sol t') (sol t) (t'' - t') (f (sol t'') t'') (sol t'')) <= 2 / 9 * M * (t'' - t') ^ 3.
    Proof.
      intros Ht Hh Eh He. pose proof (M3_pos ltac:(lra)). destruct Hm as (y2 & y3 & d2 & d3 & B).
      apply by_test; [apply Rmult_le_pos; [lra|apply pow_le; lra]|]. intros w. parts. cbn.
      replace (2 / 9 * M * ((t'' - t') * ((t'' - t') * ((t'' - t') * 1))) * len w) with (2 / 9 * (M * len w) * (t'' - t') ^ 3) by field.
      pose proof (scalar_bdf2 (fun s => ip (sol s) w) (fun s => ip (f (sol s) s) w) (fun s => ip (y2 s) w) (fun s => ip (y3 s) w) t0 (t0 + T) (M * len w)) as Q. cbv beta in Q.
      specialize (Q (Hs w) (d2 w) (d3 w)). specialize (Q (fun s Hs' => abs_ip _ w M (B s Hs')) t (t'' - t')).
      replace (t + (t'' - t')) with t' in Q by lra. replace (t' + (t'' - t')) with t'' in Q by ring. eapply Rle_trans; [|apply Q; lra]. right. f_equal. field.
    Qed.
  End Third.
End Local.

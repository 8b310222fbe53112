(** C94: expansion of solutions and of the Runge-Kutta schemes, for autonomous equations p' = F(p). *)
From Coq Require Import Reals ZArith List Lra Lia.
From Verif Require Import Base RInst Laws LawInst ExplicitModel ImplicitModel ImplicitSpec DissipSpec DissipProofs RomErrorRuns OrderSpec OrderCalculus.
Import ListNotations.
Local Open Scope R_scope.

Section Field.
  Context {X : Type} (eps0 : R) (xo : vops R X) (ip : X -> X -> R).
  Notation o := (Rops eps0).
  Hypotheses (HX : vspace o xo) (HI : inner xo ip).
  Variables (t0 T : R).
  Hypothesis HT : 0 <= T.
  Notation len := (length_of ip).
  Notation "a -- b" := (vminus o xo a b) (at level 50, left associativity).
  Notation "a ++ b" := (vadd xo a b).
  Notation "c ** a" := (vscale xo c a) (at level 40, left associativity).
  Notation inside := (inside t0 T).
  Notation close := (close eps0 xo ip t0 T).
  Notation small := (small ip t0 T).
  Notation tame := (tame ip t0 T).
  Notation during t := (t0 <= t <= t0 + T).
  Ltac vr := unfold vminus, neg1; vreduce (Rops eps0) xo (R_field eps0) HX; cbn.
  Variables (F : X -> X) (p : R -> X) (B : R).
  Hypothesis HB : forall t, during t -> len (F (p t)) <= B.
  Hypothesis Hp : differentiates ip p (fun t => F (p t)) t0 T.
  Variables (D1 : R -> X -> X) (D2 : R -> X -> X -> X).
  Hypothesis L1 : forall t, during t -> linear xo xo (D1 t).
  Hypothesis L2 : forall t x, during t -> linear xo xo (D2 t x).
  Hypothesis S2 : forall t x y, during t -> D2 t x y = D2 t y x.
  Hypothesis B1 : forall t x, during t -> len (D1 t x) <= B * len x.
  Hypothesis B2 : forall t x y, during t -> len (D2 t x y) <= B * (len x * len y).
  Lemma bound_pos : 0 <= B.
  Proof. eapply Rle_trans; [apply (pos_len eps0 xo ip HX HI (F (p t0)))|]. apply HB. lra. Qed.
  Notation pl := (pos_len eps0 xo ip HX HI).
  Lemma D1_minus t x y : during t -> D1 t (x -- y) = D1 t x -- D1 t y.
  Proof. intros H. unfold vminus. rewrite (lin_add _ _ _ (L1 t H)), (lin_scale _ _ _ (L1 t H)). reflexivity. Qed.
  Lemma D2_minus t x y z : during t -> D2 t z (x -- y) = D2 t z x -- D2 t z y.
  Proof. intros H. unfold vminus. rewrite (lin_add _ _ _ (L2 t z H)), (lin_scale _ _ _ (L2 t z H)). reflexivity. Qed.
  Lemma D1_close m v v' : close m v v' -> close m (fun t h => D1 t (v t h)) (fun t h => D1 t (v' t h)).
  Proof.
    intros (C & HC & A). exists (B * C). split; [apply Rmult_le_pos; [apply bound_pos|exact HC]|]. intros t h H.
    pose proof (proj2 (inside_h t0 T t h H)) as Ht. rewrite <- D1_minus by exact Ht. eapply Rle_trans; [apply B1, Ht|]. rewrite Rmult_assoc.
    apply Rmult_le_compat_l; [apply bound_pos|apply A, H].
  Qed.
  Lemma D2_small m k v w : small m v -> small k w -> small (m + k) (fun t h => D2 t (v t h) (w t h)).
  Proof.
    intros (C & HC & A) (C' & HC' & A'). exists (B * (C * C')). split; [repeat apply Rmult_le_pos; [apply bound_pos|exact HC|exact HC']|]. intros t h H.
    pose proof (proj2 (inside_h t0 T t h H)) as Ht. eapply Rle_trans; [apply B2, Ht|]. rewrite Rmult_assoc. apply Rmult_le_compat_l; [apply bound_pos|].
    rewrite pow_add. replace (C * C' * (h ^ m * h ^ k)) with ((C * h ^ m) * (C' * h ^ k)) by ring. apply Rmult_le_compat; [apply pl|apply pl|apply A, H|apply A', H].
  Qed.
  Lemma D2_close m k v v' : close m v v' -> small k v -> small k v' -> close (m + k) (fun t h => D2 t (v t h) (v t h)) (fun t h => D2 t (v' t h) (v' t h)).
  Proof.
    intros A A1 A2. apply (small_ext ip t0 T _ (fun t h => D2 t (v t h -- v' t h) (v t h) ++ D2 t (v t h -- v' t h) (v' t h))).
    - intros t h H. pose proof (proj2 (inside_h t0 T t h H)) as Ht. rewrite !(S2 t (v t h -- v' t h)) by exact Ht. rewrite !D2_minus by exact Ht.
      rewrite (S2 t (v' t h) (v t h)) by exact Ht. vr; lra.
    - apply (small_add eps0 xo ip HX HI); apply D2_small; assumption.
  Qed.
  Lemma tame_1 a : tame a -> tame (fun t => D1 t (a t)).
  Proof.
    intros (C & HC & A). exists (B * C). split; [apply Rmult_le_pos; [apply bound_pos|exact HC]|]. intros t H.
    eapply Rle_trans; [apply B1, H|]. apply Rmult_le_compat_l; [apply bound_pos|apply A, H].
  Qed.
  Lemma tame_2 a b : tame a -> tame b -> tame (fun t => D2 t (a t) (b t)).
  Proof.
    intros (C & HC & A) (C' & HC' & A'). exists (B * (C * C')). split; [repeat apply Rmult_le_pos; [apply bound_pos|exact HC|exact HC']|]. intros t H.
    eapply Rle_trans; [apply B2, H|]. apply Rmult_le_compat_l; [apply bound_pos|]. apply Rmult_le_compat; [apply pl|apply pl|apply A, H|apply A', H].
  Qed.
  (** elementary differentials *)
  Definition da t := F (p t).
  Definition db t := D1 t (da t).
  Definition dc t := D2 t (da t) (da t).
  Definition de t := D1 t (db t).
  Lemma tame_a : tame da. Proof. exists B. split; [apply bound_pos|exact HB]. Qed.
  Lemma tame_b : tame db. Proof. apply tame_1, tame_a. Qed.
  Lemma tame_c : tame dc. Proof. apply tame_2; apply tame_a. Qed.
  Lemma tame_e : tame de. Proof. apply tame_1, tame_b. Qed.
  (** Taylor's formula *)
  Hypothesis Htay : forall v, small 1 v -> close 3 (fun t h => F (p t ++ v t h)) (fun t h => (F (p t) ++ D1 t (v t h)) ++ 1 / 2 ** D2 t (v t h) (v t h)).
  Lemma term k c a : tame a -> small k (fun t h => (c * h ^ k) ** a t).
  Proof.
    intros A. apply (small_ext ip t0 T _ (fun t h => h ^ k ** (c ** a t))); [intros t h _; vr; ring|].
    apply (small_tame eps0 xo ip HX HI t0 T k (fun t => c ** a t)). apply (tame_scale eps0 xo ip HX HI), A.
  Qed.
  Lemma small_1 m v c z : close m v (fun t h => (c * h ^ 1) ** da t ++ h ^ 2 ** z t) -> tame z -> (1 <= m)%nat -> small 1 v.
  Proof.
    intros A Hz Hm. eapply (small_close eps0 xo ip HX HI); [eapply (close_weaken eps0 xo ip t0 T HT m 1); [exact Hm|exact A]|].
    apply (small_add eps0 xo ip HX HI); [apply term, tame_a|]. apply (small_weaken ip t0 T HT 2 1); [lia|]. apply (small_tame eps0 xo ip HX HI t0 T 2), Hz.
  Qed.
  Notation csame := (close_same eps0 xo ip HX HI t0 T).
  Notation ctrans := (close_trans eps0 xo ip HX HI t0 T).
  Notation cadd := (close_add eps0 xo ip HX HI t0 T).
  Notation cscale := (close_scale eps0 xo ip HX HI t0 T).
  Notation cdrop := (close_drop eps0 xo ip HX HI t0 T HT).
  Notation cweak := (close_weaken eps0 xo ip t0 T HT).
  (** F along a curve, up to third order ... *)
  Lemma expand_2 v c1 c2 : close 3 v (fun t h => (c1 * h ^ 1) ** da t ++ h ^ 2 ** (c2 ** db t)) ->
    close 3 (fun t h => F (p t ++ v t h))
      (fun t h => (da t ++ (c1 * h) ** db t) ++ h ^ 2 ** (c2 ** de t ++ (c1 * c1 / 2) ** dc t)).
  Proof.
    intros A. assert (Hz : tame (fun t => c2 ** db t)) by apply (tame_scale eps0 xo ip HX HI), tame_b.
    assert (Hs : small 1 v) by (eapply small_1; [exact A|exact Hz|lia]).
    eapply ctrans; [apply Htay, Hs|].
    eapply ctrans; [apply cadd; [apply cadd; [apply csame; intros; reflexivity|apply (D1_close 3), A]|
      apply cscale; eapply (D2_close 2 1); [eapply ctrans; [apply (cweak 3 2); [lia|exact A]|apply (cdrop 2 2 _ (fun t h => (c1 * h ^ 1) ** da t) _ (le_n _) Hz); intros; reflexivity]|exact Hs|apply term, tame_a]]|].
    apply csame. intros t h H. pose proof (proj2 (inside_h t0 T t h H)) as Ht. cbv beta.
    rewrite (lin_add _ _ _ (L1 t Ht)), !(lin_scale _ _ _ (L1 t Ht)), (lin_scale _ _ _ (L2 t _ Ht)), (S2 t _ (da t) Ht), (lin_scale _ _ _ (L2 t _ Ht)).
    fold (db t) (de t). fold (dc t). fold (da t). vr; field.
  Qed.
  (** ... second order ... *)
  Lemma expand_1 v c1 : close 2 v (fun t h => (c1 * h ^ 1) ** da t) -> close 2 (fun t h => F (p t ++ v t h)) (fun t h => da t ++ (c1 * h) ** db t).
  Proof.
    intros A. assert (Hz : tame (fun t => 0 ** da t)) by apply (tame_scale eps0 xo ip HX HI), tame_a.
    assert (Hs : small 1 v) by (apply (small_1 2 v c1 (fun t => 0 ** da t)); [eapply ctrans; [exact A|apply csame; intros; vr; ring]|exact Hz|lia]).
    eapply ctrans; [apply (cweak 3 2); [lia|apply Htay, Hs]|].
    eapply ctrans; [apply cadd; [apply cadd; [apply csame; intros; reflexivity|apply (D1_close 2), A]|
      apply (close_small eps0 xo ip t0 T 2 _ (fun t h => 0 ** da t)); apply (small_ext ip t0 T 2 (fun t h => 1 / 2 ** D2 t (v t h) (v t h))); [intros; vr; ring|
        apply (small_scale eps0 xo ip HX HI), (D2_small 1 1); exact Hs]]|].
    apply csame. intros t h H. pose proof (proj2 (inside_h t0 T t h H)) as Ht. cbv beta. rewrite (lin_scale _ _ _ (L1 t Ht)). fold (db t). fold (da t). vr; ring.
  Qed.
  (** ... and first *)
  Lemma expand_0 v : small 1 v -> close 1 (fun t h => F (p t ++ v t h)) (fun t h => da t).
  Proof.
    intros Hs. eapply ctrans; [apply (cweak 3 1); [lia|apply Htay, Hs]|].
    apply (small_ext ip t0 T 1 (fun t h => D1 t (v t h) ++ 1 / 2 ** D2 t (v t h) (v t h))); [intros; unfold da; vr; ring|].
    apply (small_add eps0 xo ip HX HI).
    - destruct Hs as (C & HC & A). exists (B * C). split; [apply Rmult_le_pos; [apply bound_pos|exact HC]|]. intros t h H.
      eapply Rle_trans; [apply B1, (inside_h t0 T t h H)|]. rewrite Rmult_assoc. apply Rmult_le_compat_l; [apply bound_pos|apply A, H].
    - apply (small_weaken ip t0 T HT 2 1); [lia|]. apply (small_scale eps0 xo ip HX HI), (D2_small 1 1); exact Hs.
  Qed.
  (** ** The solution *)
  Definition step_of t h := p (t + h) -- p t.
  Lemma after t h : p t ++ step_of t h = p (t + h).
  Proof. unfold step_of. vr; ring. Qed.
  Lemma shift_lim g t s l : derivable_pt_lim g (t + s) l -> derivable_pt_lim (fun s => g (t + s)) s l.
  Proof.
    intros H. refine (eq_ind _ (derivable_pt_lim _ s) (derivable_pt_lim_comp (fun s => t + s) g s 1 l _ H) _ _); [|ring].
    refine (eq_ind _ (derivable_pt_lim _ s) (derivable_pt_lim_plus (fct_cte t) id s _ _ (derivable_pt_lim_const t s) (derivable_pt_lim_id s)) _ _). ring.
  Qed.
  Lemma poly_lim k c s : derivable_pt_lim (fun s => s ^ S k * (c / INR (S k))) s (s ^ k * c).
  Proof.
    apply (derivable_pt_lim_ext (mult_real_fct (c / INR (S k)) (fun s => s ^ S k))); [intros u; unfold mult_real_fct; ring|].
    refine (eq_ind _ (derivable_pt_lim _ s) (derivable_pt_lim_scal _ (c / INR (S k)) s _ (derivable_pt_lim_pow s (S k))) _ _).
    cbn [Nat.pred]. field. apply not_0_INR. lia.
  Qed.
  Lemma integrate m q0 q1 q2 q3 :
    close m (fun t h => F (p (t + h))) (fun t h => ((h ^ 0 ** q0 t ++ h ^ 1 ** q1 t) ++ h ^ 2 ** q2 t) ++ h ^ 3 ** q3 t) ->
    close (S m) step_of (fun t h => ((h ^ 1 ** q0 t ++ (h ^ 2 * (1 / 2)) ** q1 t) ++ (h ^ 3 * (1 / 3)) ** q2 t) ++ (h ^ 4 * (1 / 4)) ** q3 t).
  Proof.
    intros (C & HC & A). assert (Hm : 0 < INR (S m)) by (apply lt_0_INR; lia).
    exists (C / INR (S m)). split; [apply Rmult_le_pos; [exact HC|left; apply Rinv_0_lt_compat, Hm]|]. intros t h H. cbv beta.
    set (q := fun s => ((s ^ 0 ** q0 t ++ s ^ 1 ** q1 t) ++ s ^ 2 ** q2 t) ++ s ^ 3 ** q3 t).
    set (Q := fun s => ((s ^ 1 ** q0 t ++ (s ^ 2 * (1 / 2)) ** q1 t) ++ (s ^ 3 * (1 / 3)) ** q2 t) ++ (s ^ 4 * (1 / 4)) ** q3 t).
    change (len (step_of t h -- Q h) <= C / INR (S m) * h ^ S m). set (r := step_of t h -- Q h).
    assert (K : Rabs (ip (step_of t h -- Q h) r) <= C * len r / INR (S m) * h ^ S m).
    { apply (compare (fun s => ip (step_of t s -- Q s) r) (fun s => ip (F (p (t + s)) -- q s) r) h (C * len r) m).
      - apply H.
      - intros s Hs. apply (derivable_pt_lim_ext (fun s => (ip (p (t + s)) r - ip (p t) r) -
          (s ^ 1 * (ip (q0 t) r / INR 1) + s ^ 2 * (ip (q1 t) r / INR 2) + s ^ 3 * (ip (q2 t) r / INR 3) + s ^ 4 * (ip (q3 t) r / INR 4)))).
        + intros u. unfold step_of, Q. rewrite !(ip_minus eps0 xo ip HI), !(ip_add _ _ HI), !(ip_scale _ _ HI). cbn [INR]. field.
        + unfold q. rewrite (ip_minus eps0 xo ip HI), !(ip_add _ _ HI), !(ip_scale _ _ HI).
          replace (ip (F (p (t + s))) r) with (ip (F (p (t + s))) r - 0) by ring.
          apply (derivable_pt_lim_minus (fun s => ip (p (t + s)) r - ip (p t) r)).
          * apply (derivable_pt_lim_minus (fun s => ip (p (t + s)) r) (fct_cte (ip (p t) r))); [|apply derivable_pt_lim_const].
            apply (shift_lim (fun s => ip (p s) r)). apply Hp. destruct H as (? & ? & ?). lra.
          * refine (derivable_pt_lim_plus _ _ s _ _ _ (poly_lim 3 _ s)). refine (derivable_pt_lim_plus _ _ s _ _ _ (poly_lim 2 _ s)).
            exact (derivable_pt_lim_plus _ _ s _ _ (poly_lim 0 _ s) (poly_lim 1 _ s)).
      - rewrite (ip_minus eps0 xo ip HI). unfold step_of, Q. rewrite Rplus_0_r. rewrite (ip_minus eps0 xo ip HI), !(ip_add _ _ HI), !(ip_scale _ _ HI). cbn [pow]. ring.
      - intros s Hs. assert (Hi : inside t s) by (destruct H as (? & ? & ?); repeat split; lra).
        pose proof (A t s Hi) as As. cbv beta in As. fold (q s) in As.
        set (z := F (p (t + s)) -- q s) in *.
        assert (P1 : ip z r <= C * s ^ m * len r) by (apply (ip_le eps0 xo ip HI); exact As).
        assert (P2 : - ip z r <= C * s ^ m * len r).
        { replace (- ip z r) with (ip ((- (1)) ** z) r) by (rewrite (ip_scale _ _ HI); ring). apply (ip_le eps0 xo ip HI).
          rewrite (scaled eps0 xo ip HX HI). replace (Rabs (- (1))) with 1; [lra|]. rewrite Rabs_Ropp, Rabs_R1. reflexivity. }
        apply Rabs_le. replace (C * len r * s ^ m) with (C * s ^ m * len r) by ring. lra. }
    fold r in K. pose proof (len_sq xo ip HI r) as Sq. pose proof (pl r) as Pr. pose proof (Rle_abs (ip r r)) as Ab. rewrite <- Sq in Ab, K.
    destruct (Req_dec (len r) 0) as [E0|E0].
    - rewrite E0. apply Rmult_le_pos; [apply Rmult_le_pos; [exact HC|left; apply Rinv_0_lt_compat, Hm]|apply pow_le, H].
    - apply Rmult_le_reg_r with (len r); [lra|].
      replace (C / INR (S m) * h ^ S m * len r) with (C * len r / INR (S m) * h ^ S m) by (field; lra). lra.
  Qed.
  Let zero (t : R) : X := 0 ** da t.
  Lemma solution_1 : small 1 step_of.
  Proof.
    eapply (small_close eps0 xo ip HX HI); [apply (integrate 0 zero zero zero zero)|].
    - apply (small_ext ip t0 T 0 (fun t h => F (p (t + h)))); [intros; unfold zero, da; vr; ring|]. exists B. split; [apply bound_pos|].
      intros t h H. cbn. rewrite Rmult_1_r. apply HB. destruct H as (? & ? & ?). lra.
    - apply (small_ext ip t0 T 1 (fun t h => (0 * h ^ 1) ** da t)); [intros; unfold zero; vr; ring|apply term, tame_a].
  Qed.
  Lemma along m a : close m (fun t h => F (p t ++ step_of t h)) a -> close m (fun t h => F (p (t + h))) a.
  Proof. intros A. eapply ctrans; [|exact A]. apply csame. intros t h _. rewrite after. reflexivity. Qed.
  Lemma solution_2 : close 2 step_of (fun t h => (1 * h ^ 1) ** da t).
  Proof.
    eapply ctrans; [apply (integrate 1 da zero zero zero)|apply csame; intros; unfold zero; vr; ring].
    eapply ctrans; [apply along, expand_0, solution_1|]. apply csame; intros; unfold zero; vr; ring.
  Qed.
  Lemma solution_3 : close 3 step_of (fun t h => (1 * h ^ 1) ** da t ++ h ^ 2 ** (1 / 2 ** db t)).
  Proof.
    eapply ctrans; [apply (integrate 2 da db zero zero)|apply csame; intros; unfold zero; vr; field].
    eapply ctrans; [apply along, (expand_1 _ 1), solution_2|]. apply csame; intros; unfold zero; vr; ring.
  Qed.
  Lemma solution_4 : close 4 step_of (fun t h => ((1 * h ^ 1) ** da t ++ h ^ 2 ** (1 / 2 ** db t)) ++ h ^ 3 ** (1 / 6 ** (de t ++ dc t))).
  Proof.
    eapply ctrans; [apply (integrate 3 da db (fun t => 1 / 2 ** (de t ++ dc t)) zero)|apply csame; intros; unfold zero; vr; field].
    eapply ctrans; [apply along, (expand_2 _ 1 (1 / 2)), solution_3|]. apply csame; intros; unfold zero; vr; field.
  Qed.
  (** ** The three stage scheme *)
  Definition k1 (t h : R) := F (p t).
  Definition ssp2 t h := F (p t ++ h ** k1 t h).
  Definition ssp3 t h := F (p t ++ h ** (1 / 4 ** (k1 t h ++ ssp2 t h))).
  Definition ssp t h := p t ++ h ** ((1 / 6 ** k1 t h ++ 1 / 6 ** ssp2 t h) ++ 2 / 3 ** ssp3 t h).
  Lemma ssp2_is : close 3 ssp2 (fun t h => (da t ++ (1 * h) ** db t) ++ h ^ 2 ** (0 ** de t ++ (1 * 1 / 2) ** dc t)).
  Proof. apply expand_2. apply csame. intros. unfold k1. fold (da t). vr; ring. Qed.
  Lemma ssp3_is : close 3 ssp3 (fun t h => (da t ++ (1 / 2 * h) ** db t) ++ h ^ 2 ** (1 / 4 ** de t ++ (1 / 2 * (1 / 2) / 2) ** dc t)).
  Proof.
    apply expand_2. eapply ctrans; [|apply (csame 3 (fun t h => h ^ 1 ** (1 / 4 ** (da t ++ (da t ++ (1 * h) ** db t))))); intros; vr; field].
    eapply ctrans; [apply (csame 3 _ (fun t h => h ^ 1 ** (1 / 4 ** (k1 t h ++ ssp2 t h)))); intros; vr; ring|].
    apply (close_h eps0 xo ip HX HI t0 T 2 1). apply cscale, cadd; [apply csame; reflexivity|].
    eapply ctrans; [apply (cweak 3 2); [lia|apply ssp2_is]|].
    apply (cdrop 2 2 _ _ (fun t => 0 ** de t ++ (1 * 1 / 2) ** dc t)); [lia| |intros; reflexivity].
    apply (tame_add eps0 xo ip HX HI); apply (tame_scale eps0 xo ip HX HI); [apply tame_e|apply tame_c].
  Qed.
  Lemma ssp_order : close 4 (fun t h => p (t + h)) ssp.
  Proof.
    eapply ctrans; [apply (csame 4 _ (fun t h => p t ++ step_of t h)); intros; rewrite after; reflexivity|].
    apply cadd; [apply csame; reflexivity|]. eapply ctrans; [apply solution_4|]. apply (close_sym eps0 xo ip HX HI).
    eapply ctrans; [apply (csame 4 _ (fun t h => h ^ 1 ** ((1 / 6 ** k1 t h ++ 1 / 6 ** ssp2 t h) ++ 2 / 3 ** ssp3 t h))); intros; vr; ring|].
    eapply ctrans; [apply (close_h eps0 xo ip HX HI t0 T 3 1); apply cadd; [apply cadd; [apply csame; reflexivity|apply cscale, ssp2_is]|apply cscale, ssp3_is]|].
    apply csame. intros. unfold k1. fold (da t). vr; field.
  Qed.
  (** ** Fourth order *)
  Variable D3 : R -> X -> X -> X -> X.
  Hypothesis L3 : forall t x y, during t -> linear xo xo (D3 t x y).
  Hypothesis S3 : forall t x y z, during t -> D3 t x y z = D3 t y x z.
  Hypothesis S3' : forall t x y z, during t -> D3 t x y z = D3 t x z y.
  Hypothesis B3 : forall t x y z, during t -> len (D3 t x y z) <= B * (len x * len y * len z).
  Lemma D3_minus t x y z z' : during t -> D3 t z z' (x -- y) = D3 t z z' x -- D3 t z z' y.
  Proof. intros H. unfold vminus. rewrite (lin_add _ _ _ (L3 t z z' H)), (lin_scale _ _ _ (L3 t z z' H)). reflexivity. Qed.
  Lemma D3_small m k l u v w : small m u -> small k v -> small l w -> small (m + k + l) (fun t h => D3 t (u t h) (v t h) (w t h)).
  Proof.
    intros (C & HC & A) (C' & HC' & A') (C2 & HC2 & A2). exists (B * (C * C' * C2)).
    split; [apply Rmult_le_pos; [apply bound_pos|]; repeat apply Rmult_le_pos; assumption|]. intros t h H.
    pose proof (proj2 (inside_h t0 T t h H)) as Ht. eapply Rle_trans; [apply B3, Ht|]. rewrite (Rmult_assoc B (C * C' * C2)). apply Rmult_le_compat_l; [apply bound_pos|].
    rewrite !pow_add. replace (C * C' * C2 * (h ^ m * h ^ k * h ^ l)) with ((C * h ^ m) * (C' * h ^ k) * (C2 * h ^ l)) by ring.
    apply Rmult_le_compat; [apply Rmult_le_pos; apply pl|apply pl| |apply A2, H]. apply Rmult_le_compat; [apply pl|apply pl|apply A, H|apply A', H].
  Qed.
  Lemma D3_close m k v w : close m v w -> small k v -> small k w ->
    close (k + k + m) (fun t h => D3 t (v t h) (v t h) (v t h)) (fun t h => D3 t (w t h) (w t h) (w t h)).
  Proof.
    intros A A1 A2. apply (small_ext ip t0 T _ (fun t h => (D3 t (v t h) (v t h) (v t h -- w t h) ++ D3 t (v t h) (w t h) (v t h -- w t h)) ++ D3 t (w t h) (w t h) (v t h -- w t h))).
    - intros t h H. pose proof (proj2 (inside_h t0 T t h H)) as Ht. rewrite !D3_minus by exact Ht.
      rewrite (S3' t (v t h) (v t h) (w t h)) by exact Ht. rewrite (S3 t (v t h) (w t h) (w t h)) by exact Ht. rewrite (S3' t (w t h) (v t h) (w t h)) by exact Ht. vr; lra.
    - apply (small_add eps0 xo ip HX HI); [apply (small_add eps0 xo ip HX HI)|]; apply D3_small; assumption.
  Qed.
  Lemma tame_3 a b c : tame a -> tame b -> tame c -> tame (fun t => D3 t (a t) (b t) (c t)).
  Proof.
    intros (C & HC & A) (C' & HC' & A') (C2 & HC2 & A2). exists (B * (C * C' * C2)).
    split; [apply Rmult_le_pos; [apply bound_pos|]; repeat apply Rmult_le_pos; assumption|]. intros t H.
    eapply Rle_trans; [apply B3, H|]. apply Rmult_le_compat_l; [apply bound_pos|].
    apply Rmult_le_compat; [apply Rmult_le_pos; apply pl|apply pl| |apply A2, H]. apply Rmult_le_compat; [apply pl|apply pl|apply A, H|apply A', H].
  Qed.
  Definition dd t := D3 t (da t) (da t) (da t).
  Definition dg t := D2 t (da t) (db t).
  Definition dq t := D1 t (dc t).
  Definition dr t := D1 t (de t).
  Lemma tame_d : tame dd. Proof. apply tame_3; apply tame_a. Qed.
  Lemma tame_g : tame dg. Proof. apply tame_2; [apply tame_a|apply tame_b]. Qed.
  Hypothesis Htay4 : forall v, small 1 v -> close 4 (fun t h => F (p t ++ v t h))
    (fun t h => ((F (p t) ++ D1 t (v t h)) ++ 1 / 2 ** D2 t (v t h) (v t h)) ++ 1 / 6 ** D3 t (v t h) (v t h) (v t h)).
  Lemma expand_3 v c1 c2 z : tame z -> close 4 v (fun t h => ((c1 * h ^ 1) ** da t ++ h ^ 2 ** (c2 ** db t)) ++ h ^ 3 ** z t) ->
    close 4 (fun t h => F (p t ++ v t h))
      (fun t h => ((da t ++ (c1 * h) ** db t) ++ h ^ 2 ** (c2 ** de t ++ (c1 * c1 / 2) ** dc t)) ++ h ^ 3 ** ((D1 t (z t) ++ (c1 * c2) ** dg t) ++ (c1 * c1 * c1 / 6) ** dd t)).
  Proof.
    intros Tz A. assert (Hz : tame (fun t => c2 ** db t)) by apply (tame_scale eps0 xo ip HX HI), tame_b.
    assert (A3 : close 3 v (fun t h => (c1 * h ^ 1) ** da t ++ h ^ 2 ** (c2 ** db t)))
      by (eapply ctrans; [apply (cweak 4 3); [lia|exact A]|apply (cdrop 3 3 _ _ z (le_n _) Tz); intros; reflexivity]).
    assert (A2 : close 2 v (fun t h => (c1 * h ^ 1) ** da t))
      by (eapply ctrans; [apply (cweak 3 2); [lia|exact A3]|apply (cdrop 2 2 _ _ _ (le_n _) Hz); intros; reflexivity]).
    assert (Hs : small 1 v) by (eapply small_1; [exact A3|exact Hz|lia]).
    assert (Hp1 : small 1 (fun t h => (c1 * h ^ 1) ** da t)) by apply term, tame_a.
    assert (Hp2 : small 1 (fun t h => (c1 * h ^ 1) ** da t ++ h ^ 2 ** (c2 ** db t)))
      by (apply (small_add eps0 xo ip HX HI); [exact Hp1|apply (small_weaken ip t0 T HT 2 1); [lia|apply (small_tame eps0 xo ip HX HI t0 T 2), Hz]]).
    eapply ctrans; [apply Htay4, Hs|].
    eapply ctrans; [apply cadd; [apply cadd; [apply cadd; [apply csame; intros; reflexivity|apply (D1_close 4), A]|
      apply cscale; apply (D2_close 3 1); [exact A3|exact Hs|exact Hp2]]|apply cscale; apply (D3_close 2 1); [exact A2|exact Hs|exact Hp1]]|].
    apply (cdrop 4 4 _ _ (fun t => (c2 * c2 / 2) ** D2 t (db t) (db t)) (le_n _)).
    - apply (tame_scale eps0 xo ip HX HI), tame_2; apply tame_b.
    - intros t h H. pose proof (proj2 (inside_h t0 T t h H)) as Ht. cbv beta.
      rewrite (lin_add _ _ _ (L1 t Ht)), (lin_add _ _ _ (L1 t Ht)), !(lin_scale _ _ _ (L1 t Ht)).
      rewrite (lin_add _ _ _ (L2 t _ Ht)), !(lin_scale _ _ _ (L2 t _ Ht)), (S2 t _ (da t) Ht), (S2 t _ (db t) Ht).
      rewrite (lin_add _ _ _ (L2 t _ Ht)), (lin_add _ _ _ (L2 t _ Ht)), !(lin_scale _ _ _ (L2 t _ Ht)), (S2 t (db t) (da t) Ht).
      rewrite (lin_scale _ _ _ (L3 t _ _ Ht)), (S3' t _ _ (da t) Ht), (lin_scale _ _ _ (L3 t _ _ Ht)), (S3 t _ (da t) _ Ht), (S3' t _ _ (da t) Ht), (lin_scale _ _ _ (L3 t _ _ Ht)).
      fold (db t) (de t) (dg t). fold (dc t). fold (dd t). fold (da t). vr; field.
  Qed.
  Lemma solution_5 : close 5 step_of (fun t h => (((1 * h ^ 1) ** da t ++ h ^ 2 ** (1 / 2 ** db t)) ++ h ^ 3 ** (1 / 6 ** (de t ++ dc t)))
    ++ (h ^ 4 * (1 / 24)) ** (((dr t ++ dq t) ++ 3 ** dg t) ++ dd t)).
  Proof.
    eapply ctrans; [apply (integrate 4 da db (fun t => 1 / 2 ** (de t ++ dc t)) (fun t => 1 / 6 ** (((dr t ++ dq t) ++ 3 ** dg t) ++ dd t)))|
      apply csame; intros; vr; field].
    eapply ctrans; [apply along, (expand_3 _ 1 (1 / 2) (fun t => 1 / 6 ** (de t ++ dc t))); [|apply solution_4]|].
    - apply (tame_scale eps0 xo ip HX HI), (tame_add eps0 xo ip HX HI); [apply tame_e|apply tame_c].
    - apply csame. intros t h H. pose proof (proj2 (inside_h t0 T t h H)) as Ht. rewrite (lin_scale _ _ _ (L1 t Ht)), (lin_add _ _ _ (L1 t Ht)). fold (dr t) (dq t). vr; field.
  Qed.
  (** ** The four stage scheme *)
  Definition rk2 t h := F (p t ++ h ** (1 / 2 ** k1 t h)).
  Definition rk3 t h := F (p t ++ h ** (1 / 2 ** rk2 t h)).
  Definition rk4 t h := F (p t ++ h ** rk3 t h).
  Definition rk t h := p t ++ h ** (((1 / 6 ** k1 t h ++ 1 / 3 ** rk2 t h) ++ 1 / 3 ** rk3 t h) ++ 1 / 6 ** rk4 t h).
  Lemma drop_3 v w z : tame z -> close 4 v (fun t h => w t h ++ h ^ 3 ** z t) -> close 3 v w.
  Proof. intros Hz A. eapply ctrans; [apply (cweak 4 3); [lia|exact A]|]. apply (cdrop 3 3 _ _ z (le_n _) Hz). intros; reflexivity. Qed.
  Lemma rk2_is : close 4 rk2 (fun t h => ((da t ++ (1 / 2 * h) ** db t) ++ h ^ 2 ** (0 ** de t ++ (1 / 2 * (1 / 2) / 2) ** dc t)) ++ h ^ 3 ** (1 / 48 ** dd t)).
  Proof.
    eapply ctrans; [apply (expand_3 _ (1 / 2) 0 (fun t => 0 ** da t))|].
    - apply (tame_scale eps0 xo ip HX HI), tame_a.
    - apply csame. intros. unfold k1. fold (da t). vr; field.
    - apply csame. intros t h H. pose proof (proj2 (inside_h t0 T t h H)) as Ht. rewrite (lin_scale _ _ _ (L1 t Ht)). fold (db t). vr; field.
  Qed.
  Lemma rk3_is : close 4 rk3 (fun t h => ((da t ++ (1 / 2 * h) ** db t) ++ h ^ 2 ** (1 / 4 ** de t ++ (1 / 2 * (1 / 2) / 2) ** dc t))
    ++ h ^ 3 ** ((1 / 16 ** dq t ++ 1 / 8 ** dg t) ++ 1 / 48 ** dd t)).
  Proof.
    eapply ctrans; [apply (expand_3 _ (1 / 2) (1 / 4) (fun t => 1 / 16 ** dc t))|].
    - apply (tame_scale eps0 xo ip HX HI), tame_c.
    - eapply ctrans; [apply (csame 4 _ (fun t h => h ^ 1 ** (1 / 2 ** rk2 t h))); intros; vr; ring|].
      eapply ctrans; [apply (close_h eps0 xo ip HX HI t0 T 3 1), cscale; eapply drop_3; [|apply rk2_is]; apply (tame_scale eps0 xo ip HX HI), tame_d|].
      apply csame. intros. vr; field.
    - apply csame. intros t h H. pose proof (proj2 (inside_h t0 T t h H)) as Ht. rewrite (lin_scale _ _ _ (L1 t Ht)). fold (dq t). vr; field.
  Qed.
  Lemma tame_rk3 : tame (fun t => (1 / 16 ** dq t ++ 1 / 8 ** dg t) ++ 1 / 48 ** dd t).
  Proof.
    repeat apply (tame_add eps0 xo ip HX HI); apply (tame_scale eps0 xo ip HX HI); [apply tame_1, tame_c|apply tame_g|apply tame_d].
  Qed.
  Lemma rk4_is : close 4 rk4 (fun t h => ((da t ++ (1 * h) ** db t) ++ h ^ 2 ** (1 / 2 ** de t ++ (1 * 1 / 2) ** dc t))
    ++ h ^ 3 ** (((1 / 4 ** dr t ++ 1 / 8 ** dq t) ++ 1 / 2 ** dg t) ++ 1 / 6 ** dd t)).
  Proof.
    eapply ctrans; [apply (expand_3 _ 1 (1 / 2) (fun t => 1 / 4 ** de t ++ 1 / 8 ** dc t))|].
    - apply (tame_add eps0 xo ip HX HI); apply (tame_scale eps0 xo ip HX HI); [apply tame_e|apply tame_c].
    - eapply ctrans; [apply (csame 4 _ (fun t h => h ^ 1 ** rk3 t h)); intros; vr; ring|].
      eapply ctrans; [apply (close_h eps0 xo ip HX HI t0 T 3 1); eapply drop_3; [apply tame_rk3|apply rk3_is]|].
      apply csame. intros. vr; field.
    - apply csame. intros t h H. pose proof (proj2 (inside_h t0 T t h H)) as Ht. rewrite (lin_add _ _ _ (L1 t Ht)), !(lin_scale _ _ _ (L1 t Ht)). fold (dq t) (dr t). vr; field.
  Qed.
  Lemma rk_order : close 5 (fun t h => p (t + h)) rk.
  Proof.
    eapply ctrans; [apply (csame 5 _ (fun t h => p t ++ step_of t h)); intros; rewrite after; reflexivity|].
    apply cadd; [apply csame; reflexivity|]. eapply ctrans; [apply solution_5|]. apply (close_sym eps0 xo ip HX HI).
    eapply ctrans; [apply (csame 5 _ (fun t h => h ^ 1 ** (((1 / 6 ** k1 t h ++ 1 / 3 ** rk2 t h) ++ 1 / 3 ** rk3 t h) ++ 1 / 6 ** rk4 t h))); intros; vr; ring|].
    eapply ctrans; [apply (close_h eps0 xo ip HX HI t0 T 4 1); apply cadd; [apply cadd; [apply cadd; [apply csame; reflexivity|apply cscale, rk2_is]|apply cscale, rk3_is]|apply cscale, rk4_is]|].
    apply csame. intros. unfold k1. fold (da t). vr; field.
  Qed.
End Field.

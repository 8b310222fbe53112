(** C78: the estimates for the steppers of ROM and FOM. *)
From Coq Require Import ZArith List Reals Lra Lia Field.
From Verif Require Import Base RInst Laws LawInst AdvanceModel AdvanceSpec ExplicitModel ExplicitSpec ExplicitProofs ExplicitOrder
  ImplicitModel ImplicitSpec LspgModel RomSpec GalerkinModel GalerkinSpec GalerkinProofs GalerkinClaims RomExactProofs RomExactClaims
  StabilitySpec StabilityProofs StabilityRuns StabilityOrder DissipSpec DissipProofs DissipChain DissipClaims DissipPairs RomErrorProofs.
Import ListNotations.
Local Open Scope R_scope.

Lemma erk_euler {X : Type} (eps0 : R) (xo : vops R X) : vspace (Rops eps0) xo -> forall d ts hs x k,
  erk_iter (Rops eps0) xo d (tab_fe (Rops eps0)) ts hs (Datatypes.S k) x =
  vadd xo (erk_iter (Rops eps0) xo d (tab_fe (Rops eps0)) ts hs k x)
    (vscale xo (hs k) (d (erk_iter (Rops eps0) xo d (tab_fe (Rops eps0)) ts hs k x) (ts k))).
Proof.
  intros HX d ts hs x k. cbn [erk_iter]. unfold erk_next. cbn. f_equal. f_equal; [lra|]. f_equal. lra.
Qed.

Section Drives.
  Context {X Y : Type} (eps0 : R) (xo : vops R X) (yo : vops R Y) (norm : Y -> R).
  Notation o := (Rops eps0).
  Hypotheses (HX : vspace o xo) (HY : vspace o yo) (HN : normed yo norm).
  Notation dist := (dist eps0 yo norm).
  Let HF := R_field eps0.
  Let HC := R_char0 eps0.
  Variables (recon bapp : X -> Y) (off : Y).
  Hypothesis Hlin : linear xo yo bapp.
  Hypothesis Hrec : forall x, recon x = vadd yo (bapp x) off.
  Variables (L del : R) (f : Y -> R -> Y) (d : X -> R -> X).
  Hypothesis HL : lipschitz eps0 yo norm L f.
  Notation defect x t := (dist (f (recon x) t) (bapp (d x t))).
  Section Std.
  Context {M W M' W' : Type} (u : @esys R X M W) (v : @esys R Y M' W') (good : W -> Prop) (good' : W' -> Prop).
  Hypotheses (HU : computes u good d) (HU' : computes v good' f).
  Lemma error_erk name tab k : tab_of o name = Some tab -> explicit_num_bufs name = Ok k ->
    (forall x t, defect x t <= del) ->
    forall g g', used k (explicit_step o xo u name) g -> used k (explicit_step o yo v name) g' ->
    good (x_w g) -> good' (x_w g') -> forall ts hs n, (forall k, 0 <= hs k) ->
    exists gn gn', drive (explicit_step o xo u name) ts hs n g = (Ok tt, gn) /\
      drive (explicit_step o yo v name) ts hs n g' = (Ok tt, gn') /\
      dist (x_y gn') (recon (x_y gn)) <= exp (L * elapsed hs n) * (dist (x_y g') (recon (x_y g)) + elapsed hs n * del).
  Proof.
    intros HT Hk Hdel g g' Hg Hg' Hw Hw' ts hs n Hh.
    destruct (erk_drive o xo u HF HC HX good d HU name tab k HT Hk ts hs n g (used_length o xo u name k g Hk Hg) Hw) as (gn & E & Yn & _).
    destruct (erk_drive o yo v HF HC HY good' f HU' name tab k HT Hk ts hs n g' (used_length o yo v name k g' Hk Hg') Hw') as (gn' & E' & Yn' & _).
    exists gn, gn'. split; [exact E|]. split; [exact E'|]. rewrite Yn, Yn'. eapply erk_iter_d; eassumption.
  Qed.
  Lemma error_ab2 : forall g g', used 2 (explicit_step o xo u AdamsBashforth2) g -> used 2 (explicit_step o yo v AdamsBashforth2) g' ->
    good (x_w g) -> good' (x_w g') -> forall ts hs, (forall k, 0 <= hs k) ->
    exists xs : nat -> X, xs 0%nat = x_y g /\ forall n, exists gn gn', drive (explicit_step o xo u AdamsBashforth2) ts hs n g = (Ok tt, gn) /\
      drive (explicit_step o yo v AdamsBashforth2) ts hs n g' = (Ok tt, gn') /\ xs n = x_y gn /\
      dist (x_y gn') (recon (x_y gn)) <= exp (2 * L * elapsed hs n) * (dist (x_y g') (recon (x_y g)) +
        elapsed (fun k => hs k * match k with O => defect (xs 0%nat) (ts 0%nat)
                       | Datatypes.S j => 3 / 2 * defect (xs k) (ts k) + 1 / 2 * defect (xs j) (ts j) end) n).
  Proof.
    intros g g' Hg Hg' Hw Hw' ts hs Hh. destruct (ab2_exists o xo d ts hs (x_y g)) as (xs & Hs & H0).
    exists xs. split; [exact H0|]. intros n.
    destruct (ab2_drive o xo u HF HC HX good d HU ts hs xs g n (used_length o xo u AdamsBashforth2 2 g eq_refl Hg) Hw Hs H0) as (gn & E & Yn & _).
    destruct (perturbed_ab2 eps0 yo norm v HY HN good' f L HU' HL g' Hg' Hw' ts hs _ n _ Hh
      (ab2_reduced eps0 xo yo norm HY HN recon bapp off Hlin Hrec f d ts hs Hh xs n Hs)) as (gn' & E' & D).
    exists gn, gn'. split; [exact E|]. split; [exact E'|]. split; [symmetry; exact Yn|]. rewrite Yn, <- H0. exact D.
  Qed.
  Lemma error_euler : forall g g', used 1 (explicit_step o xo u ForwardEuler) g -> used 1 (explicit_step o yo v ForwardEuler) g' ->
    good (x_w g) -> good' (x_w g') -> forall ts hs, (forall k, 0 <= hs k) ->
    exists xs : nat -> X, xs 0%nat = x_y g /\ forall n, exists gn gn', drive (explicit_step o xo u ForwardEuler) ts hs n g = (Ok tt, gn) /\
      drive (explicit_step o yo v ForwardEuler) ts hs n g' = (Ok tt, gn') /\ xs n = x_y gn /\
      dist (x_y gn') (recon (x_y gn)) <= exp (L * elapsed hs n) * (dist (x_y g') (recon (x_y g)) +
        elapsed (fun k => hs k * defect (xs k) (ts k)) n).
  Proof.
    intros g g' Hg Hg' Hw Hw' ts hs Hh. exists (fun n => erk_iter o xo d (tab_fe o) ts hs n (x_y g)).
    split; [reflexivity|]. intros n.
    destruct (erk_drive o xo u HF HC HX good d HU ForwardEuler (tab_fe o) 1 eq_refl eq_refl ts hs n g (used_length o xo u ForwardEuler 1 g eq_refl Hg) Hw) as (gn & E & Yn & _).
    destruct (perturbed_erk eps0 yo norm v HY HN good' f L HU' HL ForwardEuler (tab_fe o) 1 eq_refl eq_refl g' Hg' Hw' ts hs _ n _ Hh
      (euler_reduced eps0 xo yo norm HY HN recon bapp off Hlin Hrec f d ts hs Hh (fun n => erk_iter o xo d (tab_fe o) ts hs n (x_y g)) n
         (fun k _ => erk_euler eps0 xo HX d ts hs (x_y g) k))) as (gn' & E' & D).
    exists gn, gn'. split; [exact E|]. split; [exact E'|]. split; [symmetry; exact Yn|]. rewrite Yn. exact D.
  Qed.
  End Std.
  (** at most twice the largest defect times the elapsed time *)
  Lemma ab2_defects (ts hs : nat -> R) (xs : nat -> X) n : (forall k, 0 <= hs k) -> (forall x t, defect x t <= del) ->
    elapsed (fun k => hs k * match k with O => defect (xs 0%nat) (ts 0%nat)
                       | Datatypes.S j => 3 / 2 * defect (xs k) (ts k) + 1 / 2 * defect (xs j) (ts j) end) n <= 2 * (elapsed hs n * del).
  Proof.
    intros Hh Hd. assert (D0 : 0 <= del) by (eapply Rle_trans; [apply (dist_pos eps0 yo norm HN)|apply (Hd (xs 0%nat) 0)]).
    induction n as [|n IH]; cbn [elapsed]; [lra|].
    assert (Q : match n with O => defect (xs 0%nat) (ts 0%nat)
                | Datatypes.S j => 3 / 2 * defect (xs n) (ts n) + 1 / 2 * defect (xs j) (ts j) end <= 2 * del).
    { destruct n as [|j]; [pose proof (Hd (xs 0%nat) (ts 0%nat)); lra|].
      pose proof (Hd (xs (Datatypes.S j)) (ts (Datatypes.S j))). pose proof (Hd (xs j) (ts j)). lra. }
    apply (Rmult_le_compat_l (hs n) _ _ (Hh n)) in Q. lra.
  Qed.
  Section Mass.
  Context {M W M' W' : Type} (u : @esys R X M W) (v : @esys R Y M' W') (good : W -> Prop) (good' : W' -> Prop).
  Variables (ap : M -> X -> X) (ma : X -> R -> M) (fo : X -> R -> X) (ap' : M' -> Y -> Y) (ma' : Y -> R -> M') (fo' : Y -> R -> Y).
  Hypothesis HU : computes_mm u good ap ma fo.
  Hypothesis Hd : forall x t, ap (ma x t) (d x t) = fo x t.
  Hypothesis Hi : forall x t a b, ap (ma x t) a = ap (ma x t) b -> a = b.
  Hypothesis HU' : computes_mm v good' ap' ma' fo'.
  Hypothesis Hf : forall y t, ap' (ma' y t) (f y t) = fo' y t.
  Hypothesis Hi' : forall y t a b, ap' (ma' y t) a = ap' (ma' y t) b -> a = b.
  Lemma error_erk_mm name tab k : tab_of o name = Some tab -> explicit_num_bufs_mm name = Ok k ->
    (forall x t, defect x t <= del) ->
    forall g g', used k (explicit_step_mm o xo u name) g -> used k (explicit_step_mm o yo v name) g' ->
    good (x_w g) -> good' (x_w g') -> forall ts hs n, (forall k, 0 <= hs k) ->
    exists gn gn', drive (explicit_step_mm o xo u name) ts hs n g = (Ok tt, gn) /\
      drive (explicit_step_mm o yo v name) ts hs n g' = (Ok tt, gn') /\
      dist (x_y gn') (recon (x_y gn)) <= exp (L * elapsed hs n) * (dist (x_y g') (recon (x_y g)) + elapsed hs n * del).
  Proof.
    intros HT Hk Hdel g g' Hg Hg' Hw Hw' ts hs n Hh.
    destruct (erk_drive_mm o xo u HF HC HX good _ _ _ d HU Hd Hi name tab k HT Hk ts hs n g (used_length_mm o xo u name k g Hk Hg) Hw) as (gn & E & Yn & _).
    destruct (erk_drive_mm o yo v HF HC HY good' _ _ _ f HU' Hf Hi' name tab k HT Hk ts hs n g' (used_length_mm o yo v name k g' Hk Hg') Hw') as (gn' & E' & Yn' & _).
    exists gn, gn'. split; [exact E|]. split; [exact E'|]. rewrite Yn, Yn'. eapply erk_iter_d; eassumption.
  Qed.
  Lemma error_ab2_mm : (forall x t, defect x t <= del) ->
    forall g g', used 2 (explicit_step_mm o xo u AdamsBashforth2) g -> used 2 (explicit_step_mm o yo v AdamsBashforth2) g' ->
    good (x_w g) -> good' (x_w g') -> forall ts hs n, (forall k, 0 <= hs k) ->
    exists gn gn', drive (explicit_step_mm o xo u AdamsBashforth2) ts hs n g = (Ok tt, gn) /\
      drive (explicit_step_mm o yo v AdamsBashforth2) ts hs n g' = (Ok tt, gn') /\
      dist (x_y gn') (recon (x_y gn)) <= exp (2 * L * elapsed hs n) * (dist (x_y g') (recon (x_y g)) + 2 * (elapsed hs n * del)).
  Proof.
    intros Hdel g g' Hg Hg' Hw Hw' ts hs n Hh. destruct (ab2_exists o xo d ts hs (x_y g)) as (xs & Hs & H0).
    destruct (ab2_drive_mm o xo u HF HC HX good _ _ _ d HU Hd Hi ts hs xs g n (used_length_mm o xo u AdamsBashforth2 2 g eq_refl Hg) Hw Hs H0) as (gn & E & Yn & _).
    destruct (perturbed_ab2_mm eps0 yo norm v HY HN good' _ _ _ f L HU' Hf Hi' HL g' Hg' Hw' ts hs _ n _ Hh
      (ab2_reduced eps0 xo yo norm HY HN recon bapp off Hlin Hrec f d ts hs Hh xs n Hs)) as (gn' & E' & D).
    exists gn, gn'. split; [exact E|]. split; [exact E'|]. rewrite Yn, <- H0. eapply Rle_trans; [exact D|].
    apply Rmult_le_compat_l; [left; apply exp_pos|]. apply Rplus_le_compat_l. apply ab2_defects; assumption.
  Qed.
  End Mass.
End Drives.

(** ** Orthogonal projections *)
Section Best.
  Context {X Y : Type} (eps0 : R) (xo : vops R X) (yo : vops R Y).
  Notation o := (Rops eps0).
  Hypotheses (HX : vspace o xo) (HY : vspace o yo).
  Variables (ip : Y -> Y -> R) (xip : X -> X -> R).
  Hypotheses (HI : inner yo ip).
  Variables (bapp : X -> Y) (T : Y -> X).
  Hypothesis HT : forall y v, ip y (bapp v) = xip (T y) v.
  Hypothesis Horth : forall a b, ip (bapp a) (bapp b) = xip a b.
  Notation "x -- y" := (vminus (Rops eps0) yo x y) (at level 50, left associativity).
  Lemma inner_normed : normed yo (length_of ip).
  Proof.
    split.
    - intros x. apply (len_pos ip).
    - intros x y. assert (P := len_minus eps0 yo ip HI x (vscale yo (-1) y) (length_of ip x) (length_of ip y)).
      replace (vadd yo x y) with (x -- vscale yo (-1) y).
      + apply P; [lra|]. right. unfold length_of. f_equal. rewrite (ip_scale _ _ HI), (ip_sym _ _ HI), (ip_scale _ _ HI). ring.
      + unfold vminus, neg1. vreduce (Rops eps0) yo (R_field eps0) HY; cbn; lra.
    - intros a x. unfold length_of. rewrite (ip_scale _ _ HI), (ip_sym _ _ HI), (ip_scale _ _ HI).
      replace (a * (a * ip x x)) with (Rsqr a * ip x x) by (unfold Rsqr; ring).
      rewrite sqrt_mult; [|apply Rle_0_sqr|apply (ip_pos _ _ HI)]. rewrite sqrt_Rsqr_abs. reflexivity.
  Qed.
  Lemma best_approximation y v : length_of ip (y -- bapp (T y)) <= length_of ip (y -- bapp v).
  Proof.
    apply (len_le ip); [apply (len_pos ip)|]. rewrite (len_sq yo ip HI).
    rewrite !(ip_minus eps0 yo ip HI), !(ip_minus_r eps0 yo ip HI).
    rewrite !Horth, !(ip_sym _ _ HI (bapp _) y), !HT.
    assert (P := ip_pos _ _ HI (bapp (T y) -- bapp v)). rewrite !(ip_minus eps0 yo ip HI), !(ip_minus_r eps0 yo ip HI) in P.
    rewrite !Horth in P. assert (S : xip v (T y) = xip (T y) v) by (rewrite <- !Horth; apply (ip_sym _ _ HI)). lra.
  Qed.
End Best.

(** ** Implicit schemes *)
Section Implicit.
  Context {X Y : Type} (eps0 : R) (xo : vops R X) (yo : vops R Y) (ip : Y -> Y -> R) (xip : X -> X -> R).
  Notation o := (Rops eps0).
  Hypotheses (HX : vspace o xo) (HY : vspace o yo) (HI : inner yo ip).
  Variables (recon bapp : X -> Y) (off : Y).
  Hypothesis Hlin : linear xo yo bapp.
  Hypothesis Hrec : forall x, recon x = vadd yo (bapp x) off.
  Variables (f : Y -> R -> Y) (d : X -> R -> X) (K del : R).
  Hypothesis HK : forall v, length_of ip (bapp v) <= K * length_of xip v.
  Hypothesis HK0 : 0 <= K.
  Notation len := (length_of ip).
  Notation "x -- y" := (vminus (Rops eps0) yo x y) (at level 50, left associativity).
  (** what the basis misses of the FOM's velocity at a reduced state *)
  Notation missed x t := (f (recon x) t -- bapp (d x t)).
  Let HF := R_field eps0.
  Let HC := R_char0 eps0.
  Lemma len_scale a x : 0 <= a -> len (vscale yo a x) = a * len x.
  Proof. intros Ha. rewrite (n_scale _ _ (inner_normed eps0 yo HY ip HI)), Rabs_pos_eq; [reflexivity|exact Ha]. Qed.
  Lemma lifted r h x t b : len (missed x t) <= del -> 0 <= h -> length_of xip r <= b ->
    len (bapp r -- vscale yo h (f (recon x) t -- bapp (d x t))) <= K * b + h * del.
  Proof.
    intros Hdel Hh Hr. apply (len_minus eps0 yo ip HI).
    - eapply Rle_trans; [apply HK|]. apply Rmult_le_compat_l; assumption.
    - rewrite len_scale by exact Hh. apply Rmult_le_compat_l; [exact Hh|exact Hdel].
  Qed.
  Lemma lift_bdf1 x_n h x t : bdf1_R o yo (recon x_n) h (f (recon x) t) (recon x) =
    bapp (bdf1_R o xo x_n h (d x t) x) -- vscale yo h (f (recon x) t -- bapp (d x t)).
  Proof.
    unfold bdf1_R. rewrite !Hrec. set (F := f _ t). unfold vminus, neg1.
    rewrite ?(lin_add _ _ _ Hlin), ?(lin_scale _ _ _ Hlin), ?(lin_add _ _ _ Hlin), ?(lin_scale _ _ _ Hlin).
    vreduce (Rops eps0) yo HF HY; cbn; lra.
  Qed.
  Lemma lift_bdf2 x_n x_m h x t : bdf2_R o yo (recon x_n) (recon x_m) h (f (recon x) t) (recon x) =
    bapp (bdf2_R o xo x_n x_m h (d x t) x) -- vscale yo (2 / 3 * h) (f (recon x) t -- bapp (d x t)).
  Proof.
    unfold bdf2_R. rewrite !Hrec. set (F := f _ t). unfold vminus, neg1.
    rewrite ?(lin_add _ _ _ Hlin), ?(lin_scale _ _ _ Hlin), ?(lin_add _ _ _ Hlin), ?(lin_scale _ _ _ Hlin), ?(lin_add _ _ _ Hlin), ?(lin_scale _ _ _ Hlin).
    vreduce (Rops eps0) yo HF HY; cbn; lra.
  Qed.
  Notation err ts tol := (fun k => K * tol + (ts (Datatypes.S k) - ts k) * del).
  Lemma del0 x t : len (missed x t) <= del -> 0 <= del.
  Proof. intros H. eapply Rle_trans; [|exact H]. apply (len_pos ip). Qed.
  Lemma lift_cn x_n t_n h x t : cn_R o yo (recon x_n) (f (recon x_n) t_n) h (f (recon x) t) (recon x) =
    bapp (cn_R o xo x_n (d x_n t_n) h (d x t) x) -- vscale yo (1 / 2 * h) (vadd yo (missed x_n t_n) (missed x t)).
  Proof.
    unfold cn_R. rewrite !Hrec. set (F := f _ t). set (F_n := f _ t_n). unfold vminus, neg1.
    rewrite ?(lin_add _ _ _ Hlin), ?(lin_scale _ _ _ Hlin), ?(lin_add _ _ _ Hlin), ?(lin_scale _ _ _ Hlin), ?(lin_add _ _ _ Hlin), ?(lin_scale _ _ _ Hlin).
    vreduce (Rops eps0) yo HF HY; cbn; lra.
  Qed.
  Lemma lift_near_cn ts tol n x : (forall k, (k < n)%nat -> ts k <= ts (Datatypes.S k)) ->
    (forall k, (k <= n)%nat -> len (missed (x k) (ts k)) <= del) ->
    near_cn eps0 xo xip d ts (fun _ => tol) n x -> near_cn eps0 yo ip f ts (err ts tol) n (fun k => recon (x k)).
  Proof.
    intros Hts Hdel Hx k Hk. rewrite lift_cn. specialize (Hts k Hk). apply (len_minus eps0 yo ip HI).
    - eapply Rle_trans; [apply HK|]. apply Rmult_le_compat_l; [exact HK0|exact (Hx k Hk)].
    - rewrite len_scale by lra. pose proof (Hdel k ltac:(lia)) as D1. pose proof (Hdel (Datatypes.S k) Hk) as D2.
      pose proof (n_tri _ _ (inner_normed eps0 yo HY ip HI) (missed (x k) (ts k)) (missed (x (Datatypes.S k)) (ts (Datatypes.S k)))) as D3.
      nra.
  Qed.
  Lemma lift_near_bdf1 ts tol n x : (forall k, (k < n)%nat -> ts k <= ts (Datatypes.S k)) ->
    (forall k, (k <= n)%nat -> len (missed (x k) (ts k)) <= del) ->
    near_bdf1 eps0 xo xip d ts (fun _ => tol) n x -> near_bdf1 eps0 yo ip f ts (err ts tol) n (fun k => recon (x k)).
  Proof.
    intros Hts Hdel Hx k Hk. rewrite lift_bdf1. apply lifted; [apply Hdel; exact Hk|specialize (Hts k Hk); lra|exact (Hx k Hk)].
  Qed.
  Lemma lift_near_bdf2 ts tol n x : (forall k, (k < n)%nat -> ts k <= ts (Datatypes.S k)) ->
    (forall k, (k <= n)%nat -> len (missed (x k) (ts k)) <= del) ->
    near_bdf2 eps0 xo xip d ts (fun _ => tol) n x -> near_bdf2 eps0 yo ip f ts (err ts tol) n (fun k => recon (x k)).
  Proof.
    intros Hts Hdel [H0 Hx]. split.
    - intros Hn. rewrite lift_bdf1. apply lifted; [apply Hdel; exact Hn|specialize (Hts 0%nat Hn); lra|exact (H0 Hn)].
    - intros k Hk. rewrite lift_bdf2. specialize (Hts (Datatypes.S k) Hk). pose proof (del0 _ _ (Hdel 0%nat ltac:(lia))).
      eapply Rle_trans; [apply lifted; [apply Hdel; exact Hk|lra|exact (Hx k Hk)]|]. nra.
  Qed.
  Lemma errs (ts : nat -> R) tol k : elapsed (err ts tol) k = INR k * (K * tol) + (ts k - ts 0%nat) * del.
  Proof. induction k as [|k IH]; [cbn; ring|]. rewrite S_INR. cbn [elapsed]. rewrite IH. ring. Qed.
  Hypothesis HD : dissipative eps0 yo ip f.
  Variables (tol tol' start : R) (y0 : Y) (x0 : X) (tr : list (call R Y)) (tr' : list (call R X)).
  Hypothesis Hst : same_times tr tr'.
  Hypothesis Hfw : forward_in_time tr.
  Hypothesis Hdel : forall k t x, In (k, t, x) (reports tr') -> len (missed x t) <= del.
  (** the states reported with number k and time t *)
  Lemma reduced_second near : run_of tol' near start x0 tr' ->
    exists n rs z, z 0%nat = x0 /\ near rs (fun _ => tol') n z /\ rs 0%nat = start /\
      (forall k, (k < n)%nat -> rs k <= rs (Datatypes.S k)) /\ times_are tr rs /\
      (forall k, (k <= n)%nat -> len (missed (z k) (rs k)) <= del) /\
      (forall k, (k <= n)%nat -> exists y, In (Z.of_nat k, rs k, y) (reports tr)) /\
      forall k t y, In (k, t, y) (reports tr') -> exists j, k = Z.of_nat j /\ (j <= n)%nat /\ y = z j.
  Proof.
    intros (n & rs & z & E1 & E2 & HR & HN). exists n, rs, z. split; [exact E2|]. split; [exact HN|]. split; [exact E1|].
    assert (HT : forall k, (k <= n)%nat -> exists y, In (Z.of_nat k, rs k, y) (reports tr)).
    { intros k Hk. assert (H : In (Z.of_nat k, rs k, z k) (reports tr')) by (apply HR; exists k; repeat split; lia).
      apply (in_map fst) in H. rewrite <- Hst in H. apply in_map_iff in H. destruct H as ([[k' t'] y'] & E & H).
      injection E as -> ->. exists y'. exact H. }
    split; [|split; [|split; [|split; [exact HT|]]]].
    - intros k Hk. destruct (HT k ltac:(lia)) as (a & Ha). destruct (HT (Datatypes.S k) ltac:(lia)) as (b & Hb).
      rewrite Nat2Z.inj_succ, <- Z.add_1_r in Hb. exact (Hfw _ _ _ _ _ Ha Hb).
    - intros k t y H. apply (in_map fst) in H. rewrite Hst in H. apply in_map_iff in H.
      destruct H as ([[k' t'] y'] & E & H). injection E as -> ->. apply HR in H.
      destruct H as (j & Ej & _ & Et & _). apply Nat2Z.inj in Ej. subst. reflexivity.
    - intros k Hk. apply (Hdel (Z.of_nat k)). apply HR. exists k. repeat split; lia.
    - intros k t y H. apply HR in H. destruct H as (j & Ej & Hj & _ & Ey). exists j. repeat split; assumption.
  Qed.
  Lemma sums j t (rs : nat -> R) : t = rs j -> rs 0%nat = start ->
    INR j * tol + elapsed (err rs tol') j = IZR (Z.of_nat j) * (tol + K * tol') + (t - start) * del.
  Proof. intros -> <-. rewrite errs, <- INR_IZR_INZ. ring. Qed.
  Lemma error_bdf1 : run_of tol (near_bdf1 eps0 yo ip f) start y0 tr -> run_of tol' (near_bdf1 eps0 xo xip d) start x0 tr' ->
    forall k t y x, In (k, t, y) (reports tr) -> In (k, t, x) (reports tr') ->
    len (y -- recon x) <= len (y0 -- recon x0) + (IZR k * (tol + K * tol') + (t - start) * del).
  Proof.
    intros HR HR' k t y x H H'. destruct (reduced_second _ HR') as (n & rs & z & E2 & HN & E1 & Hts & Htr & Hdl & _ & HZ).
    destruct (HZ _ _ _ H') as (j & -> & Hj & ->). rewrite <- (sums j t rs (Htr j t y H) E1), <- E2.
    exact (against_bdf1 eps0 yo ip f HY HI HD tol start y0 tr rs (err rs tol') n (fun k => recon (z k)) Hts Htr HR
      (lift_near_bdf1 _ _ _ _ Hts Hdl HN) j t y Hj H).
  Qed.
  Lemma error_bdf2 : run_of tol (near_bdf2 eps0 yo ip f) start y0 tr -> run_of tol' (near_bdf2 eps0 xo xip d) start x0 tr' ->
    forall k t y x, In (k, t, y) (reports tr) -> In (k, t, x) (reports tr') ->
    len (y -- recon x) <= sqrt 2 * len (y0 -- recon x0) + 6 * (IZR k * (tol + K * tol') + (t - start) * del).
  Proof.
    intros HR HR' k t y x H H'. destruct (reduced_second _ HR') as (n & rs & z & E2 & HN & E1 & Hts & Htr & Hdl & _ & HZ).
    destruct (HZ _ _ _ H') as (j & -> & Hj & ->). rewrite <- (sums j t rs (Htr j t y H) E1), <- E2.
    exact (against_bdf2 eps0 yo ip f HY HI HD tol start y0 tr rs (err rs tol') n (fun k => recon (z k)) Hts Htr HR
      (lift_near_bdf2 _ _ _ _ Hts Hdl HN) j t y Hj H).
  Qed.
  Lemma error_cn : run_of tol (near_cn eps0 yo ip f) start y0 tr -> run_of tol' (near_cn eps0 xo xip d) start x0 tr' ->
    steps_not_growing tr -> forall t1 s1, In (1%Z, t1, s1) (reports tr) ->
    forall k t y x, In (k, t, y) (reports tr) -> In (k, t, x) (reports tr') ->
    len (y -- recon x) <= len (y0 -- recon x0 -- vscale yo (1 / 2 * (t1 - start)) (f y0 start -- f (recon x0) start))
      + (IZR k * (tol + K * tol') + (t - start) * del).
  Proof.
    intros HR HR' Hng t1 s1 H1 k t y x H H'. destruct (reduced_second _ HR') as (n & rs & z & E2 & HN & E1 & Hts & Htr & Hdl & HT & HZ).
    destruct (HZ _ _ _ H') as (j & -> & Hj & ->). rewrite <- (sums j t rs (Htr j t y H) E1), <- E2.
    assert (Et : t1 = rs 1%nat) by (apply (Htr 1%nat _ s1); exact H1).
    assert (Hn1 : (0 < n)%nat).
    { apply (in_map fst) in H1. rewrite Hst in H1. apply in_map_iff in H1. destruct H1 as ([[k' t'] y'] & E & H1).
      injection E as -> ->. destruct (HZ _ _ _ H1) as (i & Ei & Hi & _). lia. }
    assert (Hh : forall k, (Datatypes.S k < n)%nat -> rs (Datatypes.S (Datatypes.S k)) - rs (Datatypes.S k) <= rs (Datatypes.S k) - rs k).
    { intros i Hi. destruct (HT i ltac:(lia)) as (a & Ha). destruct (HT (Datatypes.S i) ltac:(lia)) as (b & Hb).
      destruct (HT (Datatypes.S (Datatypes.S i)) ltac:(lia)) as (c & Hc).
      replace (Z.of_nat (Datatypes.S (Datatypes.S i))) with (Z.of_nat i + 2)%Z in Hc by lia.
      replace (Z.of_nat (Datatypes.S i)) with (Z.of_nat i + 1)%Z in Hb by lia. exact (Hng _ _ _ _ _ _ _ Ha Hb Hc). }
    destruct j as [|j].
    - assert (Ey : y = y0).
      { destruct HR as (m & rr & yy & _ & A & B & _). apply B in H. destruct H as (i & Ei & _ & _ & ->).
        replace i with 0%nat by lia. exact A. }
      subst y. cbn [elapsed INR]. rewrite Rmult_0_l, !Rplus_0_r.
      apply (len_cn eps0 yo ip HI); [specialize (Hts 0%nat Hn1); lra|apply HD].
    - rewrite Et, <- E1. exact (against_cn eps0 yo ip f HY HI HD tol start y0 tr rs (err rs tol') n (fun k => recon (z k)) Hts Htr HR
        (lift_near_cn _ _ _ _ Hts Hdl HN) Hh (Datatypes.S j) t y Hj ltac:(lia) H).
  Qed.
End Implicit.

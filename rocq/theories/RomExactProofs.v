(** A Galerkin ROM whose trial space contains the FOM's velocities reproduces the FOM (C75). *)
From Coq Require Import ZArith List Bool Field.
From Verif Require Import Base Laws ExplicitModel ExplicitSpec ExplicitProofs ExplicitOrder ImplicitModel ImplicitSpec ImplicitClaims
  LspgModel RomSpec GalerkinModel GalerkinSpec GalerkinProofs GalerkinClaims.
Import ListNotations.
Local Open Scope Z_scope.

(** ** Drives *)
Section Drive.
  Context {S V M W : Type} (o : sops S) (vo : vops S V) (u : @esys S V M W).
  Hypotheses (HF : sfield o) (HC : schar0 o) (HV : vspace o vo).
  Fixpoint erk_iter (f : V -> S -> V) (tab : tableau S) (ts hs : nat -> S) (n : nat) (y : V) : V :=
    match n with O => y | Datatypes.S m => erk_next o vo f tab (erk_iter f tab ts hs m y) (ts m) (hs m) end.
  Lemma erk_drive good f : computes u good f ->
    forall name tab k, tab_of o name = Some tab -> explicit_num_bufs name = Ok k ->
    forall ts hs n g, length (x_bufs g) = k -> good (x_w g) ->
    exists g', drive (explicit_step o vo u name) ts hs n g = (Ok tt, g') /\
      x_y g' = erk_iter f tab ts hs n (x_y g) /\ length (x_bufs g') = k /\ good (x_w g').
  Proof.
    intros HU name tab k HT HN ts hs n g L G. induction n as [|n IH].
    - exists g. cbn. auto.
    - destruct IH as (g1 & E & Y1 & L1 & G1). cbn [drive]. unfold bind. rewrite E.
      destruct (erk_step_ok o vo u HF HC HV good f HU name tab k (ts n) (Z.of_nat (Datatypes.S n)) (hs n) g1 HT HN L1 G1)
        as (g2 & E2 & Y2 & _ & G2).
      rewrite E2. exists g2. split; [reflexivity|]. split; [rewrite Y2, Y1; reflexivity|]. split; [|exact G2].
      refine (proj1 (explicit_step_frame o vo u (fun _ => True) ltac:(repeat split; auto) name k _ _ _ HN _ _ _ _ E2)).
      exact L1.
  Qed.
  Lemma erk_drive_mm good apply mass force X : computes_mm u good apply mass force ->
    (forall y t, apply (mass y t) (X y t) = force y t) ->
    (forall y t a b, apply (mass y t) a = apply (mass y t) b -> a = b) ->
    forall name tab k, tab_of o name = Some tab -> explicit_num_bufs_mm name = Ok k ->
    forall ts hs n g, length (x_bufs g) = k -> good (x_w g) ->
    exists g', drive (explicit_step_mm o vo u name) ts hs n g = (Ok tt, g') /\
      x_y g' = erk_iter X tab ts hs n (x_y g) /\ length (x_bufs g') = k /\ good (x_w g').
  Proof.
    intros HU HX Hinj name tab k HT HN ts hs n g L G. induction n as [|n IH].
    - exists g. cbn. auto.
    - destruct IH as (g1 & E & Y1 & L1 & G1). cbn [drive]. unfold bind. rewrite E.
      destruct (erk_step_mm_ok o vo u HF HC HV good apply mass force X HU HX Hinj name tab k (ts n)
        (Z.of_nat (Datatypes.S n)) (hs n) g1 HT HN L1 G1) as (g2 & E2 & Y2 & _ & G2).
      rewrite E2. exists g2. split; [reflexivity|]. split; [rewrite Y2, Y1; reflexivity|]. split; [|exact G2].
      refine (proj1 (explicit_step_mm_frame o vo u (fun _ => True) ltac:(repeat split; auto) name k _ _ _ HN _ _ _ _ E2)).
      exact L1.
  Qed.
  Lemma explicit_schemes name k : explicit_num_bufs name = Ok k ->
    (exists tab, tab_of o name = Some tab) \/ name = AdamsBashforth2 /\ k = 2%nat.
  Proof. destruct name; cbn; intros E; try discriminate; [left|left|right|left]; eauto. injection E as <-. auto. Qed.
  Lemma explicit_schemes_mm name k : explicit_num_bufs_mm name = Ok k ->
    (exists tab, tab_of o name = Some tab) \/ name = AdamsBashforth2 /\ k = 2%nat.
  Proof. destruct name; cbn; intros E; try discriminate; [left|left|right|left]; eauto. injection E as <-. auto. Qed.
End Drive.

(** ** Schemes commute with affine maps *)
Section Affine.
  Context {S X Y : Type} (o : sops S) (xo : vops S X) (yo : vops S Y).
  Variables (recon bapp : X -> Y) (tr : Y).
  Hypotheses (HF : sfield o) (HC : schar0 o) (HX : vspace o xo) (HY : vspace o yo).
  Hypothesis Hlin : linear xo yo bapp.
  Hypothesis Hrec : forall x, recon x = vadd yo (bapp x) tr.
  Add Field Sfa : (sfield_th o HF).
  Lemma recon_step x a d : recon (vadd xo x (vscale xo a d)) = vadd yo (recon x) (vscale yo a (bapp d)).
  Proof.
    rewrite !Hrec, (lin_add _ _ _ Hlin), (lin_scale _ _ _ Hlin). vreduce o yo HF HY; ring.
  Qed.
  Lemma ycomb_affine h x : forall a ks, recon (ycomb o xo h x a ks) = ycomb o yo h (recon x) a (map bapp ks).
  Proof.
    intros a. revert x. induction a as [|a0 a IH]; intros x [|k ks]; cbn; try reflexivity.
    rewrite IH, recon_step. reflexivity.
  Qed.
  Variables (f : Y -> S -> Y) (d : X -> S -> X).
  Hypothesis Hd : forall x t, f (recon x) t = bapp (d x t).
  Lemma stages_affine rows : forall x t h ks,
    map st_k (erk_stages o yo f rows (recon x) t h (map bapp ks)) = map bapp (map st_k (erk_stages o xo d rows x t h ks)).
  Proof.
    induction rows as [|[c a] rows IH]; intros x t h ks; cbn; [reflexivity|].
    rewrite <- ycomb_affine, Hd. f_equal. rewrite <- IH, map_app. reflexivity.
  Qed.
  Lemma erk_affine tab x t h : erk_next o yo f tab (recon x) t h = recon (erk_next o xo d tab x t h).
  Proof. unfold erk_next. rewrite ycomb_affine, <- stages_affine. reflexivity. Qed.
  Lemma erk_iter_affine tab ts hs n x : erk_iter o yo f tab ts hs n (recon x) = recon (erk_iter o xo d tab ts hs n x).
  Proof. induction n as [|n IH]; cbn; [reflexivity|]. rewrite IH. apply erk_affine. Qed.
  Lemma ab2_affine ts hs xs : ab2_sequence o xo d ts hs xs -> ab2_sequence o yo f ts hs (fun k => recon (xs k)).
  Proof.
    intros [H1 H2]. split.
    - rewrite H1, recon_step, Hd. reflexivity.
    - intros k. rewrite H2, recon_step, !Hd, (lin_add _ _ _ Hlin), !(lin_scale _ _ _ Hlin). reflexivity.
  Qed.
  Lemma sequence_ext f1 f2 : (forall x t, f1 x t = f2 x t) -> forall ts hs xs,
    ab2_sequence o xo f1 ts hs xs -> ab2_sequence o xo f2 ts hs xs.
  Proof. intros E ts hs xs [H1 H2]. split; [rewrite <- E; exact H1|intros k; rewrite <- !E; apply H2]. Qed.

  (** Both drives, given what the two systems compute. *)
  Lemma exact_drives {M W M' W'} (u : @esys S X M W) (v : @esys S Y M' W') good good' :
    computes u good d -> computes v good' f ->
    forall name k, explicit_num_bufs name = Ok k ->
    forall g g', used k (explicit_step o xo u name) g -> used k (explicit_step o yo v name) g' ->
    good (x_w g) -> good' (x_w g') -> x_y g' = recon (x_y g) ->
    forall ts hs n, exists gn gn',
      drive (explicit_step o xo u name) ts hs n g = (Ok tt, gn) /\
      drive (explicit_step o yo v name) ts hs n g' = (Ok tt, gn') /\ x_y gn' = recon (x_y gn).
  Proof.
    intros Hu Hv name k HN g g' U U' G G' E ts hs n.
    pose proof (used_length o xo u name k g HN U) as L. pose proof (used_length o yo v name k g' HN U') as L'.
    destruct (explicit_schemes o name k HN) as [[tab HT]|[-> ->]].
    - destruct (erk_drive o xo u HF HC HX good d Hu name tab k HT HN ts hs n g L G) as (gn & D & Yn & _).
      destruct (erk_drive o yo v HF HC HY good' f Hv name tab k HT HN ts hs n g' L' G') as (gn' & D' & Yn' & _).
      exists gn, gn'. split; [exact D|]. split; [exact D'|]. rewrite Yn', Yn, E. apply erk_iter_affine.
    - destruct (ab2_exists o xo d ts hs (x_y g)) as (xs & Hs & H0).
      destruct (ab2_drive o xo u HF HC HX good d Hu ts hs xs g n L G Hs H0) as (gn & D & Yn & _).
      destruct (ab2_drive o yo v HF HC HY good' f Hv ts hs (fun k => recon (xs k)) g' n L' G' (ab2_affine _ _ _ Hs))
        as (gn' & D' & Yn' & _); [rewrite H0; symmetry; exact E|].
      exists gn, gn'. split; [exact D|]. split; [exact D'|]. rewrite Yn', Yn. reflexivity.
  Qed.
  Lemma exact_drives_mm {M W M' W'} (u : @esys S X M W) (v : @esys S Y M' W') good good' ap ma fo ap' ma' fo' :
    computes_mm u good ap ma fo -> (forall x t, ap (ma x t) (d x t) = fo x t) ->
    (forall x t a b, ap (ma x t) a = ap (ma x t) b -> a = b) ->
    computes_mm v good' ap' ma' fo' -> (forall y t, ap' (ma' y t) (f y t) = fo' y t) ->
    (forall y t a b, ap' (ma' y t) a = ap' (ma' y t) b -> a = b) ->
    forall name k, explicit_num_bufs_mm name = Ok k ->
    forall g g', used k (explicit_step_mm o xo u name) g -> used k (explicit_step_mm o yo v name) g' ->
    good (x_w g) -> good' (x_w g') -> x_y g' = recon (x_y g) ->
    forall ts hs n, exists gn gn',
      drive (explicit_step_mm o xo u name) ts hs n g = (Ok tt, gn) /\
      drive (explicit_step_mm o yo v name) ts hs n g' = (Ok tt, gn') /\ x_y gn' = recon (x_y gn).
  Proof.
    intros Hu Hs Hi Hv Hs' Hi' name k HN g g' U U' G G' E ts hs n.
    pose proof (used_length_mm o xo u name k g HN U) as L. pose proof (used_length_mm o yo v name k g' HN U') as L'.
    destruct (explicit_schemes_mm o name k HN) as [[tab HT]|[-> ->]].
    - destruct (erk_drive_mm o xo u HF HC HX good _ _ _ d Hu Hs Hi name tab k HT HN ts hs n g L G) as (gn & D & Yn & _).
      destruct (erk_drive_mm o yo v HF HC HY good' _ _ _ f Hv Hs' Hi' name tab k HT HN ts hs n g' L' G') as (gn' & D' & Yn' & _).
      exists gn, gn'. split; [exact D|]. split; [exact D'|]. rewrite Yn', Yn, E. apply erk_iter_affine.
    - destruct (ab2_exists o xo d ts hs (x_y g)) as (xs & Hq & H0).
      destruct (ab2_drive_mm o xo u HF HC HX good _ _ _ d Hu Hs Hi ts hs xs g n L G Hq H0) as (gn & D & Yn & _).
      destruct (ab2_drive_mm o yo v HF HC HY good' _ _ _ f Hv Hs' Hi' ts hs (fun k => recon (xs k)) g' n L' G' (ab2_affine _ _ _ Hq))
        as (gn' & D' & Yn' & _); [rewrite H0; symmetry; exact E|].
      exists gn, gn'. split; [exact D|]. split; [exact D'|]. rewrite Yn', Yn. reflexivity.
  Qed.

  (** *** Implicit schemes *)
  Variable P : Y -> X.
  Hypothesis HP : forall v, P (bapp v) = v.
  Lemma bapp_inj a b : bapp a = bapp b -> a = b.
  Proof. intros E. rewrite <- (HP a), <- (HP b), E. reflexivity. Qed.
  Lemma vcancel (a b c : Y) : vadd yo a c = vadd yo b c -> a = b.
  Proof.
    intros E. assert (Q : vadd yo (vadd yo a c) (vscale yo (sopp o (s1 o)) c) = vadd yo (vadd yo b c) (vscale yo (sopp o (s1 o)) c))
      by (rewrite E; reflexivity).
    assert (Q1 : forall z, vadd yo (vadd yo z c) (vscale yo (sopp o (s1 o)) c) = z)
      by (intros z; vreduce o yo HF HY; ring).
    rewrite !Q1 in Q. exact Q.
  Qed.
  Lemma bdf1_affine x_n h t x :
    bdf1_eq xo (fun x => d x t) x_n h x <-> bdf1_eq yo (fun y => f y t) (recon x_n) h (recon x).
  Proof.
    unfold bdf1_eq. rewrite Hd, <- recon_step. split; intros E; [rewrite <- E; reflexivity|].
    rewrite !Hrec in E. apply vcancel in E. apply bapp_inj. exact E.
  Qed.
  Lemma cn_affine x_n h tn t x :
    cn_eq o xo (d x_n tn) (fun x => d x t) x_n h x <-> cn_eq o yo (f (recon x_n) tn) (fun y => f y t) (recon x_n) h (recon x).
  Proof.
    unfold cn_eq. rewrite !Hd, <- (lin_add _ _ _ Hlin), <- recon_step. split; intros E; [rewrite <- E; reflexivity|].
    rewrite !Hrec in E. apply vcancel in E. apply bapp_inj. exact E.
  Qed.
  Lemma bdf2_affine x_n x_nm1 h t x :
    bdf2_eq o xo (fun x => d x t) x_n x_nm1 h x <->
    bdf2_eq o yo (fun y => f y t) (recon x_n) (recon x_nm1) h (recon x).
  Proof.
    assert (H3 := s_nz3 o HF HC). unfold bdf2_eq, frac. rewrite !Hd, !Hrec.
    set (k13 := sdiv o (s_of_pos o 1) (s_of_pos o 3)). set (k43 := sdiv o (s_of_pos o 4) (s_of_pos o 3)).
    set (k23 := sdiv o (s_of_pos o 2) (s_of_pos o 3)).
    assert (K : k43 = sadd o (s1 o) k13) by (unfold k43, k13; cbn; field; exact H3).
    assert (Q1 : vadd yo (vadd yo (bapp x) tr) (vscale yo k13 (vadd yo (bapp x_nm1) tr)) =
                 vadd yo (bapp (vadd xo x (vscale xo k13 x_nm1))) (vscale yo k43 tr)).
    { rewrite (lin_add _ _ _ Hlin), (lin_scale _ _ _ Hlin), K. vreduce o yo HF HY; ring. }
    assert (Q2 : vadd yo (vscale yo k43 (vadd yo (bapp x_n) tr)) (vscale yo (smul o k23 h) (bapp (d x t))) =
                 vadd yo (bapp (vadd xo (vscale xo k43 x_n) (vscale xo (smul o k23 h) (d x t)))) (vscale yo k43 tr)).
    { rewrite (lin_add _ _ _ Hlin), !(lin_scale _ _ _ Hlin). vreduce o yo HF HY; ring. }
    rewrite Q1, Q2. split; intros E; [rewrite E; reflexivity|].
    apply vcancel in E. apply bapp_inj. exact E.
  Qed.
End Affine.

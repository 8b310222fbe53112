(** Explicit steppers used by the advancer, retried after failures, and created
    from temporaries. *)
From Coq Require Import ZArith List Bool Lia QArith Qcanon.
From Verif Require Import Base QcInst Laws LawInst AdvanceModel AdvanceSpec Compose
  ExplicitModel ExplicitSpec ExplicitProofs ExplicitOrder.
Import ListNotations.
Local Open Scope Z_scope.

(** A stepper object as seen by the advancer: its fields are part of the world. *)
Definition stepper_fn {S V M W} (do_step : S -> Z -> S -> @ecmd S V M W unit)
  : V -> S -> Z -> S -> @est S V M W -> outcome unit * (V * @est S V M W) :=
  fun y t k h g =>
    let '(r, g') := do_step t k h (mk_est y (x_bufs g) (x_aux g) (x_rhs g) (x_M g) (x_w g) (x_tr g)) in
    (r, (x_y g', g')).

Section Run.
  Context {S V M W : Type} (o : sops S) (vo : vops S V) (u : @esys S V M W).
  Hypothesis HF : sfield o.
  Hypothesis HC : schar0 o.
  Hypothesis HV : vspace o vo.
  Variable good : W -> Prop.
  Variable f : V -> S -> V.
  Hypothesis HU : computes u good f.
  Local Notation est := (@est S V M W).

  Lemma erk_advance name tab n (g : est) num t0 h y0 :
    tab_of o name = Some tab -> explicit_num_bufs name = Ok n ->
    used n (explicit_step o vo u name) g -> good (x_w g) -> Z.of_nat num < int32_max ->
    exists g' tr,
      advance_n_steps o (mk_user noop_obs (pol3 (fun _ _ _ w => (Ok h, w))) noop_guess
                           (stepper_fn (explicit_step o vo u name)))
        (Z.of_nat num) t0 (y0, g, []) =
      (Ok tt, (fixed_state (sadd o) (fun y t _ h => erk_next o vo f tab y t h) t0 h y0 num, g', tr)).
  Proof.
    intros HT HN HG Hg Hn.
    pose proof (compose_run o (stepper_fn (explicit_step o vo u name)) h t0 num
      (fun k s g => s = fixed_state (sadd o) (fun y t _ h => erk_next o vo f tab y t h) t0 h y0 k /\
                    length (x_bufs g) = n /\ good (x_w g))) as C.
    destruct C with (y0 := y0) (w0 := g) as (s & w & tr & E & -> & _).
    - intros k s w Hk (-> & L & G). unfold stepper_fn.
      destruct (erk_step_ok o vo u HF HC HV good f HU name tab n (fixed_time (sadd o) t0 h k)
        (Z.of_nat (Datatypes.S k)) h
        (mk_est (fixed_state (sadd o) (fun y t _ h => erk_next o vo f tab y t h) t0 h y0 k)
           (x_bufs w) (x_aux w) (x_rhs w) (x_M w) (x_w w) (x_tr w)) HT HN L G) as (g' & E & Y & T & G').
      rewrite E. exists (x_y g'), g'. split; [reflexivity|]. split; [exact Y|]. split; [|assumption].
      refine (proj1 (explicit_step_frame o vo u (fun _ => True) ltac:(repeat split; auto) name n
                  _ _ _ HN _ _ _ _ E)). exact L.
    - exact Hn.
    - split; [reflexivity|]. split; [|assumption]. eapply used_length; eassumption.
    - eauto.
  Qed.

  Lemma ab2_advance (g : est) num t0 h y0 ys :
    used 2 (explicit_step o vo u AdamsBashforth2) g -> good (x_w g) ->
    Z.of_nat num < int32_max ->
    ab2_sequence o vo f (fixed_time (sadd o) t0 h) (fun _ => h) ys -> ys 0%nat = y0 ->
    exists g' tr,
      advance_n_steps o (mk_user noop_obs (pol3 (fun _ _ _ w => (Ok h, w))) noop_guess
                           (stepper_fn (explicit_step o vo u AdamsBashforth2)))
        (Z.of_nat num) t0 (y0, g, []) = (Ok tt, (ys num, g', tr)).
  Proof.
    intros HG Hg Hn [S1 S2] H0.
    pose proof (compose_run o (stepper_fn (explicit_step o vo u AdamsBashforth2)) h t0 num
      (fun k s g => s = ys k /\ length (x_bufs g) = 2%nat /\ good (x_w g) /\
         (k <> 0%nat -> nth_error (x_bufs g) 0 =
            Some (f (ys (k - 1)%nat) (fixed_time (sadd o) t0 h (k - 1)))))) as C.
    destruct C with (y0 := y0) (w0 := g) as (s & w & tr & E & -> & _).
    - intros k s w Hk (-> & L & G & P). unfold stepper_fn. destruct k as [|k].
      + destruct (ab2_first o vo u HF HV good f HU (fixed_time (sadd o) t0 h 0) h
          (mk_est (ys 0%nat) (x_bufs w) (x_aux w) (x_rhs w) (x_M w) (x_w w) (x_tr w)) L G)
          as (g' & E & Y & L' & P' & _ & G').
        cbn [x_y] in *. change (Z.of_nat 1) with 1. rewrite E. exists (x_y g'), g'.
        split; [reflexivity|]. split; [rewrite Y; symmetry; exact S1|].
        split; [assumption|]. split; [assumption|]. intros _. exact P'.
      + destruct (ab2_later o vo u HF HC HV good f HU (Z.of_nat (Datatypes.S (Datatypes.S k)))
          (fixed_time (sadd o) t0 h (Datatypes.S k)) h (f (ys k) (fixed_time (sadd o) t0 h k))
          (mk_est (ys (Datatypes.S k)) (x_bufs w) (x_aux w) (x_rhs w) (x_M w) (x_w w) (x_tr w)))
          as (g' & E & Y & L' & P' & _ & G'); [lia|exact L| |exact G|].
        { cbn [x_bufs]. rewrite P by discriminate. replace (Datatypes.S k - 1)%nat with k by lia. reflexivity. }
        cbn [x_y] in *. rewrite E. exists (x_y g'), g'.
        split; [reflexivity|]. split.
        { rewrite Y. specialize (S2 k). replace (k + 2)%nat with (Datatypes.S (Datatypes.S k)) in S2 by lia.
          replace (k + 1)%nat with (Datatypes.S k) in S2 by lia. symmetry. exact S2. }
        split; [assumption|]. split; [assumption|]. intros _.
        replace (Datatypes.S (Datatypes.S k) - 1)%nat with (Datatypes.S k) by lia. exact P'.
    - exact Hn.
    - split; [auto|]. split; [|split; [assumption|congruence]].
      apply (used_length o vo u AdamsBashforth2); [reflexivity|assumption].
    - eauto.
  Qed.
End Run.

(** * Retrying a failed step *)
(** [name]'s stepper, whose user code [u] makes the step fail once and then
    works, gives in the second attempt the state that user code [u'], which never
    fails, gives at once. *)
Definition retry_ok {S V M W} (o : sops S) (vo : vops S V) (name : scheme) : Prop :=
  forall n (u u' : @esys S V M W) (good good' : W -> Prop) (f : V -> S -> V) g e g1 t step h g2 g2',
    explicit_num_bufs name = Ok n ->
    computes u good f -> computes u' good' f ->
    used n (explicit_step o vo u name) g ->
    explicit_step o vo u name t step h g = (Throw e, g1) ->
    good (x_w g1) -> good' (x_w g) ->
    explicit_step o vo u name t step h g1 = (Ok tt, g2) ->
    explicit_step o vo u' name t step h g = (Ok tt, g2') ->
    x_y g2 = x_y g2'.

Lemma retry_one_step {S V M W} (o : sops S) (vo : vops S V) name tab :
  sfield o -> schar0 o -> vspace o vo -> tab_of o name = Some tab -> @retry_ok S V M W o vo name.
Proof.
  intros HF HC HV HT n u u' good good' f g e g1 t step h g2 g2' HN HU HU' HG E1 G G' E2 E2'.
  pose proof (used_length o vo u name n g HN HG) as L.
  destruct (explicit_step_frame o vo u (fun _ => True) ltac:(repeat split; auto) name n
              t step h HN _ _ _ L E1) as (L1 & Y1 & _).
  destruct (erk_step_ok o vo u HF HC HV good f HU name tab n t step h g1 HT HN L1 G) as (ga & A & Ya & _).
  destruct (erk_step_ok o vo u' HF HC HV good' f HU' name tab n t step h g HT HN L G') as (gb & B & Yb & _).
  rewrite E2 in A. injection A as ->. rewrite E2' in B. injection B as ->.
  rewrite Ya, Yb, Y1; [reflexivity|discriminate].
Qed.

(** Witness against AB2: y' = y, y_0 = 1, h = 1; in step 2 the rhs observer
    throws once. Then y_2 = 4 instead of 9/2. *)
Definition ab2_user : @esys Qc Qc unit nat :=
  mk_esys (fun y _ _ w => (Ok tt, (y, w)))
          (fun _ _ m f w => (Ok tt, (m, f, w)))
          (fun _ x _ w => (Ok tt, (x, w)))
          (fun step _ _ _ w => match w with
                               | O => (Ok tt, O)
                               | Datatypes.S w' => (Throw ETimeStep, w')
                               end).
Definition ab2_user' : @esys Qc Qc unit nat :=
  mk_esys (fun y _ _ w => (Ok tt, (y, w)))
          (fun _ _ m f w => (Ok tt, (m, f, w)))
          (fun _ x _ w => (Ok tt, (x, w)))
          (fun step _ _ _ w => (Ok tt, w)).
Definition q (z : Z) : Qc := Q2Qc (z # 1).
Definition QcV : vops Qc Qc := self_v QcS.
(** after step 1: state 2, rhs buffers 1 and 0 *)
Definition ab2_after_1 (w : nat) : @est Qc Qc unit nat :=
  mk_est (q 2) [q 1; q 0] (q 0) (q 0) tt w [].

Definition run_state {G A} (r : outcome A * G) : G := snd r.
Lemma ab2_retry_value :
  let r1 := explicit_step QcS QcV ab2_user AdamsBashforth2 (q 1) 2 (q 1) (ab2_after_1 1) in
  let r2 := explicit_step QcS QcV ab2_user AdamsBashforth2 (q 1) 2 (q 1) (snd r1) in
  let r' := explicit_step QcS QcV ab2_user' AdamsBashforth2 (q 1) 2 (q 1) (ab2_after_1 1) in
  fst r1 = Throw ETimeStep /\ x_w (snd r1) = O /\ fst r2 = Ok tt /\ fst r' = Ok tt /\
  this (x_y (snd r2)) = (4 # 1)%Q /\ this (x_y (snd r')) = (9 # 2)%Q.
Proof. vm_compute. repeat split. Qed.

Lemma ab2_retry_fails : ~ @retry_ok Qc Qc unit nat QcS QcV AdamsBashforth2.
Proof.
  intros H.
  destruct ab2_retry_value as (A & Bw & B & C & D & E).
  set (r1 := explicit_step QcS QcV ab2_user AdamsBashforth2 (q 1) 2 (q 1) (ab2_after_1 1)) in *.
  set (r2 := explicit_step QcS QcV ab2_user AdamsBashforth2 (q 1) 2 (q 1) (snd r1)) in *.
  set (r' := explicit_step QcS QcV ab2_user' AdamsBashforth2 (q 1) 2 (q 1) (ab2_after_1 1)) in *.
  assert (X : x_y (snd r2) = x_y (snd r')).
  { apply (H 2%nat ab2_user ab2_user' (fun w => w = O) (fun _ => True) (fun y _ => y)
             (ab2_after_1 1) ETimeStep (snd r1) (q 1) 2 (q 1)).
    - reflexivity.
    - split; intros; subst; eexists; split; reflexivity.
    - split; intros; eexists; split; try reflexivity; exact I.
    - apply UsedFresh. reflexivity.
    - fold r1. rewrite <- A. destruct r1; reflexivity.
    - exact Bw.
    - exact I.
    - fold r2. rewrite <- B. destruct r2; reflexivity.
    - fold r'. rewrite <- C. destruct r'; reflexivity. }
  rewrite X in D. rewrite D in E. discriminate E.
Qed.

(** * Creation *)
(** The buffers of a created stepper are those the given system creates. *)
Definition creates_from_system {Sys V} (createRhs createState : Sys -> V)
           (moved_from : Sys -> Sys) (temporary : bool) : Prop :=
  forall name n sys, explicit_num_bufs name = Ok n ->
    explicit_create createRhs createState moved_from name temporary sys =
    Ok (sys, repeat (createRhs sys) n, createState sys).

Lemma create_lvalue {Sys V} (cr cs : Sys -> V) mv : creates_from_system cr cs mv false.
Proof. intros name n sys H. unfold explicit_create. rewrite H. reflexivity. Qed.
Lemma create_rvalue {Sys V} (cr cs : Sys -> V) mv :
  (forall s, cr (mv s) = cr s) -> (forall s, cs (mv s) = cs s) -> creates_from_system cr cs mv true.
Proof. intros H1 H2 name n sys H. unfold explicit_create. rewrite H, H1, H2. reflexivity. Qed.

(** A system that owns a mesh (std::vector of points) and creates one entry per
    point; a moved-from std::vector is empty. *)
Lemma create_rvalue_fails :
  ~ creates_from_system (fun mesh : list Z => map (fun _ => 0) mesh)
      (fun mesh => map (fun _ => 0) mesh) (fun _ => []) true.
Proof.
  intros H. specialize (H ForwardEuler 1%nat [1; 2] eq_refl). discriminate H.
Qed.

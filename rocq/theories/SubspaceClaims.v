(** The claims about subspaces, C33 and C59. *)
From Coq Require Import ZArith List Bool Lia.
From Verif Require Import Base SubspaceModel SubspaceSpec SubspaceProofs.
Import ListNotations.

Section Claims.
  Context {S M V X : Type} (o : sops S) (vo : vops S V) (mprod : M -> X -> V) (mrows mcols : M -> nat).
  Variable xzeros : nat -> X.
  Variables (mview : bool) (mgone : M) (vgone : V).
  Hypothesis H1 : forall v, vscale vo (s1 o) v = v.

  Lemma values_claim affine :
    untouched vo mview false mgone vgone affine /\
    fixed o vo mprod mcols mrows xzeros mview false mgone vgone affine.
  Proof.
    split; intros h b t phi0 t0 Hm Hv;
      destruct (values_immutable o vo mprod mrows mcols xzeros mview false mgone vgone H1 eq_refl
                  h (LValue b) (LValue t) affine phi0 t0 Hm Hv eq_refl) as (s & h1 & E & Km & Kv & HC);
      exists s, h1.
    - split; [exact E|]. split.
      + intros a m Ha. apply Km; [exact Ha|]. intros [_ Hx]; discriminate Hx.
      + intros a v Ha. apply Kv; [exact Ha|]. intros [_ Hx]; discriminate Hx.
    - split; [exact E|exact HC].
  Qed.

  Lemma views_untouched_not : forall (m : M) (v : V), v <> vzero vo ->
    ~ untouched vo mview true mgone vgone false.
  Proof.
    intros m v Hv HU.
    destruct (HU (mk_mem [m] [v]) 0 0 m v eq_refl eq_refl) as (s & h1 & E & _ & Kv).
    destruct (handles_zero_the_argument vo mview true mgone vgone eq_refl
                (mk_mem [m] [v]) (LValue 0) (LValue 0) m v eq_refl eq_refl) as (s' & h1' & E' & HZ).
    rewrite E in E'. injection E' as _ Eh. subst h1'.
    specialize (Kv 0 v eq_refl). cbv [v_at arg_of] in Kv, HZ. congruence.
  Qed.
  Lemma views_fixed_not : forall (m : M) (x : X) (t w : V),
    vadd vo (mprod m x) w <> vadd vo (mprod m x) t ->
    ~ fixed o vo mprod mcols mrows xzeros mview true mgone vgone true.
  Proof.
    intros m x t w Hne HF.
    destruct (HF (mk_mem [m] [t; t]) 0 0 m t eq_refl eq_refl) as (s & h1 & E & HC).
    destruct (handles_follow_the_argument o vo mprod mview true mgone vgone H1 eq_refl
                (mk_mem [m] [t; t]) (LValue 0) (LValue 0) m t eq_refl eq_refl eq_refl) as (s' & h1' & E' & HM).
    rewrite E in E'. injection E' as <- <-.
    destruct (create_ok vo mview true mgone vgone (mk_mem [m] [t; t])
                (LValue 0) (LValue 0) true m t eq_refl eq_refl) as (s'' & h1'' & E'' & HS & _ & _ & Ht & _ & Kv).
    rewrite E in E''. injection E'' as <- <-.
    assert (H0 : v_at h1 1 t).
    { cbv [v_at]. rewrite Kv; [reflexivity|cbn; lia| |].
      - intros [Hx _]; discriminate Hx.
      - intros (_ & Hx & _); discriminate Hx. }
    assert (H00 : v_at h1 0 t).
    { destruct HS as (_ & HS & _). rewrite (Ht eq_refl) in HS. exact HS. }
    destruct (HC (all_m (mk_mem [m] [t; t])) (all_v (mk_mem [m] [t; t])) (put_v h1 0 w)) as [HM2 _].
    { eapply (caller_write_v _ _ _ 0 w); [cbn; auto| |constructor].
      apply nth_error_lt in H00. exact H00. }
    assert (H3 : v_at (put_v h1 0 w) 1 t).
    { cbv [v_at]. rewrite (put_v_other h1 0 t w 1 H00); [exact H0|lia]. }
    destruct (HM2 x 1 t) as (h3 & E3 & V3 & _); [cbn; auto|exact H3|].
    destruct (HM w x 1 t) as (h4 & E4 & V4 & _); [cbn; auto|exact H3|].
    cbn [arg_of] in E4. rewrite E3 in E4. injection E4 as <-. cbv [v_at image] in V3, V4. congruence.
  Qed.

  (** From temporaries of value types *)
  Lemma temporaries_claim : forall (h : mem) b t affine phi0 t0,
    m_at h (arg_of b) phi0 -> v_at h (arg_of t) t0 ->
    exists s h1, sub_create vo false false mgone vgone b t affine h = (Ok s, h1) /\
      (forall a m, m_at h a m -> b <> RValue a -> m_at h1 a m) /\
      (forall a v, v_at h a v -> t <> RValue a -> v_at h1 a v) /\
      forall am av h2, caller (all_m h) (all_v h) h1 am av h2 ->
        maps o vo mprod h2 s av phi0 t0 affine /\
        accessors o vo mprod mcols mrows xzeros h2 s phi0 t0 affine.
  Proof.
    intros h b t affine phi0 t0 Hm Hv.
    destruct (values_immutable o vo mprod mrows mcols xzeros false false mgone vgone H1 eq_refl
                h b t affine phi0 t0 Hm Hv) as (s & h1 & E & Km & Kv & HC); [destruct b; reflexivity|].
    exists s, h1. split; [exact E|]. split; [|split; [|exact HC]].
    - intros a m Ha Hn. apply Km; [exact Ha|]. intros [_ Hx]. exact (Hn Hx).
    - intros a v Ha Hn. apply Kv; [exact Ha|]. intros [_ Hx]. exact (Hn Hx).
  Qed.

  Lemma basis_not : forall (m : M) (v : V) vview,
    ~ (forall (h : mem) b t phi0 t0, m_at h b phi0 -> v_at h t t0 ->
       exists s h1, sub_create vo mview vview mgone vgone (LValue b) (LValue t) false h = (Ok s, h1) /\
         exists m, sub_basis s h1 = (Ok m, h1)).
  Proof.
    intros m v vview HB. destruct (HB (mk_mem [m] [v]) 0 0 m v eq_refl eq_refl) as (s & h1 & E & m' & Em).
    destruct (basis_claim vo mview vview mgone vgone (mk_mem [m] [v]) (LValue 0) (LValue 0) false m v eq_refl eq_refl)
      as (s' & h1' & E' & Em'). rewrite E in E'. injection E' as <- <-. rewrite Em in Em'. discriminate Em'.
  Qed.
End Claims.

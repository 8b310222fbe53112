(** Values computed by the Galerkin systems. *)
From Coq Require Import ZArith List Bool Reals.
From Verif Require Import Base Laws ExplicitModel ImplicitModel ExplicitSpec ImplicitSpec LspgModel RomSpec
  GalerkinModel GalerkinSpec.
Import ListNotations.
Local Open Scope cmd_scope.

(** * Hoare logic for the straight-line code *)
Section Hoare.
  Context {S X Y Rf Jf Mf Rm Jm J M B W : Type}.
  Variables (must : bool) (good : W -> Prop).
  Notation gmem := (gmem (X:=X) (Y:=Y) (Rf:=Rf) (Jf:=Jf) (Mf:=Mf) (Rm:=Rm) (Jm:=Jm) (J:=J) (M:=M) (W:=W)).
  Notation gcmd := (cmd gmem unit).
  Definition triple (P : gmem -> Prop) (c : gcmd) (Q : gmem -> Prop) : Prop :=
    forall g, good (g_w g) -> P g ->
      good (g_w (snd (c g))) /\ (fst (c g) = Ok tt -> Q (snd (c g))) /\ (must = true -> fst (c g) = Ok tt).
  Lemma triple_seq P Q R c d : triple P c Q -> triple Q d R -> triple P (c;;; d) R.
  Proof.
    intros HC HD g Hg HP. destruct (HC g Hg HP) as (G1 & Q1 & M1). unfold bind.
    destruct (c g) as [e g1]. cbn [fst snd] in *. destruct e as [[]|e|u|].
    - apply HD; [exact G1|apply Q1; reflexivity].
    - split; [exact G1|split; [discriminate|exact M1]].
    - split; [exact G1|split; [discriminate|exact M1]].
    - split; [exact G1|split; [discriminate|exact M1]].
  Qed.
  Lemma triple_if (P Q : gmem -> Prop) c :
    (forall g, P g -> o_j g = None -> Q g) -> triple (fun g => P g /\ o_j g <> None) c Q ->
    triple P (if_requested c) Q.
  Proof.
    intros HN HC g Hg HP. unfold if_requested, requested. destruct (o_j g) as [j|] eqn:E.
    - apply HC; [exact Hg|split; [exact HP|congruence]].
    - cbn. split; [exact Hg|split; [intros _; apply HN; assumption|reflexivity]].
  Qed.
  Lemma triple_pure (P Q : gmem -> Prop) (h : gmem -> gmem) :
    (forall g, P g -> Q (h g) /\ g_w (h g) = g_w g) -> triple P (fun g => (Ok tt, h g)) Q.
  Proof.
    intros H g Hg HP. destruct (H g HP) as [HQ E]. cbn. rewrite E. split; [exact Hg|split; [intros _; exact HQ|reflexivity]].
  Qed.
  (** A call of the user, whose result goes to some member. *)
  Lemma triple_call {A} (P Q : gmem -> Prop) (call : gmem -> outcome unit * (A * W)) (store : gmem -> A -> W -> gmem) v :
    (forall g, P g -> good (g_w g) -> returns must good (call g) (v g)) ->
    (forall g a w, g_w (store g a w) = w) ->
    (forall g w, P g -> Q (store g (v g) w)) ->
    triple P (fun g => let '(e, (a, w)) := call g in (e, store g a w)) Q.
  Proof.
    intros HC HW HQ g Hg HP. destruct (HC g HP Hg) as (G1 & V1 & M1).
    destruct (call g) as [e [a w]]. cbn [fst snd] in *. rewrite HW.
    split; [exact G1|split; [|exact M1]]. intros ->. rewrite (V1 eq_refl). apply HQ. exact HP.
  Qed.
End Hoare.

Section Values.
  Context {S X Y Rf Jf Mf Rm Jm J B W : Type} (o : sops S) (xo : vops S X) (jo : vops S J).
  Hypothesis HX : vspace o xo.
  Hypothesis HJ : vspace o jo.
  Variables (must : bool) (good : W -> Prop).
  Variables (recon : X -> Y) (phi : B).
  Let go := gobj Y Rf Jf Mf Rm Jm W.
  Lemma prod_1_0 {A V} (vo : vops S V) (prod : S -> B -> A -> S -> V -> V) (P : A -> V) v r :
    vspace o vo -> product_is vo prod phi P -> prod (s1 o) phi v (s0 o) r = P v.
  Proof.
    intros HV HP. rewrite HP, (vs_1 _ _ HV), (vs_0 _ _ HV). apply (va_0_r _ _ HV).
  Qed.

  Section Calls.
    Context {M : Type}.
    Notation gmem := (gmem (X:=X) (Y:=Y) (Rf:=Rf) (Jf:=Jf) (Mf:=Mf) (Rm:=Rm) (Jm:=Jm) (J:=J) (M:=M) (W:=W)).
    Notation tri := (triple (Mf:=Mf) (Rm:=Rm) (Jm:=Jm) (M:=M) must good).
    Lemma map_triple (Q : gmem -> Prop) x :
      tri (fun g => Q (mk_gmem (recon x) (g_f g) (g_j g) (g_m g) (g_kf g) (g_kj g) (g_w g) (o_r g) (o_j g) (o_m g)))
          (map_state recon x) Q.
    Proof. apply triple_pure. intros g H. split; [exact H|reflexivity]. Qed.
    Lemma rhs_triple (fom : sfom (S:=S) (Y:=Y) (R:=Rf) (J:=Jf) (B:=B) (W:=W)) f (Q : gmem -> Prop) (t : S) : fom_rhs must good fom f ->
      tri (fun g => forall w, Q (mk_gmem (g_y g) (f (g_y g) t) (g_j g) (g_m g) (g_kf g) (g_kj g) w (o_r g) (o_j g) (o_m g)))
          (call_rhs fom t) Q.
    Proof.
      intros HF. unfold call_rhs.
      apply (triple_call must good _ _ (fun g => fo_rhs fom (g_y g) t (g_f g) (g_w g))
        (fun g a w => mk_gmem (g_y g) a (g_j g) (g_m g) (g_kf g) (g_kj g) w (o_r g) (o_j g) (o_m g)) (fun g => f (g_y g) t)).
      - intros g _ Hg. apply HF. exact Hg.
      - reflexivity.
      - intros g w H. apply H.
    Qed.
    Lemma jac_triple (fom : sfom (S:=S) (Y:=Y) (R:=Rf) (J:=Jf) (B:=B) (W:=W)) df (Q : gmem -> Prop) (t : S) : fom_jac must good fom df ->
      tri (fun g => forall w, Q (mk_gmem (g_y g) (g_f g) (df (g_y g) phi t) (g_m g) (g_kf g) (g_kj g) w (o_r g) (o_j g) (o_m g)))
          (call_jac phi fom t) Q.
    Proof.
      intros HF. unfold call_jac.
      apply (triple_call must good _ _ (fun g => fo_jac fom (g_y g) phi t (g_j g) (g_w g))
        (fun g a w => mk_gmem (g_y g) (g_f g) a (g_m g) (g_kf g) (g_kj g) w (o_r g) (o_j g) (o_m g)) (fun g => df (g_y g) phi t)).
      - intros g _ Hg. apply HF. exact Hg.
      - reflexivity.
      - intros g w H. apply H.
    Qed.
    Lemma mass_triple mass dm (Q : gmem -> Prop) (t : S) : fom_mass must good mass dm ->
      tri (fun g => forall w, Q (mk_gmem (g_y g) (g_f g) (g_j g) (dm (g_y g) phi t) (g_kf g) (g_kj g) w (o_r g) (o_j g) (o_m g)))
          (call_mass phi mass t) Q.
    Proof.
      intros HF. unfold call_mass.
      apply (triple_call must good _ _ (fun g => mass (g_y g) phi t (g_m g) (g_w g))
        (fun g a w => mk_gmem (g_y g) (g_f g) (g_j g) a (g_kf g) (g_kj g) w (o_r g) (o_j g) (o_m g)) (fun g => dm (g_y g) phi t)).
      - intros g _ Hg. apply HF. exact Hg.
      - reflexivity.
      - intros g w H. apply H.
    Qed.
    Lemma project_r_triple prodv T (Q : gmem -> Prop) : product_is xo prodv phi T ->
      tri (fun g => Q (mk_gmem (g_y g) (g_f g) (g_j g) (g_m g) (g_kf g) (g_kj g) (g_w g) (T (g_f g)) (o_j g) (o_m g)))
          (project_r o phi prodv) Q.
    Proof.
      intros HT. unfold project_r, set_r. apply triple_pure. intros g H. rewrite (prod_1_0 _ _ _ _ _ HX HT).
      split; [exact H|reflexivity].
    Qed.
    Lemma project_j_triple prodj TJ (Q : gmem -> Prop) : product_is jo prodj phi TJ ->
      tri (fun g => Q (mk_gmem (g_y g) (g_f g) (g_j g) (g_m g) (g_kf g) (g_kj g) (g_w g) (o_r g)
                               (option_map (fun _ => TJ (g_j g)) (o_j g)) (o_m g)))
          (project_j o phi prodj) Q.
    Proof.
      intros HT. unfold project_j, on_jac. apply triple_pure. intros g H. unfold option_map in H.
      destruct (o_j g); rewrite ?(prod_1_0 _ _ _ _ _ HJ HT); split; try exact H; reflexivity.
    Qed.
    Lemma reduce_r_triple {A AJ} hyp H HHJ (src : gmem -> A) (Q : gmem -> Prop) (t : S) :
      reducer_is (AJ:=AJ) must good hyp H HHJ ->
      tri (fun g => forall w, Q (mk_gmem (g_y g) (g_f g) (g_j g) (g_m g) (g_kf g) (g_kj g) w (H t (src g)) (o_j g) (o_m g)))
          (reduce_r hyp src t) Q.
    Proof.
      intros HR. unfold reduce_r.
      apply (triple_call must good _ _ (fun g => hr_r hyp (src g) t (o_r g) (g_w g))
        (fun g a w => mk_gmem (g_y g) (g_f g) (g_j g) (g_m g) (g_kf g) (g_kj g) w a (o_j g) (o_m g)) (fun g => H t (src g))).
      - intros g _ Hg. apply HR. exact Hg.
      - reflexivity.
      - intros g w HH. apply HH.
    Qed.
    Lemma reduce_j_triple {A AJ} hyp H HHJ (src : gmem -> AJ) (Q : gmem -> Prop) (t : S) :
      reducer_is (A:=A) must good hyp H HHJ ->
      tri (fun g => o_j g <> None /\
                    forall w, Q (mk_gmem (g_y g) (g_f g) (g_j g) (g_m g) (g_kf g) (g_kj g) w (o_r g) (Some (HHJ t (src g))) (o_m g)))
          (reduce_j hyp src t) Q.
    Proof.
      intros HR g Hg [HN HQ]. unfold reduce_j. destruct (o_j g) as [j0|]; [|contradiction HN; reflexivity].
      destruct (proj2 HR (src g) t j0 (g_w g) Hg) as (G1 & V1 & M1).
      destruct (hr_j hyp (src g) t j0 (g_w g)) as [e [a w]]. cbn [fst snd g_w] in *.
      split; [exact G1|split; [|exact M1]]. intros E. rewrite (V1 E). apply HQ.
    Qed.
    Lemma mask_r_triple msk K KJ (Q : gmem -> Prop) : masker_is must good msk K KJ ->
      tri (fun g => forall w, Q (mk_gmem (g_y g) (g_f g) (g_j g) (g_m g) (K (g_f g)) (g_kj g) w (o_r g) (o_j g) (o_m g)))
          (mask_r msk) Q.
    Proof.
      intros HR. unfold mask_r.
      apply (triple_call must good _ _ (fun g => mk_R msk (g_f g) (g_kf g) (g_w g))
        (fun g a w => mk_gmem (g_y g) (g_f g) (g_j g) (g_m g) a (g_kj g) w (o_r g) (o_j g) (o_m g)) (fun g => K (g_f g))).
      - intros g _ Hg. apply HR. exact Hg.
      - reflexivity.
      - intros g w HH. apply HH.
    Qed.
    Lemma mask_j_triple msk K KJ (Q : gmem -> Prop) : masker_is must good msk K KJ ->
      tri (fun g => forall w, Q (mk_gmem (g_y g) (g_f g) (g_j g) (g_m g) (g_kf g) (KJ (g_j g)) w (o_r g) (o_j g) (o_m g)))
          (mask_j msk) Q.
    Proof.
      intros HR. unfold mask_j.
      apply (triple_call must good _ _ (fun g => mk_J msk (g_j g) (g_kj g) (g_w g))
        (fun g a w => mk_gmem (g_y g) (g_f g) (g_j g) (g_m g) (g_kf g) a w (o_r g) (o_j g) (o_m g)) (fun g => KJ (g_j g))).
      - intros g _ Hg. apply HR. exact Hg.
      - reflexivity.
      - intros g w HH. apply HH.
    Qed.
    Lemma weaken (P P' Q : gmem -> Prop) c : (forall g, P g -> P' g) -> tri P' c Q -> tri P c Q.
    Proof. intros H HT g Hg HP. apply HT; [exact Hg|apply H; exact HP]. Qed.
    Lemma if_triple (P Q : gmem -> Prop) c : tri P c Q ->
      tri (fun g => match o_j g with Some _ => P g | None => Q g end) (if_requested c) Q.
    Proof.
      intros H. apply triple_if.
      - intros g HH E. rewrite E in HH. exact HH.
      - eapply weaken; [|exact H]. intros g [HH E]. destruct (o_j g); [exact HH|contradiction E; reflexivity].
    Qed.
    Lemma project_m_triple prodm TM (mo : vops S M) (Q : gmem -> Prop) : vspace o mo -> product_is mo prodm phi TM ->
      tri (fun g => Q (mk_gmem (g_y g) (g_f g) (g_j g) (g_m g) (g_kf g) (g_kj g) (g_w g) (o_r g) (o_j g) (TM (g_m g))))
          (project_m o phi prodm) Q.
    Proof.
      intros HM HT. unfold project_m, set_m. apply triple_pure. intros g H. rewrite (prod_1_0 _ _ _ _ _ HM HT).
      split; [exact H|reflexivity].
    Qed.
  End Calls.
End Values.

Section SteadyCalls.
  Context {X Y Rf Jf Rm Jm J B W : Type}.
  Variables (must : bool) (good : W -> Prop) (phi : B).
  Variable fom : steady_fom (Y:=Y) (Rf:=Rf) (Jf:=Jf) (B:=B) (W:=W).
  Notation gmem := (gmem (X:=X) (Y:=Y) (Rf:=Rf) (Jf:=Jf) (Mf:=unit) (Rm:=Rm) (Jm:=Jm) (J:=J) (M:=unit) (W:=W)).
  Lemma res_triple f df dv (Q : gmem -> Prop) : steady_is must good fom f df dv ->
    triple must good (fun g => forall w, Q (mk_gmem (g_y g) (f (g_y g)) (g_j g) (g_m g) (g_kf g) (g_kj g) w (o_r g) (o_j g) (o_m g)))
        (call_res fom) Q.
  Proof.
    intros HF. unfold call_res.
    apply (triple_call must good _ _ (fun g => sf_res fom (g_y g) (g_f g) (g_w g))
      (fun g a w => mk_gmem (g_y g) a (g_j g) (g_m g) (g_kf g) (g_kj g) w (o_r g) (o_j g) (o_m g)) (fun g => f (g_y g))).
    - intros g _ Hg. apply HF. exact Hg.
    - reflexivity.
    - intros g w H. apply H.
  Qed.
  Lemma rj_triple f df dv (Q : gmem -> Prop) : steady_is must good fom f df dv ->
    triple must good (fun g => forall w, Q (mk_gmem (g_y g) (f (g_y g)) (match o_j g with Some _ => df (g_y g) phi | None => g_j g end)
                                        (g_m g) (g_kf g) (g_kj g) w (o_r g) (o_j g) (o_m g)))
        (call_rj phi fom) Q.
  Proof.
    intros HF g Hg HQ. unfold call_rj, requested.
    destruct (proj1 (proj2 HF) (g_y g) (g_f g) phi (if match o_j g with Some _ => true | None => false end then Some (g_j g) else None)
                (g_w g) Hg) as (G1 & V1 & M1).
    destruct (sf_rj fom _ _ _ _ _) as [e [[a k] w]]. cbn [fst snd g_w] in *.
    split; [exact G1|split; [|exact M1]]. intros E. specialize (V1 E). injection V1 as -> ->.
    specialize (HQ w). destruct (o_j g); exact HQ.
  Qed.
End SteadyCalls.

(** Forward execution. *)
Lemma fwd {X Y Rf Jf Mf Rm Jm J M W must good}
  (P Q : gmem (X:=X) (Y:=Y) (Rf:=Rf) (Jf:=Jf) (Mf:=Mf) (Rm:=Rm) (Jm:=Jm) (J:=J) (M:=M) (W:=W) -> Prop) c g :
  triple must good P c Q -> P g -> triple must good (eq g) c Q.
Proof. intros H HP g' Hg <-. apply H; assumption. Qed.
Lemma fwd_seq {X Y Rf Jf Mf Rm Jm J M W must good}
  (Q : gmem (X:=X) (Y:=Y) (Rf:=Rf) (Jf:=Jf) (Mf:=Mf) (Rm:=Rm) (Jm:=Jm) (J:=J) (M:=M) (W:=W) -> Prop) c d g :
  triple must good (eq g) c (fun g' => triple must good (eq g') d Q) -> triple must good (eq g) (c;;; d) Q.
Proof.
  intros H. eapply triple_seq; [exact H|]. intros g' Hg HT. apply HT; [exact Hg|reflexivity].
Qed.
Lemma fwd_none {X Y Rf Jf Mf Rm Jm J M W must good}
  (Q : gmem (X:=X) (Y:=Y) (Rf:=Rf) (Jf:=Jf) (Mf:=Mf) (Rm:=Rm) (Jm:=Jm) (J:=J) (M:=M) (W:=W) -> Prop) c g :
  o_j g = None -> Q g -> triple must good (eq g) (if_requested c) Q.
Proof.
  intros E HQ g' Hg <-. unfold if_requested, requested. rewrite E. cbn. repeat split; [exact Hg|intros _; exact HQ].
Qed.
Lemma fwd_some {X Y Rf Jf Mf Rm Jm J M W must good}
  (Q : gmem (X:=X) (Y:=Y) (Rf:=Rf) (Jf:=Jf) (Mf:=Mf) (Rm:=Rm) (Jm:=Jm) (J:=J) (M:=M) (W:=W) -> Prop) c g j :
  o_j g = Some j -> triple must good (eq g) c Q -> triple must good (eq g) (if_requested c) Q.
Proof.
  intros E HQ g' Hg <-. unfold if_requested, requested. rewrite E. apply HQ; [exact Hg|reflexivity].
Qed.
Ltac sx :=
  lazymatch goal with
  | |- triple _ _ _ (bind _ _) _ => apply fwd_seq; sx
  | |- triple _ _ _ (if_requested _) _ => first [eapply fwd_none; [reflexivity|]|eapply fwd_some; [reflexivity|sx]]
  | |- triple _ _ _ (map_state _ _) _ => eapply fwd; [eapply map_triple|]; sx_go
  | |- triple _ _ _ (call_rhs _ _) _ => eapply fwd; [eapply rhs_triple; eassumption|]; sx_go
  | |- triple _ _ _ (call_res _) _ => eapply fwd; [eapply res_triple; eassumption|]; sx_go
  | |- triple _ _ _ (call_rj _ _) _ => eapply fwd; [eapply rj_triple; eassumption|]; sx_go
  | |- triple _ _ _ (call_jac _ _ _) _ => eapply fwd; [eapply jac_triple; eassumption|]; sx_go
  | |- triple _ _ _ (call_mass _ _ _) _ => eapply fwd; [eapply mass_triple; eassumption|]; sx_go
  | |- triple _ _ _ (project_r _ _ _) _ => eapply fwd; [eapply project_r_triple; eassumption|]; sx_go
  | |- triple _ _ _ (project_j _ _ _) _ => eapply fwd; [eapply project_j_triple; eassumption|]; sx_go
  | |- triple _ _ _ (project_m _ _ _) _ => eapply fwd; [eapply project_m_triple; eassumption|]; sx_go
  | |- triple _ _ _ (reduce_r _ _ _) _ => eapply fwd; [eapply reduce_r_triple; eassumption|]; sx_go
  | |- triple _ _ _ (reduce_j _ _ _) _ => eapply fwd; [eapply reduce_j_triple; eassumption|split; [discriminate|]]; sx_go
  | |- triple _ _ _ (mask_r _) _ => eapply fwd; [eapply mask_r_triple; eassumption|]; sx_go
  | |- triple _ _ _ (mask_j _) _ => eapply fwd; [eapply mask_j_triple; eassumption|]; sx_go
  | |- _ => idtac
  end
with sx_go :=
  cbn [g_y g_f g_j g_m g_kf g_kj g_w o_r o_j o_m]; intros;
  lazymatch goal with |- triple _ _ _ _ _ => sx | |- _ => idtac end.

Section Systems.
  Context {S X Y Rf Jf Mf Rm Jm J B W : Type} (o : sops S) (xo : vops S X) (jo : vops S J).
  Hypothesis HX : vspace o xo.
  Hypothesis HJ : vspace o jo.
  Variables (must : bool) (good : W -> Prop).
  Variables (recon : X -> Y) (phi : B).
  Notation go := (gobj Y Rf Jf Mf Rm Jm W).
  Definition good_obj (b : go) : Prop := good (b_w b).

  Lemma method_rhs c (x : X) (t : S) r (b : go) v :
    triple (M:=unit) must good (eq (enter (J:=J) r None tt b)) (c x t) (fun g => o_r g = v) -> good_obj b ->
    returns must good_obj (rhs_method c x t r b) v.
  Proof.
    intros H Hb. destruct (H (enter r None tt b) Hb eq_refl) as (G1 & V1 & M1). unfold rhs_method.
    destruct (c x t _) as [e g]. cbn [fst snd] in *. repeat split; assumption.
  Qed.
  Lemma method_rhs_jac c (x : X) (t : S) r (j : option J) (b : go) v :
    triple (M:=unit) must good (eq (enter r j tt b)) (c x t) (fun g => (o_r g, o_j g) = v) -> good_obj b ->
    returns must good_obj (rhs_jac_method c x t r j b) v.
  Proof.
    intros H Hb. destruct (H (enter r j tt b) Hb eq_refl) as (G1 & V1 & M1). unfold rhs_jac_method.
    destruct (c x t _) as [e g]. cbn [fst snd] in *. repeat split; assumption.
  Qed.
  Lemma method_mass_rhs {M} c (x : X) (t : S) (m : M) r (b : go) v :
    triple must good (eq (enter (J:=J) r None m b)) (c x t) (fun g => (o_m g, o_r g) = v) -> good_obj b ->
    returns must good_obj (mass_rhs_method c x t m r b) v.
  Proof.
    intros H Hb. destruct (H (enter r None m b) Hb eq_refl) as (G1 & V1 & M1). unfold mass_rhs_method.
    destruct (c x t _) as [e g]. cbn [fst snd] in *. repeat split; assumption.
  Qed.
  Lemma method_mass_rhs_jac c (x : X) (t : S) (m : J) r (j : option J) (b : go) v :
    triple must good (eq (enter r j m b)) (c x t) (fun g => (o_m g, o_r g, o_j g) = v) -> good_obj b ->
    returns must good_obj (mass_rhs_jac_method c x t m r j b) v.
  Proof.
    intros H Hb. destruct (H (enter r j m b) Hb eq_refl) as (G1 & V1 & M1). unfold mass_rhs_jac_method.
    destruct (c x t _) as [e g]. cbn [fst snd] in *. repeat split; assumption.
  Qed.

  Variable fom : sfom (S:=S) (Y:=Y) (R:=Rf) (J:=Jf) (B:=B) (W:=W).
  Variables (f : Y -> S -> Rf) (df : Y -> B -> S -> Jf).
  Hypothesis Hf : fom_rhs must good fom f.
  Hypothesis Hdf : fom_jac must good fom df.

  Lemma rhs_value P c : galerkin_rhs (Mf:=Mf) must good o xo recon phi fom P c ->
    forall x t r (b : go), good_obj b ->
    returns must good_obj (rhs_method (J:=J) c x t r b) (P t (f (recon x) t)).
  Proof.
    intros HG x t r b Hb. apply method_rhs; [|exact Hb]. destruct HG.
    - unfold default_rhs. unfold enter. sx. reflexivity.
    - unfold hypred_rhs. unfold enter. sx. reflexivity.
    - unfold masked_rhs. unfold enter. sx. reflexivity.
  Qed.
  Lemma rhs_jac_value P PJ c : galerkin_rhs_jac (Mf:=Mf) must good o xo jo recon phi fom P PJ c ->
    forall x t r j (b : go), good_obj b ->
    returns must good_obj (rhs_jac_method c x t r j b)
            (P t (f (recon x) t), option_map (fun _ => PJ t (df (recon x) phi t)) j).
  Proof.
    intros HG x t r j b Hb. apply method_rhs_jac; [|exact Hb]. destruct HG.
    - destruct j; unfold default_rhs_jac, enter; sx; reflexivity.
    - destruct j; unfold hypred_rhs_jac, enter; sx; reflexivity.
    - destruct j; unfold masked_rhs_jac, enter; sx; reflexivity.
  Qed.
  Variable mass : Y -> B -> S -> Mf -> W -> outcome unit * (Mf * W).
  Variable dm : Y -> B -> S -> Mf.
  Hypothesis Hm : fom_mass must good mass dm.
  Variables (prodv : S -> B -> Rf -> S -> X -> X) (prodj : S -> B -> Jf -> S -> J -> J) (prodm : S -> B -> Mf -> S -> J -> J).
  Variables (T : Rf -> X) (TJ : Jf -> J) (TM : Mf -> J).
  Hypothesis HT : product_is xo prodv phi T.
  Hypothesis HTJ : product_is jo prodj phi TJ.
  Hypothesis HTM : product_is jo prodm phi TM.
  Lemma mass_rhs_value x t m r (b : go) : good_obj b ->
    returns must good_obj (mass_rhs_method (J:=J) (default_mass_rhs o recon phi prodv prodm fom mass) x t m r b)
            (TM (dm (recon x) phi t), T (f (recon x) t)).
  Proof.
    intros Hb. apply method_mass_rhs; [|exact Hb]. unfold default_mass_rhs. unfold enter. sx. reflexivity.
  Qed.
  Lemma mass_rhs_jac_value x t m r j (b : go) : good_obj b ->
    returns must good_obj (mass_rhs_jac_method (default_mass_rhs_jac o recon phi prodv prodj prodm fom mass) x t m r j b)
            (TM (dm (recon x) phi t), T (f (recon x) t), option_map (fun _ => TJ (df (recon x) phi t)) j).
  Proof.
    intros Hb. apply method_mass_rhs_jac; [|exact Hb]. destruct j; unfold default_mass_rhs_jac, enter; sx; reflexivity.
  Qed.
End Systems.

Section SteadySystems.
  Context {S X Y Rf Jf Rm Jm J B W : Type} (o : sops S) (xo : vops S X) (jo : vops S J).
  Hypothesis HX : vspace o xo.
  Hypothesis HJ : vspace o jo.
  Variables (must : bool) (good : W -> Prop).
  Variables (recon linmap : X -> Y) (phi : B).
  Variable fom : steady_fom (Y:=Y) (Rf:=Rf) (Jf:=Jf) (B:=B) (W:=W).
  Notation go := (gobj Y Rf Jf unit Rm Jm W).
  Variables (f : Y -> Rf) (df : Y -> B -> Jf) (dv : Y -> Y -> Rf).
  Hypothesis HF : steady_is must good fom f df dv.
  Lemma method_steady c (x : X) r (j : option J) (b : go) v :
    triple must good (eq (enter r j tt b)) (c x) (fun g => (o_r g, o_j g) = v) -> good_obj good b ->
    returns must (good_obj good) (steady_method c x r j b) v.
  Proof.
    intros H Hb. destruct (H (enter r j tt b) Hb eq_refl) as (G1 & V1 & M1). unfold steady_method.
    destruct (c x _) as [e g]. cbn [fst snd] in *. repeat split; assumption.
  Qed.
  Lemma steady_value P PJ c : galerkin_steady must good o xo jo recon phi fom P PJ c ->
    forall x r j (b : go), good_obj good b ->
    returns must (good_obj good) (steady_method c x r j b)
            (P (f (recon x)), option_map (fun _ => PJ (df (recon x) phi)) j).
  Proof.
    intros HG x r j b Hb. apply method_steady; [|exact Hb]. destruct HG.
    - destruct j; unfold steady_default, enter; sx; reflexivity.
    - destruct j; unfold steady_hypred, enter; sx; reflexivity.
    - destruct j; unfold steady_masked, enter; sx; reflexivity.
  Qed.
  Variables (prodv : S -> B -> Rf -> S -> X -> X) (T : Rf -> X).
  Hypothesis HT : product_is xo prodv phi T.
  Lemma steady_residual_value x r (j : option J) (b : go) : good_obj good b ->
    returns must (good_obj good) (steady_method (steady_residual o recon phi prodv fom) x r j b) (T (f (recon x)), j).
  Proof.
    intros Hb. apply method_steady; [|exact Hb]. unfold steady_residual, enter. sx. reflexivity.
  Qed.
  Lemma steady_apply_value zero v x r (j : option J) (b : go) : good_obj good b ->
    returns must (good_obj good) (steady_method (fun x => steady_apply o recon linmap phi prodv fom zero x v) x r j b)
            (T (dv (recon x) (linmap v)), j).
  Proof.
    intros Hb. apply method_steady; [|exact Hb]. unfold steady_apply, enter. apply fwd_seq. eapply fwd; [eapply map_triple|].
    cbn. intros g Hg <-. destruct (proj2 (proj2 HF) (recon x) (linmap v) zero (b_w b) Hb) as (G1 & V1 & M1).
    cbn. destruct (sf_jv fom (recon x) (linmap v) zero (b_w b)) as [e [a w]]. cbn [fst snd] in *.
    destruct e as [[]|e|u|]; cbn; repeat split; try assumption; try discriminate.
    intros _. rewrite (V1 eq_refl), (prod_1_0 o phi _ _ _ _ _ HX HT). reflexivity.
  Qed.
End SteadySystems.

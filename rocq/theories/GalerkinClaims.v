(** The claims about the Galerkin problems. *)
From Coq Require Import ZArith List Bool Reals.
From Verif Require Import Base RInst Laws ExplicitModel ImplicitModel ExplicitSpec ImplicitSpec ImplicitSim LspgModel RomSpec
  RomDeriv GalerkinModel GalerkinSpec GalerkinProofs.
Import ListNotations.

(** * The Jacobian is the derivative *)
Section Derivatives.
  Context {X Y Rf Jf Mf Rm Jm J B W : Type} (eps0 : R).
  Variables (xo : vops R X) (jo : vops R J) (yo : vops R Y) (ro : vops R Rf).
  Variables (nx : X -> R) (ny : Y -> R) (nr : Rf -> R).
  Hypothesis HX : vspace (Rops eps0) xo.
  Hypothesis HJ : vspace (Rops eps0) jo.
  Hypothesis Hnx : forall d, (0 <= nx d)%R.
  Hypothesis Hnr : forall d, (0 <= nr d)%R.
  Variables (recon : X -> Y) (bapp : X -> Y) (xapp : J -> X -> X) (fapp : Jf -> X -> Rf).
  Hypothesis Hrec : forall x d, recon (vadd xo x d) = vadd yo (recon x) (bapp d).
  Hypothesis Hb : exists K, forall d, (ny (bapp d) <= K * nx d)%R.

  Lemma reduced_derivative (f : Y -> Rf) (Df : Y -> Rf) (P : Rf -> X) (A : Jf) (j : J) x :
    derivative2 yo ny ro nr f (recon x) Df -> (forall d, fapp A d = Df (bapp d)) ->
    bounded ro nr xo nx P -> (forall d, xapp j d = P (fapp A d)) ->
    derivative2 xo nx xo nx (fun x => P (f (recon x))) x (xapp j).
  Proof.
    intros HD HA HP Hj.
    eapply derivative_ext with (F := fun x => P (f (recon x))) (L := fun d => P (Df (bapp d))); [reflexivity| |].
    - intros d. rewrite Hj, HA. reflexivity.
    - eapply derivative_left with (F := fun x => f (recon x)) (L := fun d => Df (bapp d)); [exact HP|exact Hnx|exact Hnr|].
      eapply derivative_affine; [apply Hrec|exact Hb|exact Hnx|exact HD].
  Qed.

  Variables (must : bool) (good : W -> Prop).
  Variable phi : B.
  Lemma jacobian_is_derivative (fom : sfom (S:=R) (Y:=Y) (R:=Rf) (J:=Jf) (B:=B) (W:=W)) f df Df P PJ c :
    fom_rhs must good fom f -> fom_jac must good fom df ->
    (forall y t, derivative2 yo ny ro nr (fun y => f y t) y (Df y t)) ->
    (forall y t d, fapp (df y phi t) d = Df y t (bapp d)) ->
    (forall t, bounded ro nr xo nx (P t)) -> (forall t A d, xapp (PJ t A) d = P t (fapp A d)) ->
    galerkin_rhs_jac (Mf:=Mf) (Rm:=Rm) (Jm:=Jm) must good (Rops eps0) xo jo recon phi fom P PJ c ->
    forall x t r j b r' j' b', good (b_w b) ->
    rhs_jac_method c x t r (Some j) b = (Ok tt, (r', Some j', b')) ->
    derivative2 xo nx xo nx (fun x => P t (f (recon x) t)) x (xapp j').
  Proof.
    intros Hf Hdf HD HA HP HPJ HG x t r j b r' j' b' Hgb E.
    destruct (rhs_jac_value (Rops eps0) xo jo HX HJ must good recon phi fom f df Hf Hdf P PJ c HG x t r (Some j) b Hgb)
      as (_ & V & _).
    rewrite E in V. specialize (V eq_refl). cbn [fst snd option_map] in V. injection V as _ ->.
    apply (reduced_derivative (fun y => f y t) (Df (recon x) t) (P t) (df (recon x) phi t) _ x); [apply HD|apply HA|apply HP|].
    intros d. apply HPJ.
  Qed.
  Lemma mass_jacobian_is_derivative (fom : sfom (S:=R) (Y:=Y) (R:=Rf) (J:=Jf) (B:=B) (W:=W)) f df Df mass dm
        prodv prodj prodm T TJ TM :
    fom_rhs must good fom f -> fom_jac must good fom df -> fom_mass must good mass dm ->
    product_is xo prodv phi T -> product_is jo prodj phi TJ -> product_is jo prodm phi TM ->
    (forall y t, derivative2 yo ny ro nr (fun y => f y t) y (Df y t)) ->
    (forall y t d, fapp (df y phi t) d = Df y t (bapp d)) ->
    bounded ro nr xo nx T -> (forall A d, xapp (TJ A) d = T (fapp A d)) ->
    forall x t m r j (b : gobj Y Rf Jf Mf Rm Jm W) m' r' j' b', good (b_w b) ->
    mass_rhs_jac_method (default_mass_rhs_jac (Rops eps0) recon phi prodv prodj prodm fom mass) x t m r (Some j) b
      = (Ok tt, (m', r', Some j', b')) ->
    derivative2 xo nx xo nx (fun x => T (f (recon x) t)) x (xapp j').
  Proof.
    intros Hf Hdf Hm HT HTJ HTM HD HA HP HPJ x t m r j b m' r' j' b' Hgb E.
    destruct (mass_rhs_jac_value (Rops eps0) xo jo HX HJ must good recon phi fom f df Hf Hdf mass dm Hm prodv prodj prodm
      T TJ TM HT HTJ HTM x t m r (Some j) b Hgb) as (_ & V & _).
    rewrite E in V. specialize (V eq_refl). cbn [fst snd option_map] in V. injection V as _ _ ->.
    apply (reduced_derivative (fun y => f y t) (Df (recon x) t) T (df (recon x) phi t) _ x); [apply HD|apply HA|apply HP|].
    intros d. apply HPJ.
  Qed.
  Lemma steady_jacobian_is_derivative (fom : steady_fom (Y:=Y) (Rf:=Rf) (Jf:=Jf) (B:=B) (W:=W)) f df dv Df P PJ c :
    steady_is must good fom f df dv ->
    (forall y, derivative2 yo ny ro nr f y (Df y)) -> (forall y d, fapp (df y phi) d = Df y (bapp d)) ->
    bounded ro nr xo nx P -> (forall A d, xapp (PJ A) d = P (fapp A d)) ->
    galerkin_steady (Rm:=Rm) (Jm:=Jm) must good (Rops eps0) xo jo recon phi fom P PJ c ->
    forall x r j b r' j' b', good (b_w b) ->
    steady_method c x r (Some j) b = (Ok tt, (r', Some j', b')) ->
    derivative2 xo nx xo nx (fun x => P (f (recon x))) x (xapp j').
  Proof.
    intros HF HD HA HP HPJ HG x r j b r' j' b' Hgb E.
    destruct (steady_value (Rops eps0) xo jo HX HJ must good recon phi fom f df dv HF P PJ c HG x r (Some j) b Hgb)
      as (_ & V & _).
    rewrite E in V. specialize (V eq_refl). cbn [fst snd option_map] in V. injection V as _ ->.
    apply (reduced_derivative f (Df (recon x)) P (df (recon x) phi) _ x); [apply HD|apply HA|apply HP|].
    intros d. apply HPJ.
  Qed.
  (** applyJacobian(x, v) is the derivative's value at v: [linmap] is the basis, [dv] the
      FOM's Jacobian. *)
  Lemma steady_apply_is_derivative (fom : steady_fom (Y:=Y) (Rf:=Rf) (Jf:=Jf) (B:=B) (W:=W)) f df dv prodv T :
    steady_is must good fom f df dv -> (forall y, derivative2 yo ny ro nr f y (dv y)) ->
    product_is xo prodv phi T -> bounded ro nr xo nx T ->
    forall x, exists L, derivative2 xo nx xo nx (fun x => T (f (recon x))) x L /\
    forall zero v r j (b : gobj Y Rf Jf unit Rm Jm W) r' j' b', good (b_w b) ->
    steady_method (J:=J) (fun x => steady_apply (Rops eps0) recon bapp phi prodv fom zero x v) x r j b = (Ok tt, (r', j', b')) ->
    r' = L v /\ j' = j.
  Proof.
    intros HF HD HT HB x. exists (fun d => T (dv (recon x) (bapp d))). split.
    - eapply derivative_left with (F := fun x => f (recon x)) (L := fun d => dv (recon x) (bapp d));
        [exact HB|exact Hnx|exact Hnr|].
      eapply derivative_affine; [apply Hrec|exact Hb|exact Hnx|apply HD].
    - intros zero v r j b r' j' b' Hgb E.
      destruct (steady_apply_value (Rops eps0) xo HX must good recon bapp phi fom f df dv HF prodv T HT zero v x r j b Hgb)
        as (_ & V & _).
      rewrite E in V. specialize (V eq_refl). cbn [fst snd] in V. injection V as -> ->. split; reflexivity.
  Qed.
End Derivatives.

(** * Explicit problems integrate the reduced ODE *)
Section Explicit.
  Context {S X Y Rf Jf Mf Rm Jm J B W : Type} (o : sops S) (xo : vops S X) (jo : vops S J).
  Hypothesis HX : vspace o xo.
  Variable good : W -> Prop.
  Variables (recon : X -> Y) (phi : B).
  Variable fom : sfom (S:=S) (Y:=Y) (R:=Rf) (J:=Jf) (B:=B) (W:=W).
  Variable f : Y -> S -> Rf.
  Hypothesis Hf : fom_rhs true good fom f.
  Variable obs : Z -> Z -> S -> X -> W -> outcome unit * W.
  Hypothesis Hobs : forall k i t v w, good w -> exists w', obs k i t v w = (Ok tt, w') /\ good w'.
  Notation go := (gobj Y Rf Jf Mf Rm Jm W).
  Lemma observe_good k i t v (b : go) : good (b_w b) -> exists b', observe obs k i t v b = (Ok tt, b') /\ good (b_w b').
  Proof.
    intros Hb. unfold observe. destruct (Hobs k i t v _ Hb) as (w' & E & Hw). rewrite E. eexists. split; [reflexivity|exact Hw].
  Qed.
  Lemma explicit_computes P c : galerkin_rhs (Mf:=Mf) (J:=J) true good o xo recon phi fom P c ->
    computes (rhs_system (Rm:=Rm) (Jm:=Jm) c obs) (fun b => good (b_w b)) (fun x t => P t (f (recon x) t)).
  Proof.
    intros HG. split; [|intros; apply observe_good; assumption].
    intros x t r b Hb. cbn. destruct (rhs_value o xo HX true good recon phi fom f Hf P c HG x t r b Hb) as (G & V & M).
    destruct (rhs_method c x t r b) as [e [v b']]. cbn [fst snd] in *. rewrite (M eq_refl) in *. rewrite (V eq_refl).
    exists b'. split; [reflexivity|exact G].
  Qed.
  Hypothesis HJ : vspace o jo.
  Variable mass : Y -> B -> S -> Mf -> W -> outcome unit * (Mf * W).
  Variable dm : Y -> B -> S -> Mf.
  Hypothesis Hm : fom_mass true good mass dm.
  Variables (prodv : S -> B -> Rf -> S -> X -> X) (prodm : S -> B -> Mf -> S -> J -> J) (T : Rf -> X) (TM : Mf -> J).
  Hypothesis HT : product_is xo prodv phi T.
  Hypothesis HTM : product_is jo prodm phi TM.
  Variable solve : J -> X -> X -> W -> outcome unit * (X * W).
  Variable apply : J -> X -> X.
  Hypothesis Hsolve : forall x t old w, good w ->
    exists s w', solve (TM (dm (recon x) phi t)) old (T (f (recon x) t)) w = (Ok tt, (s, w')) /\
      apply (TM (dm (recon x) phi t)) s = T (f (recon x) t) /\ good w'.
  Lemma explicit_computes_mm :
    computes_mm (mass_rhs_system (Rm:=Rm) (Jm:=Jm) (default_mass_rhs o recon phi prodv prodm fom mass) solve obs)
      (fun b => good (b_w b)) apply (fun x t => TM (dm (recon x) phi t)) (fun x t => T (f (recon x) t)).
  Proof.
    split; [|split; [|intros; apply observe_good; assumption]].
    - intros x t m r b Hb. cbn.
      destruct (mass_rhs_value o xo jo HX HJ true good recon phi fom f Hf mass dm Hm prodv prodm T TM HT HTM x t m r b Hb)
        as (G & V & M).
      destruct (mass_rhs_method _ x t m r b) as [e [v b']]. cbn [fst snd] in *. rewrite (M eq_refl) in *. rewrite (V eq_refl).
      exists b'. split; [reflexivity|exact G].
    - intros x t old b Hb. cbn. destruct (Hsolve x t old (b_w b) Hb) as (s & w' & E & A & G). rewrite E. unfold in_world.
      do 2 eexists. split; [reflexivity|]. split; [exact A|exact G].
  Qed.
End Explicit.

(** * Implicit problems do what a stepper for the reduced ODE does *)
Section Implicit.
  Context {S X Y Rf Jf Mf Rm Jm J B W Ws : Type} (o : sops S) (xo : vops S X) (jo : vops S J).
  Hypothesis HX : vspace o xo.
  Hypothesis HJ : vspace o jo.
  Variables (jid : J) (japp : J -> X -> X).
  Variable good : W -> Prop.
  Variables (recon : X -> Y) (phi : B).
  Variable fom : sfom (S:=S) (Y:=Y) (R:=Rf) (J:=Jf) (B:=B) (W:=W).
  Variables (f : Y -> S -> Rf) (df : Y -> B -> S -> Jf).
  Hypothesis Hf : fom_rhs true good fom f.
  Hypothesis Hdf : fom_jac true good fom df.
  Variable solver : Ws -> X -> sol X X J Ws.
  Notation go := (gobj Y Rf Jf Mf Rm Jm W).
  Lemma implicit_sim P PJ c : galerkin_rhs_jac (Mf:=Mf) true good o xo jo recon phi fom P PJ c ->
    ssim (rhs_jac_system (Rm:=Rm) (Jm:=Jm) c)
         (ode_system (fun x t => P t (f (recon x) t)) (fun x t => PJ t (df (recon x) phi t)))
         (fun b _ => good (b_w b)).
  Proof.
    intros HG x t r j b [] Hb. cbn.
    destruct (rhs_jac_value o xo jo HX HJ true good recon phi fom f df Hf Hdf P PJ c HG x t r j b Hb) as (G & V & M).
    destruct (rhs_jac_method c x t r j b) as [e [v b']]. cbn [fst snd] in *. rewrite (M eq_refl) in *. rewrite (V eq_refl).
    do 4 eexists. exists tt. split; [reflexivity|]. split; [reflexivity|exact G].
  Qed.
  Lemma implicit_perform P PJ c : galerkin_rhs_jac (Mf:=Mf) true good o xo jo recon phi fom P PJ c ->
    forall name cS cR x0 ws (b : go) ga gb, good (b_w b) ->
    implicit_create o name cS cR (mk_ppol (-1)%Z b) x0 ws = Ok ga ->
    implicit_create o name cS cR (mk_ppol (-1)%Z tt) x0 ws = Ok gb ->
    forall evs t k,
    fst (perform o (implicit_step o (policy_std o xo jo jid (rhs_jac_system c)) solver name) put_ode t_y evs t k ga) =
    fst (perform o (implicit_step o (policy_std o xo jo jid
           (ode_system (fun x t => P t (f (recon x) t)) (fun x t => PJ t (df (recon x) phi t)))) solver name)
         put_ode t_y evs t k gb).
  Proof.
    intros HG name cS cR x0 ws b ga gb Hb EA EB evs t k.
    eapply perform_sim with (Rel := prel (fun b _ => good (b_w b))).
    - apply policy_std_sim. apply implicit_sim. exact HG.
    - unfold implicit_create in EA, EB. destruct (implicit_sizes name) as [[n m]| | |]; try discriminate EA.
      injection EA as <-. injection EB as <-. repeat split. exact Hb.
  Qed.
  (** ... and for any other way of writing that ODE, e.g. the FOM's own when nothing is reduced. *)
  Lemma implicit_perform_as P PJ c F JF : galerkin_rhs_jac (Mf:=Mf) true good o xo jo recon phi fom P PJ c ->
    (forall x t, P t (f (recon x) t) = F x t) -> (forall x t, PJ t (df (recon x) phi t) = JF x t) ->
    forall name cS cR x0 ws (b : go) ga gb, good (b_w b) ->
    implicit_create o name cS cR (mk_ppol (-1)%Z b) x0 ws = Ok ga ->
    implicit_create o name cS cR (mk_ppol (-1)%Z tt) x0 ws = Ok gb ->
    forall evs t k,
    fst (perform o (implicit_step o (policy_std o xo jo jid (rhs_jac_system c)) solver name) put_ode t_y evs t k ga) =
    fst (perform o (implicit_step o (policy_std o xo jo jid (ode_system F JF)) solver name) put_ode t_y evs t k gb).
  Proof.
    intros HG HEF HEJ name cS cR x0 ws b ga gb Hb EA EB evs t k.
    eapply perform_sim with (Rel := prel (fun b _ => good (b_w b))).
    - apply policy_std_sim. intros x s r j b0 u Hb0. destruct (implicit_sim P PJ c HG x s r j b0 u Hb0)
        as (e & r' & j' & a' & b' & E1 & E2 & H).
      exists e, r', j', a', b'. split; [exact E1|]. split; [|exact H].
      cbn in E2 |- *. rewrite <- HEF, <- HEJ. exact E2.
    - unfold implicit_create in EA, EB. destruct (implicit_sizes name) as [[n m]| | |]; try discriminate EA.
      injection EA as <-. injection EB as <-. repeat split. exact Hb.
  Qed.
  Variable mass : Y -> B -> S -> Mf -> W -> outcome unit * (Mf * W).
  Variable dm : Y -> B -> S -> Mf.
  Hypothesis Hm : fom_mass true good mass dm.
  Variables (prodv : S -> B -> Rf -> S -> X -> X) (prodj : S -> B -> Jf -> S -> J -> J) (prodm : S -> B -> Mf -> S -> J -> J).
  Variables (T : Rf -> X) (TJ : Jf -> J) (TM : Mf -> J).
  Hypothesis HT : product_is xo prodv phi T.
  Hypothesis HTJ : product_is jo prodj phi TJ.
  Hypothesis HTM : product_is jo prodm phi TM.
  Lemma implicit_mass_perform :
    forall name cS cR cM x0 ws (b : go) ga gb, good (b_w b) ->
    implicit_create o name cS cR (mk_mpol cM cS cR (-1)%Z b) x0 ws = Ok ga ->
    implicit_create o name cS cR (mk_mpol cM cS cR (-1)%Z tt) x0 ws = Ok gb ->
    forall evs t k,
    fst (perform o (implicit_step o (policy_mm o xo jo japp
           (mass_rhs_jac_system (default_mass_rhs_jac o recon phi prodv prodj prodm fom mass))) solver name)
         put_ode t_y evs t k ga) =
    fst (perform o (implicit_step o (policy_mm o xo jo japp
           (ode_mass_system (fun x t => T (f (recon x) t)) (fun x t => TJ (df (recon x) phi t))
                            (fun x t => TM (dm (recon x) phi t)))) solver name)
         put_ode t_y evs t k gb).
  Proof.
    intros name cS cR cM x0 ws b ga gb Hb EA EB evs t k.
    eapply perform_sim with (Rel := mrel (fun (b : go) (_ : unit) => good (b_w b))).
    - apply policy_mm_sim. intros x tt' m r j b0 [] Hb0. cbn.
      destruct (mass_rhs_jac_value o xo jo HX HJ true good recon phi fom f df Hf Hdf mass dm Hm prodv prodj prodm T TJ TM
        HT HTJ HTM x tt' m r j b0 Hb0) as (G & V & M).
      destruct (mass_rhs_jac_method _ x tt' m r j b0) as [e [v b']]. cbn [fst snd] in *. rewrite (M eq_refl) in *.
      rewrite (V eq_refl). do 5 eexists. exists tt. split; [reflexivity|]. split; [reflexivity|exact G].
    - unfold implicit_create in EA, EB. destruct (implicit_sizes name) as [[n m]| | |]; try discriminate EA.
      injection EA as <-. injection EB as <-. repeat split. exact Hb.
  Qed.
End Implicit.

(** * Failures and requests *)
Section Failures.
  Context {S X Y Rf Jf Mf Rm Jm J B W : Type} (o : sops S) (xo : vops S X) (jo : vops S J).
  Variables (must : bool) (good : W -> Prop).
  Variables (recon : X -> Y) (phi : B).
  Variable fom : sfom (S:=S) (Y:=Y) (R:=Rf) (J:=Jf) (B:=B) (W:=W).
  Notation go := (gobj Y Rf Jf Mf Rm Jm W).
  Lemma rhs_failure P c : galerkin_rhs (J:=J) must good o xo recon phi fom P c ->
    forall x t r (b : go) e rf w, fo_rhs fom (recon x) t (b_f b) (b_w b) = (e, (rf, w)) -> e <> Ok tt ->
    exists b', rhs_method c x t r b = (e, (r, b')) /\ b_w b' = w.
  Proof.
    intros HG x t r b e rf w E He. destruct HG; unfold rhs_method, default_rhs, hypred_rhs, masked_rhs, map_state, call_rhs, set_y, bind, enter, leave;
      cbn; rewrite E; destruct e as [[]|e|u|]; try contradiction; eexists; split; reflexivity.
  Qed.
  Lemma rhs_jac_failure P PJ c : galerkin_rhs_jac must good o xo jo recon phi fom P PJ c ->
    forall x t r j (b : go) e rf w, fo_rhs fom (recon x) t (b_f b) (b_w b) = (e, (rf, w)) -> e <> Ok tt ->
    exists b', rhs_jac_method c x t r j b = (e, (r, j, b')) /\ b_w b' = w.
  Proof.
    intros HG x t r j b e rf w E He. destruct HG; unfold rhs_jac_method, default_rhs_jac, hypred_rhs_jac, masked_rhs_jac, map_state, call_rhs, set_y, bind, enter, leave;
      cbn; rewrite E; destruct e as [[]|e|u|]; try contradiction; eexists; split; reflexivity.
  Qed.
End Failures.

Section Requests.
  Context {S X Y Rf Jf Mf Rm Jm J B W : Type} (o : sops S).
  Variables (recon : X -> Y) (phi : B).
  Variables fom fom' : sfom (S:=S) (Y:=Y) (R:=Rf) (J:=Jf) (B:=B) (W:=W).
  Hypothesis Hsame : forall y t r w, fo_rhs fom y t r w = fo_rhs fom' y t r w.
  Notation go := (gobj Y Rf Jf Mf Rm Jm W).
  Lemma no_jacobian_call x t r (b : go) :
    (forall prodv prodj,
       rhs_jac_method (J:=J) (default_rhs_jac o recon phi prodv prodj fom) x t r None b =
       rhs_jac_method (default_rhs_jac o recon phi prodv prodj fom') x t r None b) /\
    (forall hyp, rhs_jac_method (J:=J) (hypred_rhs_jac recon phi fom hyp) x t r None b =
                 rhs_jac_method (hypred_rhs_jac recon phi fom' hyp) x t r None b) /\
    (forall msk hyp, rhs_jac_method (J:=J) (masked_rhs_jac recon phi fom msk hyp) x t r None b =
                     rhs_jac_method (masked_rhs_jac recon phi fom' msk hyp) x t r None b).
  Proof.
    unfold rhs_jac_method, enter.
    repeat split; intros; unfold default_rhs_jac, hypred_rhs_jac, masked_rhs_jac, map_state, call_rhs, set_y, bind; cbn;
      rewrite <- Hsame; destruct (fo_rhs fom _ _ _ _) as [e [rf w]]; destruct e; try reflexivity;
      unfold project_r, set_r, mask_r, reduce_r; cbn;
      repeat match goal with |- context [match ?c with pair _ _ => _ end] =>
               lazymatch c with context [match _ with _ => _ end] => fail | _ => destruct c as [[] [? ?]]; cbn; try reflexivity end end.
  Qed.
End Requests.

(** C78 for the Galerkin systems of the library. *)
From Coq Require Import ZArith List Reals Lra Lia.
From Verif Require Import Base RInst Laws LawInst AdvanceModel AdvanceSpec ExplicitModel ExplicitSpec ExplicitProofs ExplicitOrder
  ImplicitModel ImplicitSpec LspgModel RomSpec GalerkinModel GalerkinSpec GalerkinProofs GalerkinClaims RomExactProofs RomExactClaims
  StabilitySpec StabilityProofs StabilityRuns DissipSpec DissipProofs DissipClaims DissipPairs RomErrorProofs RomErrorRuns.
Import ListNotations.
Local Open Scope R_scope.

Section System.
  Context {X Y Jf Mf Rm Jm J B W : Type} (eps0 : R) (xo : vops R X) (jo : vops R J).
  Notation o := (Rops eps0).
  Hypotheses (HX : vspace o xo) (HJ : vspace o jo).
  Variables (recon : X -> Y) (phi : B).
  Variable fom : sfom (S:=R) (Y:=Y) (R:=Y) (J:=Jf) (B:=B) (W:=W).
  Variables (f : Y -> R -> Y) (df : Y -> B -> R -> Jf).
  Hypotheses (Hf : fom_rhs false (fun _ => True) fom f) (Hdf : fom_jac false (fun _ => True) fom df).
  Lemma rhs_jac_is P PJ c : galerkin_rhs_jac (Mf:=Mf) (Rm:=Rm) (Jm:=Jm) false (fun _ => True) o xo jo recon phi fom P PJ c ->
    rhs_is (rhs_jac_system c) (fun x t => P t (f (recon x) t)).
  Proof.
    intros HG x t r j b f' j' b' E. cbn in E.
    destruct (rhs_jac_value o xo jo HX HJ false (fun _ => True) recon phi fom f df Hf Hdf P PJ c HG x t r j b I) as (_ & V & _).
    rewrite E in V. specialize (V eq_refl). cbn in V. injection V as -> _. reflexivity.
  Qed.
End System.

(** phi^T f(recon x) is dissipative if f is. *)
Section Inherit.
  Context {X Y : Type} (eps0 : R) (xo : vops R X) (yo : vops R Y).
  Notation o := (Rops eps0).
  Hypotheses (HX : vspace o xo) (HY : vspace o yo).
  Variables (recon bapp : X -> Y) (off : Y).
  Hypothesis Hlin : linear xo yo bapp.
  Hypothesis Hrec : forall x, recon x = vadd yo (bapp x) off.
  Variables (ip : Y -> Y -> R) (xip : X -> X -> R).
  Hypotheses (HI : inner yo ip) (HXI : inner xo xip).
  Variables (f : Y -> R -> Y) (T : Y -> X).
  Hypothesis Hadj : forall y a, ip y (bapp a) = xip (T y) a.
  Hypothesis HD : dissipative eps0 yo ip f.
  Lemma galerkin_dissipative : dissipative eps0 xo xip (fun x t => T (f (recon x) t)).
  Proof.
    intros x z t. rewrite (ip_minus eps0 xo xip HXI), <- !Hadj, <- (ip_minus eps0 yo ip HI).
    replace (bapp (vminus o xo x z)) with (vminus o yo (recon x) (recon z)); [apply HD|].
    rewrite !Hrec. unfold vminus, neg1. rewrite (lin_add _ _ _ Hlin), (lin_scale _ _ _ Hlin).
    vreduce (Rops eps0) yo (R_field eps0) HY; cbn; lra.
  Qed.
End Inherit.

Lemma one_step :
  forall (X Y Jf Mf Rm Jm J B W W' M' : Type) (eps0 : R) (xo : vops R X) (yo : vops R Y), let o := Rops eps0 in
  vspace o xo -> vspace o yo ->
  forall (recon bapp : X -> Y) (off : Y) (phi : B), linear xo yo bapp -> (forall x, recon x = vadd yo (bapp x) off) ->
  forall (fom : sfom (S:=R) (Y:=Y) (R:=Y) (J:=Jf) (B:=B) (W:=W)) f (good : W -> Prop), fom_rhs true good fom f ->
  forall norm L, normed yo norm -> lipschitz eps0 yo norm L f ->
  forall obs, (forall k i t v w, good w -> exists w', obs k i t v w = (Ok tt, w') /\ good w') ->
  forall P c, galerkin_rhs true good o xo recon phi fom P c ->
  forall del, (forall x t, dist eps0 yo norm (f (recon x) t) (bapp (P t (f (recon x) t))) <= del) ->
  forall (v : @esys R Y M' W') good', computes v good' f ->
  let rom := rhs_system (Jf:=Jf) (Mf:=Mf) (Rm:=Rm) (Jm:=Jm) (J:=J) c obs in
  forall name tab k, tab_of o name = Some tab -> explicit_num_bufs name = Ok k ->
  forall g g', used k (explicit_step o xo rom name) g -> used k (explicit_step o yo v name) g' ->
  good (b_w (x_w g)) -> good' (x_w g') ->
  forall ts hs n, (forall k, 0 <= hs k) -> exists gn gn',
    drive (explicit_step o xo rom name) ts hs n g = (Ok tt, gn) /\
    drive (explicit_step o yo v name) ts hs n g' = (Ok tt, gn') /\
    dist eps0 yo norm (x_y gn') (recon (x_y gn)) <=
    exp (L * elapsed hs n) * (dist eps0 yo norm (x_y g') (recon (x_y g)) + elapsed hs n * del).
Proof.
  intros X Y Jf Mf Rm Jm J B W W' M' eps0 xo yo o HX HY recon bapp off phi Hlin Hrec fom f good Hf norm L HN HL obs Hobs P c HG del Hdel v good' Hv rom.
  intros. eapply (error_erk eps0 xo yo norm HX HY HN recon bapp off Hlin Hrec L del f _ HL rom v (fun b => good (b_w b)) good'
    (explicit_computes o xo HX good recon phi fom f Hf obs Hobs P c HG) Hv); eassumption.
Qed.
Lemma ab2 :
  forall (X Y Jf Mf Rm Jm J B W W' M' : Type) (eps0 : R) (xo : vops R X) (yo : vops R Y), let o := Rops eps0 in
  vspace o xo -> vspace o yo ->
  forall (recon bapp : X -> Y) (off : Y) (phi : B), linear xo yo bapp -> (forall x, recon x = vadd yo (bapp x) off) ->
  forall (fom : sfom (S:=R) (Y:=Y) (R:=Y) (J:=Jf) (B:=B) (W:=W)) f (good : W -> Prop), fom_rhs true good fom f ->
  forall norm L, normed yo norm -> lipschitz eps0 yo norm L f ->
  forall obs, (forall k i t v w, good w -> exists w', obs k i t v w = (Ok tt, w') /\ good w') ->
  forall P c, galerkin_rhs true good o xo recon phi fom P c ->
  forall del, (forall x t, dist eps0 yo norm (f (recon x) t) (bapp (P t (f (recon x) t))) <= del) ->
  forall (v : @esys R Y M' W') good', computes v good' f ->
  let rom := rhs_system (Jf:=Jf) (Mf:=Mf) (Rm:=Rm) (Jm:=Jm) (J:=J) c obs in
  forall g g', used 2 (explicit_step o xo rom AdamsBashforth2) g -> used 2 (explicit_step o yo v AdamsBashforth2) g' ->
  good (b_w (x_w g)) -> good' (x_w g') ->
  forall ts hs n, (forall k, 0 <= hs k) -> exists gn gn',
    drive (explicit_step o xo rom AdamsBashforth2) ts hs n g = (Ok tt, gn) /\
    drive (explicit_step o yo v AdamsBashforth2) ts hs n g' = (Ok tt, gn') /\
    dist eps0 yo norm (x_y gn') (recon (x_y gn)) <=
    exp (2 * L * elapsed hs n) * (dist eps0 yo norm (x_y g') (recon (x_y g)) + 2 * (elapsed hs n * del)).
Proof.
  intros X Y Jf Mf Rm Jm J B W W' M' eps0 xo yo o HX HY recon bapp off phi Hlin Hrec fom f good Hf norm L HN HL obs Hobs P c HG del Hdel v good' Hv rom
    g g' U U' G G' ts hs n Hh.
  destruct (error_ab2 eps0 xo yo norm HX HY HN recon bapp off Hlin Hrec L f _ HL rom v (fun b => good (b_w b)) good'
    (explicit_computes o xo HX good recon phi fom f Hf obs Hobs P c HG) Hv g g' U U' G G' ts hs Hh) as (xs & _ & H).
  destruct (H n) as (gn & gn' & E & E' & _ & D). exists gn, gn'. split; [exact E|]. split; [exact E'|].
  eapply Rle_trans; [exact D|]. apply Rmult_le_compat_l; [left; apply exp_pos|]. apply Rplus_le_compat_l.
  apply (ab2_defects eps0 yo norm HN recon bapp del f (fun x t => P t (f (recon x) t)) ts hs xs n Hh Hdel).
Qed.
Lemma euler :
  forall (X Y Jf Mf Rm Jm J B W W' M' : Type) (eps0 : R) (xo : vops R X) (yo : vops R Y), let o := Rops eps0 in
  vspace o xo -> vspace o yo ->
  forall (recon bapp : X -> Y) (off : Y) (phi : B), linear xo yo bapp -> (forall x, recon x = vadd yo (bapp x) off) ->
  forall (fom : sfom (S:=R) (Y:=Y) (R:=Y) (J:=Jf) (B:=B) (W:=W)) f (good : W -> Prop), fom_rhs true good fom f ->
  forall norm L, normed yo norm -> lipschitz eps0 yo norm L f ->
  forall obs, (forall k i t v w, good w -> exists w', obs k i t v w = (Ok tt, w') /\ good w') ->
  forall P c, galerkin_rhs true good o xo recon phi fom P c ->
  forall (v : @esys R Y M' W') good', computes v good' f ->
  let rom := rhs_system (Jf:=Jf) (Mf:=Mf) (Rm:=Rm) (Jm:=Jm) (J:=J) c obs in
  forall g g', used 1 (explicit_step o xo rom ForwardEuler) g -> used 1 (explicit_step o yo v ForwardEuler) g' ->
  good (b_w (x_w g)) -> good' (x_w g') ->
  forall ts hs, (forall k, 0 <= hs k) -> exists xs, forall n, exists gn gn',
    drive (explicit_step o xo rom ForwardEuler) ts hs n g = (Ok tt, gn) /\
    drive (explicit_step o yo v ForwardEuler) ts hs n g' = (Ok tt, gn') /\
    xs n = x_y gn /\
    dist eps0 yo norm (x_y gn') (recon (x_y gn)) <=
    exp (L * elapsed hs n) * (dist eps0 yo norm (x_y g') (recon (x_y g)) +
      elapsed (fun k => hs k * dist eps0 yo norm (f (recon (xs k)) (ts k)) (bapp (P (ts k) (f (recon (xs k)) (ts k))))) n).
Proof.
  intros X Y Jf Mf Rm Jm J B W W' M' eps0 xo yo o HX HY recon bapp off phi Hlin Hrec fom f good Hf norm L HN HL obs Hobs P c HG v good' Hv rom
    g g' U U' G G' ts hs Hh.
  destruct (error_euler eps0 xo yo norm HX HY HN recon bapp off Hlin Hrec L f _ HL rom v (fun b => good (b_w b)) good'
    (explicit_computes o xo HX good recon phi fom f Hf obs Hobs P c HG) Hv g g' U U' G G' ts hs Hh) as (xs & _ & H).
  exists xs. exact H.
Qed.
Lemma orthonormal :
  forall (X Y Jf Mf Rm Jm J B W W' M' : Type) (eps0 : R) (xo : vops R X) (yo : vops R Y), let o := Rops eps0 in
  vspace o xo -> vspace o yo ->
  forall (recon bapp : X -> Y) (off : Y) (phi : B), linear xo yo bapp -> (forall x, recon x = vadd yo (bapp x) off) ->
  forall (fom : sfom (S:=R) (Y:=Y) (R:=Y) (J:=Jf) (B:=B) (W:=W)) f (good : W -> Prop), fom_rhs true good fom f ->
  forall ip xip L, inner yo ip -> lipschitz eps0 yo (length_of ip) L f ->
  forall obs, (forall k i t v w, good w -> exists w', obs k i t v w = (Ok tt, w') /\ good w') ->
  forall prodv T, product_is xo prodv phi T ->
  (forall y a, ip y (bapp a) = xip (T y) a) -> (forall a b, ip (bapp a) (bapp b) = xip a b) ->
  forall del, (forall x t, exists a, dist eps0 yo (length_of ip) (f (recon x) t) (bapp a) <= del) ->
  forall (v : @esys R Y M' W') good', computes v good' f ->
  let rom := rhs_system (Jf:=Jf) (Mf:=Mf) (Rm:=Rm) (Jm:=Jm) (J:=J) (default_rhs o recon phi prodv fom) obs in
  forall name tab k, tab_of o name = Some tab -> explicit_num_bufs name = Ok k ->
  forall g g', used k (explicit_step o xo rom name) g -> used k (explicit_step o yo v name) g' ->
  good (b_w (x_w g)) -> good' (x_w g') ->
  forall ts hs n, (forall k, 0 <= hs k) -> exists gn gn',
    drive (explicit_step o xo rom name) ts hs n g = (Ok tt, gn) /\
    drive (explicit_step o yo v name) ts hs n g' = (Ok tt, gn') /\
    dist eps0 yo (length_of ip) (x_y gn') (recon (x_y gn)) <=
    exp (L * elapsed hs n) * (dist eps0 yo (length_of ip) (x_y g') (recon (x_y g)) + elapsed hs n * del).
Proof.
  intros X Y Jf Mf Rm Jm J B W W' M' eps0 xo yo o HX HY recon bapp off phi Hlin Hrec fom f good Hf ip xip L HI HL obs Hobs prodv T HT Hadj Hor del Hdel v good' Hv rom.
  intros. eapply (one_step X Y Jf Mf Rm Jm J B W W' M' eps0 xo yo HX HY recon bapp off phi Hlin Hrec fom f good Hf (length_of ip) L
    (inner_normed eps0 yo HY ip HI) HL obs Hobs (fun _ => T) (default_rhs o recon phi prodv fom)); try eassumption.
  - apply DefaultRhs. exact HT.
  - intros x t. destruct (Hdel x t) as (a & Ha). eapply Rle_trans; [|exact Ha].
    apply (best_approximation eps0 yo ip xip HI bapp T Hadj Hor).
Qed.
Lemma mass :
  forall (X Y Jf Mf Rm Jm J B W W' M' : Type) (eps0 : R) (xo : vops R X) (yo : vops R Y) (jo : vops R J), let o := Rops eps0 in
  vspace o xo -> vspace o yo -> vspace o jo ->
  forall (recon bapp : X -> Y) (off : Y) (phi : B), linear xo yo bapp -> (forall x, recon x = vadd yo (bapp x) off) ->
  forall (fom : sfom (S:=R) (Y:=Y) (R:=Y) (J:=Jf) (B:=B) (W:=W)) f (good : W -> Prop) mass (dm : Y -> B -> R -> Mf),
  fom_rhs true good fom f -> fom_mass true good mass dm ->
  forall obs, (forall k i t v w, good w -> exists w', obs k i t v w = (Ok tt, w') /\ good w') ->
  forall prodv prodm T (TM : Mf -> J), product_is xo prodv phi T -> product_is jo prodm phi TM ->
  forall solve (apply : J -> X -> X),
  (forall x t old w, good w -> exists s w',
     solve (TM (dm (recon x) phi t)) old (T (f (recon x) t)) w = (Ok tt, (s, w')) /\
     apply (TM (dm (recon x) phi t)) s = T (f (recon x) t) /\ good w') ->
  (forall x t z z', apply (TM (dm (recon x) phi t)) z = apply (TM (dm (recon x) phi t)) z' -> z = z') ->
  forall (v : @esys R Y M' W') good' apply' mass', computes_mm v good' apply' mass' f ->
  (forall y t z z', apply' (mass' y t) z = apply' (mass' y t) z' -> z = z') ->
  forall vel, (forall y t, apply' (mass' y t) (vel y t) = f y t) ->
  forall (d : X -> R -> X), (forall x t, apply (TM (dm (recon x) phi t)) (d x t) = T (f (recon x) t)) ->
  forall norm L, normed yo norm -> lipschitz eps0 yo norm L vel ->
  forall del, (forall x t, dist eps0 yo norm (vel (recon x) t) (bapp (d x t)) <= del) ->
  let rom := mass_rhs_system (Jf:=Jf) (Rm:=Rm) (Jm:=Jm) (default_mass_rhs o recon phi prodv prodm fom mass) solve obs in
  forall name tab k, tab_of o name = Some tab -> explicit_num_bufs_mm name = Ok k ->
  forall g g', used k (explicit_step_mm o xo rom name) g -> used k (explicit_step_mm o yo v name) g' ->
  good (b_w (x_w g)) -> good' (x_w g') ->
  forall ts hs n, (forall k, 0 <= hs k) -> exists gn gn',
    drive (explicit_step_mm o xo rom name) ts hs n g = (Ok tt, gn) /\
    drive (explicit_step_mm o yo v name) ts hs n g' = (Ok tt, gn') /\
    dist eps0 yo norm (x_y gn') (recon (x_y gn)) <=
    exp (L * elapsed hs n) * (dist eps0 yo norm (x_y g') (recon (x_y g)) + elapsed hs n * del).
Proof.
  intros X Y Jf Mf Rm Jm J B W W' M' eps0 xo yo jo o HX HY HJ recon bapp off phi Hlin Hrec fom f good mass dm Hf Hm obs Hobs prodv prodm T TM HT HTM
    solve apply Hsolve Hinj v good' apply' mass' Hv Hinj' vel Hvel d Hd norm L HN HL del Hdel rom.
  intros. eapply (error_erk_mm eps0 xo yo norm HX HY HN recon bapp off Hlin Hrec L del vel d HL rom v (fun b => good (b_w b)) good'
    _ _ _ _ _ _ (explicit_computes_mm (Jf:=Jf) (Rm:=Rm) (Jm:=Jm) o xo jo HX good recon phi fom f Hf obs Hobs HJ mass dm Hm
    prodv prodm T TM HT HTM solve apply Hsolve) Hd Hinj Hv Hvel Hinj'); eassumption.
Qed.
Lemma mass_ab2 :
  forall (X Y Jf Mf Rm Jm J B W W' M' : Type) (eps0 : R) (xo : vops R X) (yo : vops R Y) (jo : vops R J), let o := Rops eps0 in
  vspace o xo -> vspace o yo -> vspace o jo ->
  forall (recon bapp : X -> Y) (off : Y) (phi : B), linear xo yo bapp -> (forall x, recon x = vadd yo (bapp x) off) ->
  forall (fom : sfom (S:=R) (Y:=Y) (R:=Y) (J:=Jf) (B:=B) (W:=W)) f (good : W -> Prop) mass (dm : Y -> B -> R -> Mf),
  fom_rhs true good fom f -> fom_mass true good mass dm ->
  forall obs, (forall k i t v w, good w -> exists w', obs k i t v w = (Ok tt, w') /\ good w') ->
  forall prodv prodm T (TM : Mf -> J), product_is xo prodv phi T -> product_is jo prodm phi TM ->
  forall solve (apply : J -> X -> X),
  (forall x t old w, good w -> exists s w',
     solve (TM (dm (recon x) phi t)) old (T (f (recon x) t)) w = (Ok tt, (s, w')) /\
     apply (TM (dm (recon x) phi t)) s = T (f (recon x) t) /\ good w') ->
  (forall x t z z', apply (TM (dm (recon x) phi t)) z = apply (TM (dm (recon x) phi t)) z' -> z = z') ->
  forall (v : @esys R Y M' W') good' apply' mass', computes_mm v good' apply' mass' f ->
  (forall y t z z', apply' (mass' y t) z = apply' (mass' y t) z' -> z = z') ->
  forall vel, (forall y t, apply' (mass' y t) (vel y t) = f y t) ->
  forall (d : X -> R -> X), (forall x t, apply (TM (dm (recon x) phi t)) (d x t) = T (f (recon x) t)) ->
  forall norm L, normed yo norm -> lipschitz eps0 yo norm L vel ->
  forall del, (forall x t, dist eps0 yo norm (vel (recon x) t) (bapp (d x t)) <= del) ->
  let rom := mass_rhs_system (Jf:=Jf) (Rm:=Rm) (Jm:=Jm) (default_mass_rhs o recon phi prodv prodm fom mass) solve obs in
  forall g g', used 2 (explicit_step_mm o xo rom AdamsBashforth2) g -> used 2 (explicit_step_mm o yo v AdamsBashforth2) g' ->
  good (b_w (x_w g)) -> good' (x_w g') ->
  forall ts hs n, (forall k, 0 <= hs k) -> exists gn gn',
    drive (explicit_step_mm o xo rom AdamsBashforth2) ts hs n g = (Ok tt, gn) /\
    drive (explicit_step_mm o yo v AdamsBashforth2) ts hs n g' = (Ok tt, gn') /\
    dist eps0 yo norm (x_y gn') (recon (x_y gn)) <=
    exp (2 * L * elapsed hs n) * (dist eps0 yo norm (x_y g') (recon (x_y g)) + 2 * (elapsed hs n * del)).
Proof.
  intros X Y Jf Mf Rm Jm J B W W' M' eps0 xo yo jo o HX HY HJ recon bapp off phi Hlin Hrec fom f good mass dm Hf Hm obs Hobs prodv prodm T TM HT HTM
    solve apply Hsolve Hinj v good' apply' mass' Hv Hinj' vel Hvel d Hd norm L HN HL del Hdel rom.
  intros. eapply (error_ab2_mm eps0 xo yo norm HX HY HN recon bapp off Hlin Hrec L del vel d HL rom v (fun b => good (b_w b)) good'
    _ _ _ _ _ _ (explicit_computes_mm (Jf:=Jf) (Rm:=Rm) (Jm:=Jm) o xo jo HX good recon phi fom f Hf obs Hobs HJ mass dm Hm
    prodv prodm T TM HT HTM solve apply Hsolve) Hd Hinj Hv Hvel Hinj'); eassumption.
Qed.
Lemma rhs_jac_repeats {X Y Rf Jf Mf Rm Jm J B W : Type} (eps0 : R) (xo : vops R X) (jo : vops R J) (HX : vspace (Rops eps0) xo) (HJ : vspace (Rops eps0) jo)
  (recon : X -> Y) (phi : B) (fom : sfom (S:=R) (Y:=Y) (R:=Rf) (J:=Jf) (B:=B) (W:=W)) f df
  (Hf : fom_rhs true (fun _ => True) fom f) (Hdf : fom_jac true (fun _ => True) fom df) P PJ c :
  galerkin_rhs_jac (Mf:=Mf) (Rm:=Rm) (Jm:=Jm) true (fun _ => True) (Rops eps0) xo jo recon phi fom P PJ c ->
  rhs_is (rhs_jac_system c) (fun x t => P t (f (recon x) t)) /\
  repeatable (rhs_jac_system c) (fun x t => Ok (P t (f (recon x) t), PJ t (df (recon x) phi t))) (fun _ _ j => j).
Proof.
  intros HG. split.
  - intros x t r Jo b f' j' b' E. destruct (rhs_jac_value (Rops eps0) xo jo HX HJ true (fun _ => True) recon phi fom f df Hf Hdf P PJ c HG x t r Jo b I) as (_ & V & _).
    cbn in E. rewrite E in V. specialize (V eq_refl). cbn [fst snd] in V. injection V as -> _. reflexivity.
  - intros x t r Jo b. destruct (rhs_jac_value (Rops eps0) xo jo HX HJ true (fun _ => True) recon phi fom f df Hf Hdf P PJ c HG x t r Jo b I) as (_ & V & M).
    cbn. destruct (rhs_jac_method c x t r Jo b) as [e [v b']]. cbn [fst snd] in *. rewrite (M eq_refl) in *. rewrite (V eq_refl).
    eexists _, _. split; [reflexivity|]. split; [reflexivity|]. destruct Jo; [reflexivity|congruence].
Qed.
Lemma bdf1 :
  forall (X Y Jf Mf Rm Jm J B W J' W' Ws Ws' U U' : Type) (eps0 : R) (xo : vops R X) (yo : vops R Y) (jo : vops R J) (jo' : vops R J')
    (jid : J) (jid' : J'), let o := Rops eps0 in vspace o xo -> vspace o yo -> vspace o jo -> vspace o jo' ->
  forall (recon bapp : X -> Y) (off : Y) (phi : B), linear xo yo bapp -> (forall x, recon x = vadd yo (bapp x) off) ->
  forall ip xip K, inner yo ip -> 0 <= K -> (forall a, length_of ip (bapp a) <= K * length_of xip a) ->
  forall (fom : sfom (S:=R) (Y:=Y) (R:=Y) (J:=Jf) (B:=B) (W:=W)) f df, dissipative eps0 yo ip f ->
  fom_rhs false (fun _ => True) fom f -> fom_jac false (fun _ => True) fom df ->
  forall P PJ c, galerkin_rhs_jac (Mf:=Mf) (Rm:=Rm) (Jm:=Jm) false (fun _ => True) o xo jo recon phi fom P PJ c ->
  forall (u : isys (S:=R) (V:=Y) (J:=J') (W:=W')), rhs_is u f ->
  forall (sx : Ws -> X -> sol X X J Ws) (sy : Ws' -> Y -> sol Y Y J' Ws') tol tol' start y0 x0 tr tr',
  completed_std U o yo jo' jid' u sy BDF1 (fun r => length_of ip r <= tol) start y0 tr ->
  completed_std U' o xo jo jid (rhs_jac_system c) sx BDF1 (fun r => length_of xip r <= tol') start x0 tr' ->
  same_times tr tr' -> forward_in_time tr ->
  forall del, (forall k t x, In (k, t, x) (reports tr') ->
    length_of ip (vminus o yo (f (recon x) t) (bapp (P t (f (recon x) t)))) <= del) ->
  forall k t y x, In (k, t, y) (reports tr) -> In (k, t, x) (reports tr') ->
  length_of ip (vminus o yo y (recon x)) <=
  length_of ip (vminus o yo y0 (recon x0)) + (IZR k * (tol + K * tol') + (t - start) * del).
Proof.
  intros X Y Jf Mf Rm Jm J B W J' W' Ws Ws' U U' eps0 xo yo jo jo' jid jid' o HX HY HJ HJ' recon bapp off phi Hlin Hrec ip xip K HI HK0 HK fom f df HD
    Hf Hdf P PJ c HG u Hu sx sy tol tol' start y0 x0 tr tr' Cy Cx Hst Hfw del Hdel k t y x Hy Hx.
  assert (HR : rhs_is (rhs_jac_system c) (fun x t => P t (f (recon x) t))).
  { exact (rhs_jac_is eps0 xo jo HX HJ recon phi fom f df Hf Hdf P PJ c HG). }
  eapply (error_bdf1 eps0 xo yo ip xip HY HI recon bapp off Hlin Hrec f (fun x t => P t (f (recon x) t)) K del HK HK0 HD); try eassumption.
  - exact (run_bdf1 (U:=U) eps0 yo jo' jid' ip u sy HY HJ' f tol Hu start y0 tr Cy).
  - exact (run_bdf1 (U:=U') eps0 xo jo jid xip (rhs_jac_system c) sx HX HJ _ tol' HR start x0 tr' Cx).
Qed.
Lemma bdf2 :
  forall (X Y Jf Mf Rm Jm J B W J' W' Ws Ws' U U' : Type) (eps0 : R) (xo : vops R X) (yo : vops R Y) (jo : vops R J) (jo' : vops R J')
    (jid : J) (jid' : J'), let o := Rops eps0 in vspace o xo -> vspace o yo -> vspace o jo -> vspace o jo' ->
  forall (recon bapp : X -> Y) (off : Y) (phi : B), linear xo yo bapp -> (forall x, recon x = vadd yo (bapp x) off) ->
  forall ip xip K, inner yo ip -> 0 <= K -> (forall a, length_of ip (bapp a) <= K * length_of xip a) ->
  forall (fom : sfom (S:=R) (Y:=Y) (R:=Y) (J:=Jf) (B:=B) (W:=W)) f df, dissipative eps0 yo ip f ->
  fom_rhs false (fun _ => True) fom f -> fom_jac false (fun _ => True) fom df ->
  forall P PJ c, galerkin_rhs_jac (Mf:=Mf) (Rm:=Rm) (Jm:=Jm) false (fun _ => True) o xo jo recon phi fom P PJ c ->
  forall (u : isys (S:=R) (V:=Y) (J:=J') (W:=W')), rhs_is u f ->
  forall (sx : Ws -> X -> sol X X J Ws) (sy : Ws' -> Y -> sol Y Y J' Ws') tol tol' start y0 x0 tr tr',
  completed_std U o yo jo' jid' u sy BDF2 (fun r => length_of ip r <= tol) start y0 tr ->
  completed_std U' o xo jo jid (rhs_jac_system c) sx BDF2 (fun r => length_of xip r <= tol') start x0 tr' ->
  same_times tr tr' -> forward_in_time tr ->
  forall del, (forall k t x, In (k, t, x) (reports tr') ->
    length_of ip (vminus o yo (f (recon x) t) (bapp (P t (f (recon x) t)))) <= del) ->
  forall k t y x, In (k, t, y) (reports tr) -> In (k, t, x) (reports tr') ->
  length_of ip (vminus o yo y (recon x)) <=
  sqrt 2 * length_of ip (vminus o yo y0 (recon x0)) + 6 * (IZR k * (tol + K * tol') + (t - start) * del).
Proof.
  intros X Y Jf Mf Rm Jm J B W J' W' Ws Ws' U U' eps0 xo yo jo jo' jid jid' o HX HY HJ HJ' recon bapp off phi Hlin Hrec ip xip K HI HK0 HK fom f df HD
    Hf Hdf P PJ c HG u Hu sx sy tol tol' start y0 x0 tr tr' Cy Cx Hst Hfw del Hdel k t y x Hy Hx.
  assert (HR : rhs_is (rhs_jac_system c) (fun x t => P t (f (recon x) t))).
  { exact (rhs_jac_is eps0 xo jo HX HJ recon phi fom f df Hf Hdf P PJ c HG). }
  eapply (error_bdf2 eps0 xo yo ip xip HY HI recon bapp off Hlin Hrec f (fun x t => P t (f (recon x) t)) K del HK HK0 HD); try eassumption.
  - exact (run_bdf2 (U:=U) eps0 yo jo' jid' ip u sy HY HJ' f tol Hu start y0 tr Cy).
  - exact (run_bdf2 (U:=U') eps0 xo jo jid xip (rhs_jac_system c) sx HX HJ _ tol' HR start x0 tr' Cx).
Qed.
Lemma crank_nicolson :
  forall (X Y Jf Mf Rm Jm J B W J' W' Ws Ws' U U' : Type) (eps0 : R) (xo : vops R X) (yo : vops R Y) (jo : vops R J) (jo' : vops R J')
    (jid : J) (jid' : J'), let o := Rops eps0 in vspace o xo -> vspace o yo -> vspace o jo -> vspace o jo' ->
  forall (recon bapp : X -> Y) (off : Y) (phi : B), linear xo yo bapp -> (forall x, recon x = vadd yo (bapp x) off) ->
  forall ip xip K, inner yo ip -> 0 <= K -> (forall a, length_of ip (bapp a) <= K * length_of xip a) ->
  forall (fom : sfom (S:=R) (Y:=Y) (R:=Y) (J:=Jf) (B:=B) (W:=W)) f df, dissipative eps0 yo ip f ->
  fom_rhs true (fun _ => True) fom f -> fom_jac true (fun _ => True) fom df ->
  forall P PJ c, galerkin_rhs_jac (Mf:=Mf) (Rm:=Rm) (Jm:=Jm) true (fun _ => True) o xo jo recon phi fom P PJ c ->
  forall (u : isys (S:=R) (V:=Y) (J:=J') (W:=W')), rhs_is u f -> forall F fj, repeatable u F fj ->
  forall (sx : Ws -> X -> sol X X J Ws) (sy : Ws' -> Y -> sol Y Y J' Ws') tol tol' start y0 x0 tr tr',
  completed_std U o yo jo' jid' u sy CrankNicolson (fun r => length_of ip r <= tol) start y0 tr ->
  completed_std U' o xo jo jid (rhs_jac_system c) sx CrankNicolson (fun r => length_of xip r <= tol') start x0 tr' ->
  same_times tr tr' -> forward_in_time tr -> steps_not_growing tr ->
  forall del, (forall k t x, In (k, t, x) (reports tr') ->
    length_of ip (vminus o yo (f (recon x) t) (bapp (P t (f (recon x) t)))) <= del) ->
  forall t1 s1, In (1%Z, t1, s1) (reports tr) ->
  forall k t y x, In (k, t, y) (reports tr) -> In (k, t, x) (reports tr') ->
  length_of ip (vminus o yo y (recon x)) <=
  length_of ip (vminus o yo (vminus o yo y0 (recon x0)) (vscale yo (1 / 2 * (t1 - start)) (vminus o yo (f y0 start) (f (recon x0) start))))
  + (IZR k * (tol + K * tol') + (t - start) * del).
Proof.
  intros X Y Jf Mf Rm Jm J B W J' W' Ws Ws' U U' eps0 xo yo jo jo' jid jid' o HX HY HJ HJ' recon bapp off phi Hlin Hrec ip xip K HI HK0 HK fom f df HD
    Hf Hdf P PJ c HG u Hu F fj Hr sx sy tol tol' start y0 x0 tr tr' Cy Cx Hst Hfw Hng del Hdel t1 s1 H1 k t y x Hy Hx.
  destruct (rhs_jac_repeats eps0 xo jo HX HJ recon phi fom f df Hf Hdf P PJ c HG) as [HR HR'].
  eapply (error_cn eps0 xo yo ip xip HY HI recon bapp off Hlin Hrec f (fun x t => P t (f (recon x) t)) K del HK HK0 HD); try eassumption.
  - exact (run_cn (U:=U) eps0 yo jo' jid' ip u sy HY HJ' f tol Hu F fj start y0 tr Hr Cy).
  - exact (run_cn (U:=U') eps0 xo jo jid xip (rhs_jac_system c) sx HX HJ _ tol' HR _ _ start x0 tr' HR' Cx).
Qed.
Lemma stable_bdf1 :
  forall (X Y Jf Mf Rm Jm J B W Ws Ws' U U' : Type) (eps0 : R) (xo : vops R X) (yo : vops R Y) (jo : vops R J) (jid : J), let o := Rops eps0 in
  vspace o xo -> vspace o yo -> vspace o jo ->
  forall (recon bapp : X -> Y) (off : Y) (phi : B), linear xo yo bapp -> (forall x, recon x = vadd yo (bapp x) off) ->
  forall ip xip, inner yo ip -> inner xo xip ->
  forall (fom : sfom (S:=R) (Y:=Y) (R:=Y) (J:=Jf) (B:=B) (W:=W)) f df, dissipative eps0 yo ip f ->
  fom_rhs false (fun _ => True) fom f -> fom_jac false (fun _ => True) fom df ->
  forall prodv prodj T TJ, product_is xo prodv phi T -> product_is jo prodj phi TJ ->
  (forall y a, ip y (bapp a) = xip (T y) a) ->
  let rom := rhs_jac_system (Mf:=Mf) (Rm:=Rm) (Jm:=Jm) (default_rhs_jac o recon phi prodv prodj fom) in
  forall (s : Ws -> X -> sol X X J Ws) (s' : Ws' -> X -> sol X X J Ws') tol tol' start start' x0 x0' tr tr',
  completed_std U o xo jo jid rom s BDF1 (fun r => length_of xip r <= tol) start x0 tr ->
  completed_std U' o xo jo jid rom s' BDF1 (fun r => length_of xip r <= tol') start' x0' tr' ->
  same_times tr tr' -> forward_in_time tr ->
  apart eps0 xo xip (fun k => length_of xip (vminus o xo x0 x0') + IZR k * (tol + tol')) tr tr'.
Proof.
  intros X Y Jf Mf Rm Jm J B W Ws Ws' U U' eps0 xo yo jo jid o HX HY HJ recon bapp off phi Hlin Hrec ip xip HI HXI fom f df HD
    Hf Hdf prodv prodj T TJ HT HTJ Hadj rom s s' tol tol' start start' x0 x0' tr tr' C1 C2 Hst Hfw.
  assert (HR : rhs_is rom (fun x t => T (f (recon x) t))).
  { exact (rhs_jac_is eps0 xo jo HX HJ recon phi fom f df Hf Hdf (fun _ => T) (fun _ => TJ) _ (DefaultRhsJac _ _ _ _ _ _ _ _ _ _ _ _ HT HTJ)). }
  eapply (pair_bdf1 eps0 xo xip _ HX HXI (galerkin_dissipative eps0 xo yo HY recon bapp off Hlin Hrec ip xip HI HXI f T Hadj HD)); try eassumption.
  - exact (run_bdf1 (U:=U) eps0 xo jo jid xip rom s HX HJ _ tol HR start x0 tr C1).
  - exact (run_bdf1 (U:=U') eps0 xo jo jid xip rom s' HX HJ _ tol' HR start' x0' tr' C2).
Qed.
Lemma stable_bdf2 :
  forall (X Y Jf Mf Rm Jm J B W Ws Ws' U U' : Type) (eps0 : R) (xo : vops R X) (yo : vops R Y) (jo : vops R J) (jid : J), let o := Rops eps0 in
  vspace o xo -> vspace o yo -> vspace o jo ->
  forall (recon bapp : X -> Y) (off : Y) (phi : B), linear xo yo bapp -> (forall x, recon x = vadd yo (bapp x) off) ->
  forall ip xip, inner yo ip -> inner xo xip ->
  forall (fom : sfom (S:=R) (Y:=Y) (R:=Y) (J:=Jf) (B:=B) (W:=W)) f df, dissipative eps0 yo ip f ->
  fom_rhs false (fun _ => True) fom f -> fom_jac false (fun _ => True) fom df ->
  forall prodv prodj T TJ, product_is xo prodv phi T -> product_is jo prodj phi TJ ->
  (forall y a, ip y (bapp a) = xip (T y) a) ->
  let rom := rhs_jac_system (Mf:=Mf) (Rm:=Rm) (Jm:=Jm) (default_rhs_jac o recon phi prodv prodj fom) in
  forall (s : Ws -> X -> sol X X J Ws) (s' : Ws' -> X -> sol X X J Ws') tol tol' start start' x0 x0' tr tr',
  completed_std U o xo jo jid rom s BDF2 (fun r => length_of xip r <= tol) start x0 tr ->
  completed_std U' o xo jo jid rom s' BDF2 (fun r => length_of xip r <= tol') start' x0' tr' ->
  same_times tr tr' -> forward_in_time tr ->
  apart eps0 xo xip (fun k => sqrt 2 * length_of xip (vminus o xo x0 x0') + 6 * (IZR k * (tol + tol'))) tr tr'.
Proof.
  intros X Y Jf Mf Rm Jm J B W Ws Ws' U U' eps0 xo yo jo jid o HX HY HJ recon bapp off phi Hlin Hrec ip xip HI HXI fom f df HD
    Hf Hdf prodv prodj T TJ HT HTJ Hadj rom s s' tol tol' start start' x0 x0' tr tr' C1 C2 Hst Hfw.
  assert (HR : rhs_is rom (fun x t => T (f (recon x) t))).
  { exact (rhs_jac_is eps0 xo jo HX HJ recon phi fom f df Hf Hdf (fun _ => T) (fun _ => TJ) _ (DefaultRhsJac _ _ _ _ _ _ _ _ _ _ _ _ HT HTJ)). }
  eapply (pair_bdf2 eps0 xo xip _ HX HXI (galerkin_dissipative eps0 xo yo HY recon bapp off Hlin Hrec ip xip HI HXI f T Hadj HD)); try eassumption.
  - exact (run_bdf2 (U:=U) eps0 xo jo jid xip rom s HX HJ _ tol HR start x0 tr C1).
  - exact (run_bdf2 (U:=U') eps0 xo jo jid xip rom s' HX HJ _ tol' HR start' x0' tr' C2).
Qed.
Lemma stable_cn :
  forall (X Y Jf Mf Rm Jm J B W Ws Ws' U U' : Type) (eps0 : R) (xo : vops R X) (yo : vops R Y) (jo : vops R J) (jid : J), let o := Rops eps0 in
  vspace o xo -> vspace o yo -> vspace o jo ->
  forall (recon bapp : X -> Y) (off : Y) (phi : B), linear xo yo bapp -> (forall x, recon x = vadd yo (bapp x) off) ->
  forall ip xip, inner yo ip -> inner xo xip ->
  forall (fom : sfom (S:=R) (Y:=Y) (R:=Y) (J:=Jf) (B:=B) (W:=W)) f df, dissipative eps0 yo ip f ->
  fom_rhs true (fun _ => True) fom f -> fom_jac true (fun _ => True) fom df ->
  forall prodv prodj T TJ, product_is xo prodv phi T -> product_is jo prodj phi TJ ->
  (forall y a, ip y (bapp a) = xip (T y) a) ->
  let rom := rhs_jac_system (Mf:=Mf) (Rm:=Rm) (Jm:=Jm) (default_rhs_jac o recon phi prodv prodj fom) in
  forall (s : Ws -> X -> sol X X J Ws) (s' : Ws' -> X -> sol X X J Ws') tol tol' start start' x0 x0' tr tr',
  completed_std U o xo jo jid rom s CrankNicolson (fun r => length_of xip r <= tol) start x0 tr ->
  completed_std U' o xo jo jid rom s' CrankNicolson (fun r => length_of xip r <= tol') start' x0' tr' ->
  same_times tr tr' -> forward_in_time tr -> steps_not_growing tr ->
  let F := fun x t => T (f (recon x) t) in forall t1 s1, In (1%Z, t1, s1) (reports tr) ->
  apart eps0 xo xip (fun k => length_of xip (vminus o xo (vminus o xo x0 x0') (vscale xo (1 / 2 * (t1 - start)) (vminus o xo (F x0 start) (F x0' start))))
    + IZR k * (tol + tol')) tr tr'.
Proof.
  intros X Y Jf Mf Rm Jm J B W Ws Ws' U U' eps0 xo yo jo jid o HX HY HJ recon bapp off phi Hlin Hrec ip xip HI HXI fom f df HD
    Hf Hdf prodv prodj T TJ HT HTJ Hadj rom s s' tol tol' start start' x0 x0' tr tr' C1 C2 Hst Hfw Hng F t1 s1 H1.
  destruct (rhs_jac_repeats eps0 xo jo HX HJ recon phi fom f df Hf Hdf (fun _ => T) (fun _ => TJ) _ (DefaultRhsJac (Mf:=Mf) (Rm:=Rm) (Jm:=Jm) _ _ _ _ _ _ _ _ _ _ _ _ HT HTJ)) as [HR HR'].
  apply (pair_cn eps0 xo xip F HX HXI (galerkin_dissipative eps0 xo yo HY recon bapp off Hlin Hrec ip xip HI HXI f T Hadj HD) tol tol' start start' x0 x0' tr tr' Hst Hfw) with (s1 := s1); try assumption.
  - exact (run_cn (U:=U) eps0 xo jo jid xip rom s HX HJ _ tol HR _ _ start x0 tr HR' C1).
  - exact (run_cn (U:=U') eps0 xo jo jid xip rom s' HX HJ _ tol' HR _ _ start' x0' tr' HR' C2).
Qed.

(** Lemmas behind C38. *)
From Coq Require Import ZArith List Bool Lia Field Reals Lra.
From Verif Require Import Base RInst Laws LawInst ExplicitModel ImplicitModel ImplicitSpec ImplicitProofs ImplicitExtra
  LspgModel RomSpec RomDeriv LspgSpec LspgProofs LspgInst.
Import ListNotations.
Local Open Scope Z_scope.

(** * The Jacobian is the derivative of the residual with respect to the reduced state *)
Section Deriv.
  Context {X Y J : Type} (eps0 : R) (xo : vops R X) (yo : vops R Y) (jo : vops R J).
  Notation o := (Rops eps0).
  Variables (nx : X -> R) (ny : Y -> R).
  Variable japp : J -> X -> Y.
  Variables (phi : J) (tr : Y).
  Hypotheses (HY : vspace o yo) (HN : normed yo ny) (Hnx : forall d, (0 <= nx d)%R).
  Hypothesis (HA : actions yo jo japp).
  Hypothesis (Hphi : bounded xo nx yo ny (japp phi)).
  Notation recon := (fun x => vadd yo (japp phi x) tr).
  Let HF := R_field eps0.
  Ltac vec := vreduce (Rops eps0) yo HF HY;
    change (smul (Rops eps0)) with Rmult; change (sadd (Rops eps0)) with Rplus; change (s0 (Rops eps0)) with 0%R;
    change (s1 (Rops eps0)) with 1%R; change (sopp (Rops eps0)) with Ropp; change (sdiv (Rops eps0)) with Rdiv; try field.

  Lemma recon_step x d : vadd yo (japp phi (vadd xo x d)) tr = vadd yo (vadd yo (japp phi x) tr) (japp phi d).
  Proof. rewrite (lin_add _ _ _ (bo_lin _ _ _ _ _ Hphi)). vec. Qed.

  Lemma deriv_lspg1 (f Df : Y -> Y) (j : J) y_n h x :
    derivative2 yo ny yo ny f (recon x) Df -> (forall d, japp j d = Df (japp phi d)) ->
    derivative2 xo nx yo ny (fun x => bdf1_R o yo y_n h (f (recon x)) (recon x)) x
                (japp (scheme_J o jo phi (s1 o) h j)).
  Proof.
    intros HD Hj.
    apply (derivative_comb2 _ _ _ _ _ (fun x => f (recon x)) _ (fun d => Df (japp phi d)) (- h)%R); try assumption.
    - intros d. cbv [scheme_J jminus bdf1_R vminus].
      rewrite !(ac_add _ _ _ HA), !(ac_scale _ _ _ HA), (neg1_R eps0), recon_step, Hj. vec.
    - apply (derivative_affine xo nx yo ny yo ny recon (japp phi)); try assumption.
      + apply recon_step.
      + apply (bo_bound _ _ _ _ _ Hphi).
  Qed.
  Lemma deriv_lspg2 (f Df : Y -> Y) (j : J) y_n y_nm1 h x :
    derivative2 yo ny yo ny f (recon x) Df -> (forall d, japp j d = Df (japp phi d)) ->
    derivative2 xo nx yo ny (fun x => bdf2_R o yo y_n y_nm1 h (f (recon x)) (recon x)) x
                (japp (scheme_J o jo phi (frac o 2 3) h j)).
  Proof.
    intros HD Hj.
    apply (derivative_comb2 _ _ _ _ _ (fun x => f (recon x)) _ (fun d => Df (japp phi d)) (- (frac o 2 3 * h))%R);
      try assumption.
    - intros d. cbv [scheme_J jminus bdf2_R vminus].
      rewrite !(ac_add _ _ _ HA), !(ac_scale _ _ _ HA), (neg1_R eps0), recon_step, Hj.
      generalize (frac o 2 3) (frac o 4 3) (frac o 1 3). intros a b c. vec.
    - apply (derivative_affine xo nx yo ny yo ny recon (japp phi)); try assumption.
      + apply recon_step.
      + apply (bo_bound _ _ _ _ _ Hphi).
  Qed.
End Deriv.

(** * Calls of a policy *)
Section Calls.
  Context {S X Y R J W : Type}.
  Variable recon : X -> Y.
  Lemma reconstruct_head y st step (h h' : fomhist (Y:=Y)) np1 older :
    reconstruct recon y st step h = (Ok tt, h') -> fh_data h' = np1 :: older -> np1 = recon y.
  Proof.
    cbv [reconstruct recon_at write_index]. destruct h as [data trk]. cbn [fh_data fh_trk].
    destruct data as [|a data]; [discriminate|]. cbn [list_set].
    destruct (trk =? step).
    - intros E. injection E as <-. cbn. intros E. injection E as <- _. reflexivity.
    - destruct st as [|y_n st]; [discriminate|]. intros E. injection E as <-. cbn [fh_data].
      destruct data as [|b [|c [|d [|e data]]]]; cbn; intros E; injection E as <- _; reflexivity.
  Qed.
  Variable ev : evaluation (S:=S) (Y:=Y) (R:=R) (J:=J) W.
  Lemma lspg_bdf_inv second y st fs t step dt r Jo p e fs' r' j' p' :
    lspg_bdf recon ev second y st fs t step dt r Jo p = (e, (fs', r', j', p')) -> e = Ok tt ->
    exists older, fh_data (lp_h p') = recon y :: older /\
      ev second (recon y) older t dt r Jo (lp_w p) = (Ok tt, (r', j', lp_w p')).
  Proof.
    cbv [lspg_bdf]. destruct (reconstruct recon y st step (lp_h p)) as [r0 h] eqn:ER.
    destruct r0 as [[]|x|b|]; try (intros E ->; discriminate E).
    destruct (fh_data h) as [|np1 older] eqn:ED; [intros E ->; discriminate E|].
    pose proof (reconstruct_head _ _ _ _ _ _ _ ER ED) as ->.
    destruct (ev second (recon y) older t dt r Jo (lp_w p)) as [r1 [[r2 j2] w2]] eqn:EV.
    intros E He. injection E as -> _ <- <- <-. subst e. exists older. split; [exact ED|exact EV].
  Qed.
End Calls.

Section Residual.
  Context {X Y J W : Type} (eps0 : R) (xo : vops R X) (yo : vops R Y) (jo : vops R J).
  Notation o := (Rops eps0).
  Variables (nx : X -> R) (ny : Y -> R).
  Variable japp : J -> X -> Y.
  Variables (phi : J) (tr : Y).
  Hypotheses (HY : vspace o yo) (HJ : vspace o jo) (HN : normed yo ny) (Hnx : forall d, (0 <= nx d)%R).
  Hypothesis (HA : actions yo jo japp).
  Hypothesis (Hphi : bounded xo nx yo ny (japp phi)).
  Notation recon := (fun x => vadd yo (japp phi x) tr).
  Variable fom : sfom (S:=R) (Y:=Y) (R:=Y) (J:=J) (B:=J) (W:=W).
  Variables (f : Y -> R -> Y) (df : Y -> J -> R -> J) (Df : Y -> R -> Y -> Y).
  Hypothesis Hf : fom_is fom f df.
  Hypothesis Hd : forall y t d, japp (df y phi t) d = Df y t (japp phi d).

  Lemma lspg_call_one x st fs t step dt r j p fs' r' j' p' :
    default_policy o yo jo recon fom phi BDF1 x st fs t step dt r (Some j) p = (Ok tt, (fs', r', j', p')) ->
    derivative2 yo ny yo ny (fun y => f y t) (recon x) (Df (recon x) t) ->
    exists y_n jj, fom_at N (fh_data (lp_h p')) = Ok y_n /\ j' = Some jj /\
      let F := fun x => bdf1_R o yo y_n dt (f (recon x) t) (recon x) in
      r' = F x /\ derivative2 xo nx yo ny F x (japp jj).
  Proof.
    intros E HD. destruct Hf as [Hf1 Hf2].
    destruct (lspg_bdf_inv _ _ _ _ _ _ _ _ _ _ _ _ _ _ _ _ _ E eq_refl) as (older & ED & EV).
    destruct older as [|y_n older].
    { exfalso. cbv [default_eval] in EV. destruct (fo_rhs fom (vadd yo (japp phi x) tr) t r (lp_w p)) as [e [f0 w1]].
      destruct e; discriminate EV. }
    rewrite (default_one o yo jo fom phi (R_field eps0) HY HJ) in EV.
    cbv [lspg_one seen_fom] in EV.
    destruct (fo_rhs fom (vadd yo (japp phi x) tr) t r (lp_w p)) as [e [f0 w1]] eqn:E1.
    destruct e as [[]|e|e|]; try discriminate EV. apply Hf1 in E1. subst f0.
    destruct (fo_jac fom (vadd yo (japp phi x) tr) phi t j w1) as [e [j1 w2]] eqn:E2.
    destruct e as [[]|e|e|]; try discriminate EV. apply Hf2 in E2. subst j1.
    injection EV as <- <- _. rewrite ED.
    exists y_n, (scheme_J o jo phi (s1 o) dt (df (vadd yo (japp phi x) tr) phi t)).
    split; [reflexivity|]. split; [reflexivity|]. split; [reflexivity|].
    apply (deriv_lspg1 eps0 xo yo jo nx ny japp phi tr HY HN Hnx HA Hphi (fun y => f y t) (Df (recon x) t)).
    - exact HD.
    - intros d. apply Hd.
  Qed.
  Lemma lspg_call_two x st fs t step dt r j p fs' r' j' p' :
    default_policy o yo jo recon fom phi BDF2 x st fs t step dt r (Some j) p = (Ok tt, (fs', r', j', p')) ->
    step <> 1 ->
    derivative2 yo ny yo ny (fun y => f y t) (recon x) (Df (recon x) t) ->
    exists y_n y_nm1 jj, fom_at N (fh_data (lp_h p')) = Ok y_n /\
      fom_at NMinusOne (fh_data (lp_h p')) = Ok y_nm1 /\ j' = Some jj /\
      let F := fun x => bdf2_R o yo y_n y_nm1 dt (f (recon x) t) (recon x) in
      r' = F x /\ derivative2 xo nx yo ny F x (japp jj).
  Proof.
    intros E Hs HD. destruct Hf as [Hf1 Hf2].
    cbv [default_policy lspg_policy] in E. rewrite (proj2 (Z.eqb_neq _ _) Hs) in E.
    destruct (lspg_bdf_inv _ _ _ _ _ _ _ _ _ _ _ _ _ _ _ _ _ E eq_refl) as (older & ED & EV).
    destruct older as [|y_n [|y_nm1 older]].
    1,2: exfalso; cbv [default_eval] in EV; destruct (fo_rhs fom (vadd yo (japp phi x) tr) t r (lp_w p)) as [e [f0 w1]];
      destruct e; discriminate EV.
    cbn [negb] in EV. rewrite (default_two o yo jo fom phi (R_field eps0) (R_char0 eps0) HY HJ) in EV.
    cbv [lspg_two seen_fom] in EV.
    destruct (fo_rhs fom (vadd yo (japp phi x) tr) t r (lp_w p)) as [e [f0 w1]] eqn:E1.
    destruct e as [[]|e|e|]; try discriminate EV. apply Hf1 in E1. subst f0.
    destruct (fo_jac fom (vadd yo (japp phi x) tr) phi t j w1) as [e [j1 w2]] eqn:E2.
    destruct e as [[]|e|e|]; try discriminate EV. apply Hf2 in E2. subst j1.
    injection EV as <- <- _. rewrite ED.
    exists y_n, y_nm1, (scheme_J o jo phi (frac o 2 3) dt (df (vadd yo (japp phi x) tr) phi t)).
    split; [reflexivity|]. split; [reflexivity|]. split; [reflexivity|]. split; [reflexivity|].
    apply (deriv_lspg2 eps0 xo yo jo nx ny japp phi tr HY HN Hnx HA Hphi (fun y => f y t) (Df (recon x) t)).
    - exact HD.
    - intros d. apply Hd.
  Qed.
End Residual.

(** * Hyper-reduction is restriction *)
Section Restrict.
  Context {S X Y Yh Rh J Jh Bh W : Type} (o : sops S) (yo : vops S Y) (yho : vops S Yh) (jo : vops S J).
  Hypotheses (HF : sfield o) (HC : schar0 o) (HY : vspace o yo) (HYh : vspace o yho) (HJ : vspace o jo).
  Variables (E : Y -> Yh) (P : Y -> Rh) (EB : J -> Bh) (PJ : J -> Jh).
  Hypothesis HE : linear yo yho E.
  Variable recon : X -> Y.
  Variable fom : sfom (S:=S) (Y:=Y) (R:=Y) (J:=J) (B:=J) (W:=W).
  Variable fh : sfom (S:=S) (Y:=Yh) (R:=Rh) (J:=Jh) (B:=Bh) (W:=W).
  Variable up : updater (S:=S) (Y:=Yh) (R:=Rh) (J:=Jh) (B:=Bh) (W:=W).
  Variable phi : J.
  Hypotheses (HR : fom_restricts E P EB PJ fom fh) (HU : updater_ok yo jo E P EB PJ up).
  Notation reconh := (fun x => E (recon x)).

  Lemma reconstruct_restricts y st step h :
    reconstruct reconh y st step (states_restrict E h) =
    let '(r, h') := reconstruct recon y st step h in (r, states_restrict E h').
  Proof.
    destruct h as [data trk]. cbv [reconstruct states_restrict recon_at write_index]. cbn [fh_data fh_trk].
    destruct data as [|a data]; [reflexivity|]. cbn [map list_set].
    destruct (trk =? step); [reflexivity|]. destruct st as [|y_n st]; [reflexivity|].
    destruct data as [|b [|c [|d [|e data]]]]; reflexivity.
  Qed.

  Add Field SFres : (sfield_th o HF).
  Ltac coef := cbv beta iota zeta delta [neg1 frac s_of_pos]; field; nz o HF HC.
  Lemma neg_scale a b : vadd yo (vscale yo (sopp o a) b) (vscale yo (s1 o) (vzero yo)) = vscale yo (sopp o a) b.
  Proof. vreduce o yo HF HY; coef. Qed.
  Lemma res_one dt f y y_n : vadd yo (vscale yo (sopp o dt) f) (vscale yo (s1 o) (vminus o yo y y_n))
    = bdf1_R o yo y_n dt f y.
  Proof. cbv delta [bdf1_R vminus] beta. vreduce o yo HF HY; coef. Qed.
  Lemma res_two dt f y y_n y_nm1 : vadd yo (vscale yo (sopp o (smul o (frac o 2 3) dt)) f)
    (vscale yo (s1 o) (vadd yo (vminus o yo y (vscale yo (frac o 4 3) y_n)) (vscale yo (frac o 1 3) y_nm1)))
    = bdf2_R o yo y_n y_nm1 dt f y.
  Proof. cbv delta [bdf2_R vminus] beta. vreduce o yo HF HY; coef. Qed.
  Lemma jac_one c dt j : vadd jo (vscale jo (sopp o (smul o c dt)) j) (vscale jo (s1 o) phi) = scheme_J o jo phi c dt j.
  Proof. cbv delta [scheme_J jminus] beta. vreduce o jo HF HJ; coef. Qed.
  Lemma jac_one1 dt j : vadd jo (vscale jo (sopp o dt) j) (vscale jo (s1 o) phi) = scheme_J o jo phi (s1 o) dt j.
  Proof. cbv delta [scheme_J jminus] beta. vreduce o jo HF HJ; coef. Qed.
  Lemma E_minus a b : vminus o yho (E a) (E b) = E (vminus o yo a b).
  Proof. cbv [vminus]. rewrite (lin_add _ _ _ HE), (lin_scale _ _ _ HE). reflexivity. Qed.

  Lemma one_restricts y_n t dt y r rh Jo Joh w : Joh = None <-> Jo = None ->
    restricts2 P PJ (hypred_one o yho fh (EB phi) up (E y_n) t dt (E y) rh Joh w)
                    (lspg_one o yo jo fom phi y_n t dt y r Jo w).
  Proof.
    intros HJo. cbv [restricts2 hypred_one lspg_one seen_fom].
    pose proof (fr_rhs _ _ _ _ _ _ HR y t r rh w) as H1. cbv [restricts] in H1.
    destruct (fo_rhs fh (E y) t rh w) as [e1 [f1 w1]]. destruct (fo_rhs fom y t r w) as [e2 [f2 w2]].
    cbn [fst snd] in H1. destruct H1 as (-> & -> & H1).
    destruct e2 as [[]|x|x|]; try (cbn; split; [reflexivity|]; split; [reflexivity|discriminate]).
    rewrite (H1 eq_refl), E_minus, (uo_R _ _ _ _ _ _ _ HU), res_one.
    destruct Jo as [j|], Joh as [jh|].
    - pose proof (fr_jac _ _ _ _ _ _ HR y phi t j jh w2) as H2. cbv [restricts] in H2.
      destruct (fo_jac fh (E y) (EB phi) t jh w2) as [e3 [j3 w3]].
      destruct (fo_jac fom y phi t j w2) as [e4 [j4 w4]].
      cbn [fst snd] in H2. destruct H2 as (-> & -> & H2).
      destruct e4 as [[]|x|x|]; try (cbn; split; [reflexivity|]; split; [reflexivity|discriminate]).
      rewrite (H2 eq_refl), (uo_J _ _ _ _ _ _ _ HU). rewrite jac_one1. cbn. repeat split.
    - discriminate (proj1 HJo eq_refl).
    - discriminate (proj2 HJo eq_refl).
    - cbn. repeat split.
  Qed.
  Lemma two_restricts y_n y_nm1 t dt y r rh Jo Joh w : Joh = None <-> Jo = None ->
    restricts2 P PJ (hypred_two o yho fh (EB phi) up (E y_n) (E y_nm1) t dt (E y) rh Joh w)
                    (lspg_two o yo jo fom phi y_n y_nm1 t dt y r Jo w).
  Proof.
    intros HJo. cbv [restricts2 hypred_two lspg_two seen_fom].
    pose proof (fr_rhs _ _ _ _ _ _ HR y t r rh w) as H1. cbv [restricts] in H1.
    destruct (fo_rhs fh (E y) t rh w) as [e1 [f1 w1]]. destruct (fo_rhs fom y t r w) as [e2 [f2 w2]].
    cbn [fst snd] in H1. destruct H1 as (-> & -> & H1).
    destruct e2 as [[]|x|x|]; try (cbn; split; [reflexivity|]; split; [reflexivity|discriminate]).
    rewrite (H1 eq_refl), <- !(lin_scale _ _ _ HE), E_minus, <- (lin_add _ _ _ HE), (uo_R _ _ _ _ _ _ _ HU), res_two.
    destruct Jo as [j|], Joh as [jh|].
    - pose proof (fr_jac _ _ _ _ _ _ HR y phi t j jh w2) as H2. cbv [restricts] in H2.
      destruct (fo_jac fh (E y) (EB phi) t jh w2) as [e3 [j3 w3]].
      destruct (fo_jac fom y phi t j w2) as [e4 [j4 w4]].
      cbn [fst snd] in H2. destruct H2 as (-> & -> & H2).
      destruct e4 as [[]|x|x|]; try (cbn; split; [reflexivity|]; split; [reflexivity|discriminate]).
      rewrite (H2 eq_refl), (uo_J _ _ _ _ _ _ _ HU), jac_one. cbn. repeat split.
    - discriminate (proj1 HJo eq_refl).
    - discriminate (proj2 HJo eq_refl).
    - cbn. repeat split.
  Qed.

  Lemma eval_restricts second np1 older t dt r rh Jo Joh w : Joh = None <-> Jo = None ->
    restricts2 P PJ (hypred_eval o yho fh (EB phi) up second (E np1) (map E older) t dt rh Joh w)
                    (default_eval o yo jo fom phi second np1 older t dt r Jo w).
  Proof.
    intros HJo.
    assert (HS : forall b, hypred_combination o yho second (E np1) (map E older) = Undef b ->
      default_residual o yo second np1 (vzero yo) older dt = Undef b ->
      (forall f, default_residual o yo second np1 f older dt = Undef b) ->
      restricts2 P PJ (hypred_eval o yho fh (EB phi) up second (E np1) (map E older) t dt rh Joh w)
                    (default_eval o yo jo fom phi second np1 older t dt r Jo w)).
    { intros b Hb _ Hd. cbv [restricts2 hypred_eval default_eval].
      pose proof (fr_rhs _ _ _ _ _ _ HR np1 t r rh w) as H1. cbv [restricts] in H1.
      destruct (fo_rhs fh (E np1) t rh w) as [e1 [f1 w1]]. destruct (fo_rhs fom np1 t r w) as [e2 [f2 w2]].
      cbn [fst snd] in H1. destruct H1 as (-> & -> & H1).
      destruct e2 as [[]|x|x|]; try (cbn; split; [reflexivity|]; split; [reflexivity|discriminate]).
      rewrite Hb, Hd. cbn. split; [reflexivity|]. split; [reflexivity|discriminate]. }
    destruct second.
    - destruct older as [|y_n [|y_nm1 older]].
      + apply (HS UOutOfBounds); reflexivity.
      + apply (HS UOutOfBounds); reflexivity.
      + cbn [map]. rewrite hypred_two_eq, default_two by assumption. apply two_restricts. exact HJo.
    - destruct older as [|y_n older].
      + apply (HS UOutOfBounds); reflexivity.
      + cbn [map]. rewrite hypred_one_eq, default_one by assumption. apply one_restricts. exact HJo.
  Qed.

  Lemma policy_restricts name x st fs fsh t step dt r rh Jo Joh p : Joh = None <-> Jo = None ->
    let '(eh, (fsh', rh', jh', ph')) :=
      hypred_policy o yho reconh fh (EB phi) up name x st fsh t step dt rh Joh
                    (mk_lpol (states_restrict E (lp_h p)) (lp_w p)) in
    let '(e, (fs', r', j', p')) := default_policy o yo jo recon fom phi name x st fs t step dt r Jo p in
    eh = e /\ fsh' = fsh /\ fs' = fs /\ ph' = mk_lpol (states_restrict E (lp_h p')) (lp_w p') /\
    (e = Ok tt -> rh' = P r' /\ jh' = option_map PJ j').
  Proof.
    intros HJo.
    assert (HB : forall second,
      let '(eh, (fsh', rh', jh', ph')) :=
        lspg_bdf reconh (hypred_eval o yho fh (EB phi) up) second x st fsh t step dt rh Joh
                      (mk_lpol (states_restrict E (lp_h p)) (lp_w p)) in
      let '(e, (fs', r', j', p')) := lspg_bdf recon (default_eval o yo jo fom phi) second x st fs t step dt r Jo p in
      eh = e /\ fsh' = fsh /\ fs' = fs /\ ph' = mk_lpol (states_restrict E (lp_h p')) (lp_w p') /\
      (e = Ok tt -> rh' = P r' /\ jh' = option_map PJ j')).
    { intros second. cbv [lspg_bdf]. cbn [lp_h lp_w]. rewrite reconstruct_restricts.
      destruct (reconstruct recon x st step (lp_h p)) as [r0 h].
      destruct r0 as [[]|y|y|]; try (cbn; repeat split; discriminate).
      destruct h as [data trk]. cbn [fh_data states_restrict].
      destruct data as [|np1 older]; [cbn; repeat split; discriminate|]. cbn [map].
      pose proof (eval_restricts second np1 older t dt r rh Jo Joh (lp_w p) HJo) as H. cbv [restricts2] in H.
      destruct (hypred_eval o yho fh (EB phi) up second (E np1) (map E older) t dt rh Joh (lp_w p)) as [e1 [[r1 j1] w1]].
      destruct (default_eval o yo jo fom phi second np1 older t dt r Jo (lp_w p)) as [e2 [[r2 j2] w2]].
      cbn [fst snd] in H. destruct H as (-> & -> & H). repeat split.
      - apply (proj1 (H H0)).
      - apply (proj2 (H H0)). }
    destruct name; try (cbn; repeat split; discriminate); apply HB.
  Qed.
End Restrict.

(** * A mask after the default problem *)
Section Mask.
  Context {S X Y R Ju J W : Type} (base : policy S X Y Ju (lpol (Y:=Y) (W:=W))).
  Variables (P : Y -> R) (PJ : Ju -> J).
  Variable m : masker (Ru:=Y) (Ju:=Ju) (R:=R) (J:=J) (W:=W).
  Hypotheses (HmR : forall ru r w, mk_R m ru r w = (Ok tt, (P ru, w)))
             (HmJ : forall ju j w, mk_J m ju j w = (Ok tt, (PJ ju, w))).
  Hypothesis Hbase : forall name y st fs t step dt r j p, exists j',
    snd (fst (snd (base name y st fs t step dt r (Some j) p))) = Some j'.
  Lemma masked_is_mask name x st fs t step dt r Jo p :
    let '(e, (fs', r', j', p')) := masked_policy base m name x st fs t step dt r Jo p in
    let '(eb, (_, rb, jb, pb)) := base name x st [] t step dt (mk_r p) (Some (mk_j p)) (mk_base p) in
    e = eb /\ fs' = fs /\ mk_base p' = pb /\
    (e = Ok tt -> r' = P rb /\ j' = match Jo with Some _ => option_map PJ jb | None => None end).
  Proof.
    cbv [masked_policy]. pose proof (Hbase name x st [] t step dt (mk_r p) (mk_j p) (mk_base p)) as [j' Hj].
    destruct (base name x st [] t step dt (mk_r p) (Some (mk_j p)) (mk_base p)) as [e [[[fs1 r1] j1] b]].
    cbn [fst snd] in Hj. subst j1.
    destruct e as [[]|y|y|]; try (repeat split; discriminate).
    rewrite HmR. destruct Jo as [j|].
    - rewrite HmJ. destruct b as [bh bw]. repeat split.
    - destruct b as [bh bw]. repeat split.
  Qed.
End Mask.
Lemma default_keeps_jac {S X Y J W} (o : sops S) (yo : vops S Y) (jo : vops S J) (recon : X -> Y)
  (fom : sfom (S:=S) (Y:=Y) (R:=Y) (J:=J) (B:=J) (W:=W)) phi name y st fs t step dt r j p :
  exists j', snd (fst (snd (default_policy o yo jo recon fom phi name y st fs t step dt r (Some j) p))) = Some j'.
Proof.
  assert (HB : forall second, exists j', snd (fst (snd (lspg_bdf recon (default_eval o yo jo fom phi) second
                 y st fs t step dt r (Some j) p))) = Some j').
  { intros second. cbv [lspg_bdf]. destruct (reconstruct recon y st step (lp_h p)) as [r0 h].
    destruct r0 as [u|u|u|]; try (eexists; reflexivity).
    destruct (fh_data h) as [|np1 older]; [eexists; reflexivity|]. cbv [default_eval lspg_jac].
    destruct (fo_rhs fom np1 t r (lp_w p)) as [e [f w1]]. destruct e as [v|v|v|]; try (eexists; reflexivity).
    destruct (default_residual o yo second np1 f older dt) as [z|z|z|]; try (eexists; reflexivity).
    destruct (fo_jac fom np1 phi t j w1) as [e2 [j2 w2]]. destruct e2; eexists; reflexivity. }
  destruct name; try (eexists; reflexivity); apply HB.
Qed.

(** * With the identity as basis LSPG is the FOM's own scheme *)
Section Identity.
  Context {S Y J W : Type} (o : sops S) (yo : vops S Y) (jo : vops S J) (jid : J).
  Variable fom : sfom (S:=S) (Y:=Y) (R:=Y) (J:=J) (B:=J) (W:=W).
  Variable u : isys (S:=S) (V:=Y) (J:=J) (W:=W).
  Variables (f : Y -> S -> Y) (df : Y -> J -> S -> J) (jac : Y -> S -> J).
  Hypothesis Hfom : fom_pure fom f df.
  Hypothesis Hu : pure_system u (fun y t => Ok (f y t, jac y t)) (fun _ _ j => j).
  Hypothesis Hid : forall y t, df y jid t = jac y t.
  Notation idm := (fun y : Y => y).
  Lemma identity_one tape rn dt y r Jo w :
    problem_one o idm (lspg_one o yo jo fom jid) tape rn dt y r Jo w = problem_bdf1 o yo jo jid u tape rn dt y r Jo w.
  Proof.
    destruct Hfom as [H1 H2]. cbv [problem_one problem_bdf1]. destruct (r_hist rn) as [|y_n hist]; [reflexivity|].
    cbv [lspg_one seen_fom seen]. rewrite H1. destruct (Hu y (sadd o (r_t rn) dt) r Jo w) as (j' & w' & -> & Hw & Hj). cbv beta in Hw. subst w'.
    destruct Jo as [j|]; [|reflexivity]. rewrite (Hj ltac:(discriminate)), H2, Hid. reflexivity.
  Qed.
  Lemma identity_two tape rn dt y r Jo w :
    problem_two o idm (lspg_one o yo jo fom jid) (lspg_two o yo jo fom jid) tape rn dt y r Jo w =
    problem_bdf2 o yo jo jid u tape rn dt y r Jo w.
  Proof.
    cbv [problem_two problem_bdf2]. destruct (r_hist rn) as [|y_n [|y_nm1 hist]]; try apply identity_one.
    destruct Hfom as [H1 H2].
    cbv [lspg_two seen_fom seen]. rewrite H1. destruct (Hu y (sadd o (r_t rn) dt) r Jo w) as (j' & w' & -> & Hw & Hj). cbv beta in Hw. subst w'.
    destruct Jo as [j|]; [|reflexivity]. rewrite (Hj ltac:(discriminate)), H2, Hid. reflexivity.
  Qed.
End Identity.

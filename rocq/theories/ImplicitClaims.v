(** What a solver is shown by the steppers, in terms of the equations (C14, C15). *)
From Coq Require Import ZArith List Bool Lia Field Reals.
From Verif Require Import Base RInst Laws LawInst ExplicitModel ImplicitModel ImplicitSpec ImplicitProofs
  ImplicitRefine ImplicitExtra.
Import ListNotations.
Local Open Scope Z_scope.

Section Shown.
  Context {S V J W : Type} (o : sops S) (vo : vops S V) (jo : vops S J).
  Variable jid : J.
  Variable japp : J -> V -> V.
  Variable u : isys (S:=S) (V:=V) (J:=J) (W:=W).
  Hypotheses (HF : sfield o) (HC : schar0 o) (HV : vspace o vo) (HJ : vspace o jo).
  Variable f : V -> S -> V.
  Variable jac : V -> S -> J.
  Notation rj := (std_rj (policy_std o vo jo jid u)).
  Notation rjm := (std_rj (policy_mm o vo jo japp u)).

  Section NoMass.
    Hypothesis Hf : rhs_is u f.
    Lemma shown_bdf1 y_n st t k dt y R Jo g r jo' g' :
      rj BDF1 (y_n :: st) t k dt y R Jo g = (Ok tt, (r, jo', g')) ->
      r = bdf1_R o vo y_n dt (f y t) y /\
      (jac_is u jac -> jo' = option_map (fun _ => scheme_J o jo jid (s1 o) dt (jac y t)) Jo).
    Proof.
      destruct g as [fs p]. cbv [std_rj policy_std pol_bdf1 fst snd]. intros E.
      destruct (is_eval u y t R Jo (pp_w p)) as [e [[f1 j1] w1]] eqn:EU.
      destruct e as [[]|e|b|]; [|destruct e; discriminate|discriminate|discriminate].
      injection E as <- <- _. rewrite (Hf _ _ _ _ _ _ _ _ EU). split; [apply res_bdf1; assumption|].
      intros Hj. destruct Jo as [j0|]; [|reflexivity]. rewrite (Hj _ _ _ _ _ _ _ _ EU).
      cbn. f_equal. apply jac_bdf1; assumption.
    Qed.
    Lemma shown_bdf2_first y_n st t dt y R Jo g r jo' g' :
      rj BDF2 (y_n :: st) t 1 dt y R Jo g = (Ok tt, (r, jo', g')) ->
      r = bdf1_R o vo y_n dt (f y t) y /\
      (jac_is u jac -> jo' = option_map (fun _ => scheme_J o jo jid (s1 o) dt (jac y t)) Jo).
    Proof. exact (shown_bdf1 y_n st t 1 dt y R Jo g r jo' g'). Qed.
    Lemma shown_bdf2 y_n y_nm1 st t k dt y R Jo g r jo' g' : k <> 1 ->
      rj BDF2 (y_n :: y_nm1 :: st) t k dt y R Jo g = (Ok tt, (r, jo', g')) ->
      r = bdf2_R o vo y_n y_nm1 dt (f y t) y /\
      (jac_is u jac -> jo' = option_map (fun _ => scheme_J o jo jid (frac o 2 3) dt (jac y t)) Jo).
    Proof.
      intros Hk. destruct g as [fs p]. cbv [std_rj policy_std pol_bdf2 fst snd].
      rewrite (proj2 (Z.eqb_neq k 1)) by exact Hk. intros E.
      destruct (is_eval u y t R Jo (pp_w p)) as [e [[f1 j1] w1]] eqn:EU.
      destruct e as [[]|e|b|]; [|destruct e; discriminate|discriminate|discriminate].
      injection E as <- <- _. rewrite (Hf _ _ _ _ _ _ _ _ EU). split; [apply res_bdf2; assumption|].
      intros Hj. destruct Jo as [j0|]; [|reflexivity]. rewrite (Hj _ _ _ _ _ _ _ _ EU).
      cbn. f_equal. apply jac_bdf2; assumption.
    Qed.
    (** [f_n] is the right-hand side the object holds for the start of the step. *)
    Lemma shown_cn y_n st t k dt y R Jo g r jo' fs' p' :
      rj CrankNicolson (y_n :: st) t k dt y R Jo g = (Ok tt, (r, jo', (fs', p'))) ->
      exists f_np1 f_n rest, fs' = f_np1 :: f_n :: rest /\
      r = cn_R o vo y_n f_n dt (f y t) y /\
      (pp_trk (snd g) <> k -> f_n = f y_n (ssub o t dt)) /\ pp_trk p' = k /\
      (jac_is u jac -> jo' = option_map (fun _ => scheme_J o jo jid (frac o 1 2) dt (jac y t)) Jo).
    Proof.
      destruct g as [fs p]. cbv [std_rj policy_std pol_cn fst snd]. intros E.
      destruct fs as [|a [|b rest]]; try discriminate.
      destruct (cn_refresh o u y_n b t k dt p) as [r0 [fn' p0]] eqn:ER.
      destruct r0 as [[]|e|c|]; try discriminate.
      destruct (is_eval u y t a Jo (pp_w p0)) as [e [[f1 j1] w1]] eqn:EU.
      destruct e as [[]|e|c|]; try discriminate.
      injection E as <- <- <- <-. exists f1, fn', rest. split; [reflexivity|].
      rewrite (Hf _ _ _ _ _ _ _ _ EU). split; [apply res_cn; assumption|]. split; [|split; [reflexivity|]].
      - intros Hk. cbv [cn_refresh] in ER. rewrite (proj2 (Z.eqb_neq _ _) Hk) in ER. cbn [negb] in ER.
        destruct (is_eval u y_n (ssub o t dt) b None (pp_w p)) as [e2 [[f2 j2] w2]] eqn:EN.
        injection ER as -> <- _. exact (Hf _ _ _ _ _ _ _ _ EN).
      - intros Hj. destruct Jo as [j0|]; [|reflexivity]. rewrite (Hj _ _ _ _ _ _ _ _ EU).
        cbn. f_equal. apply jac_cn; assumption.
    Qed.
    Lemma root_shown_bdf1 y_n st t k dt y R Jo g r jo' g' :
      rj BDF1 (y_n :: st) t k dt y R Jo g = (Ok tt, (r, jo', g')) ->
      (r = vzero vo <-> bdf1_eq vo (fun x => f x t) y_n dt y).
    Proof. intros E. destruct (shown_bdf1 _ _ _ _ _ _ _ _ _ _ _ _ E) as [-> _]. apply (root_bdf1 o vo HF HV (fun x => f x t)). Qed.
    Lemma root_shown_bdf2_first y_n st t dt y R Jo g r jo' g' :
      rj BDF2 (y_n :: st) t 1 dt y R Jo g = (Ok tt, (r, jo', g')) ->
      (r = vzero vo <-> bdf1_eq vo (fun x => f x t) y_n dt y).
    Proof. exact (root_shown_bdf1 y_n st t 1 dt y R Jo g r jo' g'). Qed.
    Lemma root_shown_bdf2 y_n y_nm1 st t k dt y R Jo g r jo' g' : k <> 1 ->
      rj BDF2 (y_n :: y_nm1 :: st) t k dt y R Jo g = (Ok tt, (r, jo', g')) ->
      (r = vzero vo <-> bdf2_eq o vo (fun x => f x t) y_n y_nm1 dt y).
    Proof.
      intros Hk E. destruct (shown_bdf2 _ _ _ _ _ _ _ _ _ _ _ _ _ Hk E) as [-> _].
      apply (root_bdf2 o vo HF HC HV (fun x => f x t)).
    Qed.
    Lemma root_shown_cn y_n st t k dt y R Jo g r jo' g' : pp_trk (snd g) <> k ->
      rj CrankNicolson (y_n :: st) t k dt y R Jo g = (Ok tt, (r, jo', g')) ->
      (r = vzero vo <-> cn_eq o vo (f y_n (ssub o t dt)) (fun x => f x t) y_n dt y).
    Proof.
      destruct g' as [fs' p']. intros Hk E.
      destruct (shown_cn _ _ _ _ _ _ _ _ _ _ _ _ _ E) as (a & fn & rest & _ & -> & Hn & _).
      rewrite (Hn Hk). apply (root_cn o vo HF HV (fun x => f x t)).
    Qed.
  End NoMass.

  Section Mass.
    Variable M : V -> S -> J.
    Hypothesis Hf : rhs_mass_is u M f.
    Lemma shown_bdf1_mm y_n st t k dt y R Jo g r jo' g' :
      rjm BDF1 (y_n :: st) t k dt y R Jo g = (Ok tt, (r, jo', g')) ->
      r = bdf1_R_mm o vo japp y_n dt (M y t) (f y t) y /\
      (jac_mass_is u jac -> jo' = option_map (fun _ => scheme_J o jo (M y t) (s1 o) dt (jac y t)) Jo).
    Proof.
      destruct g as [fs p]. cbv [std_rj policy_mm mpol_bdf1 fst snd]. intros E.
      destruct (is_mmeval u y t (mp_M p) (mp_f p) Jo (mp_w p)) as [e [[[M1 f1] j1] w1]] eqn:EU.
      destruct e as [[]|e|b|]; [|destruct e; discriminate|discriminate|discriminate].
      injection E as <- <- _. destruct (Hf _ _ _ _ _ _ _ _ _ _ EU) as [-> ->].
      split; [apply res_bdf1_mm; assumption|].
      intros Hj. destruct Jo as [j0|]; [|reflexivity]. rewrite (Hj _ _ _ _ _ _ _ _ _ _ EU).
      cbn. f_equal. apply jac_bdf1_mm; assumption.
    Qed.
    Lemma shown_bdf2_mm_first y_n st t dt y R Jo g r jo' g' :
      rjm BDF2 (y_n :: st) t 1 dt y R Jo g = (Ok tt, (r, jo', g')) ->
      r = bdf1_R_mm o vo japp y_n dt (M y t) (f y t) y /\
      (jac_mass_is u jac -> jo' = option_map (fun _ => scheme_J o jo (M y t) (s1 o) dt (jac y t)) Jo).
    Proof. exact (shown_bdf1_mm y_n st t 1 dt y R Jo g r jo' g'). Qed.
    Lemma shown_bdf2_mm y_n y_nm1 st t k dt y R Jo g r jo' g' : k <> 1 ->
      rjm BDF2 (y_n :: y_nm1 :: st) t k dt y R Jo g = (Ok tt, (r, jo', g')) ->
      r = bdf2_R_mm o vo japp y_n y_nm1 dt (M y t) (f y t) y /\
      (jac_mass_is u jac -> jo' = option_map (fun _ => scheme_J o jo (M y t) (frac o 2 3) dt (jac y t)) Jo).
    Proof.
      intros Hk. destruct g as [fs p]. cbv [std_rj policy_mm mpol_bdf2 fst snd].
      rewrite (proj2 (Z.eqb_neq k 1)) by exact Hk. intros E.
      destruct (is_mmeval u y t (mp_M p) (mp_f p) Jo (mp_w p)) as [e [[[M1 f1] j1] w1]] eqn:EU.
      destruct e as [[]|e|b|]; [|destruct e; discriminate|discriminate|discriminate].
      injection E as <- <- _. destruct (Hf _ _ _ _ _ _ _ _ _ _ EU) as [-> ->].
      split; [apply res_bdf2_mm; assumption|].
      intros Hj. destruct Jo as [j0|]; [|reflexivity]. rewrite (Hj _ _ _ _ _ _ _ _ _ _ EU).
      cbn. f_equal. apply jac_bdf2_mm; assumption.
    Qed.
    Lemma root_shown_bdf1_mm y_n st t k dt y R Jo g r jo' g' :
      rjm BDF1 (y_n :: st) t k dt y R Jo g = (Ok tt, (r, jo', g')) ->
      (r = vzero vo <-> japp (M y t) (vminus o vo y y_n) = vscale vo dt (f y t)).
    Proof.
      intros E. destruct (shown_bdf1_mm _ _ _ _ _ _ _ _ _ _ _ _ E) as [-> _].
      apply (root_bdf1_mm o vo japp HF HV (M y t) (fun x => f x t)).
    Qed.
    Lemma root_shown_bdf2_mm_first y_n st t dt y R Jo g r jo' g' :
      rjm BDF2 (y_n :: st) t 1 dt y R Jo g = (Ok tt, (r, jo', g')) ->
      (r = vzero vo <-> japp (M y t) (vminus o vo y y_n) = vscale vo dt (f y t)).
    Proof. exact (root_shown_bdf1_mm y_n st t 1 dt y R Jo g r jo' g'). Qed.
    Lemma root_shown_bdf2_mm y_n y_nm1 st t k dt y R Jo g r jo' g' : k <> 1 ->
      rjm BDF2 (y_n :: y_nm1 :: st) t k dt y R Jo g = (Ok tt, (r, jo', g')) ->
      (r = vzero vo <->
       japp (M y t) (vadd vo (vminus o vo y (vscale vo (frac o 4 3) y_n)) (vscale vo (frac o 1 3) y_nm1))
       = vscale vo (smul o (frac o 2 3) dt) (f y t)).
    Proof.
      intros Hk E. destruct (shown_bdf2_mm _ _ _ _ _ _ _ _ _ _ _ _ _ Hk E) as [-> _].
      apply (root_bdf2_mm o vo japp HF HV (M y t) (fun x => f x t)).
    Qed.
  End Mass.
End Shown.

(** * The Jacobian shown is the derivative of the residual shown (C15) *)
Section Derivs.
  Context {V J W : Type} (eps0 : R) (vo : vops R V) (jo : vops R J).
  Variable jid : J.
  Variable japp : J -> V -> V.
  Variable norm : V -> R.
  Variable u : isys (S:=R) (V:=V) (J:=J) (W:=W).
  Hypotheses (HV : vspace (Rops eps0) vo) (HJ : vspace (Rops eps0) jo).
  Hypothesis HM : matrices vo jo jid japp.
  Hypothesis HN : normed vo norm.
  Variable f : V -> R -> V.
  Variable jac : V -> R -> J.
  Hypothesis Hd : forall y t, derivative vo norm (fun x => f x t) y (japp (jac y t)).
  Notation rj := (std_rj (policy_std (Rops eps0) vo jo jid u)).
  Notation rjm := (std_rj (policy_mm (Rops eps0) vo jo japp u)).
  Let HF := R_field eps0.
  Let HC := R_char0 eps0.

  Lemma shown_derivative_bdf1 y_n st t k dt y Rb j0 g r jo' g' : rhs_is u f -> jac_is u jac ->
    rj BDF1 (y_n :: st) t k dt y Rb (Some j0) g = (Ok tt, (r, jo', g')) ->
    exists a, jo' = Some a /\ r = bdf1_R (Rops eps0) vo y_n dt (f y t) y /\
      derivative vo norm (fun x => bdf1_R (Rops eps0) vo y_n dt (f x t) x) y (japp a).
  Proof.
    intros H1 H2 E.
    destruct (shown_bdf1 _ vo jo jid u HF HV HJ f jac H1 _ _ _ _ _ _ _ _ _ _ _ _ E) as [-> Ej].
    rewrite (Ej H2). eexists. split; [reflexivity|]. split; [reflexivity|].
    apply (deriv_bdf1 eps0 vo jo jid japp norm HV HN (m_add _ _ _ _ HM) (m_scale _ _ _ _ HM) (m_id _ _ _ _ HM)
             (fun x => f x t)). apply Hd.
  Qed.
  Lemma shown_derivative_bdf2 y_n y_nm1 st t k dt y Rb j0 g r jo' g' : rhs_is u f -> jac_is u jac -> k <> 1 ->
    rj BDF2 (y_n :: y_nm1 :: st) t k dt y Rb (Some j0) g = (Ok tt, (r, jo', g')) ->
    exists a, jo' = Some a /\ r = bdf2_R (Rops eps0) vo y_n y_nm1 dt (f y t) y /\
      derivative vo norm (fun x => bdf2_R (Rops eps0) vo y_n y_nm1 dt (f x t) x) y (japp a).
  Proof.
    intros H1 H2 Hk E.
    destruct (shown_bdf2 _ vo jo jid u HF HC HV HJ f jac H1 _ _ _ _ _ _ _ _ _ _ _ _ _ Hk E) as [-> Ej].
    rewrite (Ej H2). eexists. split; [reflexivity|]. split; [reflexivity|].
    apply (deriv_bdf2 eps0 vo jo jid japp norm HV HN (m_add _ _ _ _ HM) (m_scale _ _ _ _ HM) (m_id _ _ _ _ HM)
             (fun x => f x t)). apply Hd.
  Qed.
  Lemma shown_derivative_cn y_n st t k dt y Rb j0 g r jo' g' : rhs_is u f -> jac_is u jac ->
    rj CrankNicolson (y_n :: st) t k dt y Rb (Some j0) g = (Ok tt, (r, jo', g')) ->
    exists a f_n, jo' = Some a /\ nth_error (fst g') 1 = Some f_n /\
      r = cn_R (Rops eps0) vo y_n f_n dt (f y t) y /\
      derivative vo norm (fun x => cn_R (Rops eps0) vo y_n f_n dt (f x t) x) y (japp a).
  Proof.
    destruct g' as [fs' p']. intros H1 H2 E.
    destruct (shown_cn _ vo jo jid u HF HC HV HJ f jac H1 _ _ _ _ _ _ _ _ _ _ _ _ _ E)
      as (a & fn & rest & -> & -> & _ & _ & Ej).
    rewrite (Ej H2). eexists _, fn. split; [reflexivity|]. split; [reflexivity|]. split; [reflexivity|].
    apply (deriv_cn eps0 vo jo jid japp norm HV HN (m_add _ _ _ _ HM) (m_scale _ _ _ _ HM) (m_id _ _ _ _ HM)
             (fun x => f x t)). apply Hd.
  Qed.
  (** Mass matrix depending on time only. *)
  Variable M : R -> J.
  Let HL : forall a, linear vo vo (japp a).
  Proof. intros a. split; [apply (m_linear _ _ _ _ HM)|apply (m_linear_scale _ _ _ _ HM)]. Qed.
  Lemma shown_derivative_bdf1_mm y_n st t k dt y Rb j0 g r jo' g' :
    rhs_mass_is u (fun _ => M) f -> jac_mass_is u jac ->
    rjm BDF1 (y_n :: st) t k dt y Rb (Some j0) g = (Ok tt, (r, jo', g')) ->
    exists a, jo' = Some a /\ r = bdf1_R_mm (Rops eps0) vo japp y_n dt (M t) (f y t) y /\
      derivative vo norm (fun x => bdf1_R_mm (Rops eps0) vo japp y_n dt (M t) (f x t) x) y (japp a).
  Proof.
    intros H1 H2 E.
    destruct (shown_bdf1_mm _ vo jo japp u HF HV HJ f jac _ H1 _ _ _ _ _ _ _ _ _ _ _ _ E) as [-> Ej].
    rewrite (Ej H2). eexists. split; [reflexivity|]. split; [reflexivity|].
    apply (deriv_bdf1_mm eps0 vo jo japp norm HV HN (m_add _ _ _ _ HM) (m_scale _ _ _ _ HM) HL (fun x => f x t)).
    apply Hd.
  Qed.
  Lemma shown_derivative_bdf2_mm y_n y_nm1 st t k dt y Rb j0 g r jo' g' :
    rhs_mass_is u (fun _ => M) f -> jac_mass_is u jac -> k <> 1 ->
    rjm BDF2 (y_n :: y_nm1 :: st) t k dt y Rb (Some j0) g = (Ok tt, (r, jo', g')) ->
    exists a, jo' = Some a /\ r = bdf2_R_mm (Rops eps0) vo japp y_n y_nm1 dt (M t) (f y t) y /\
      derivative vo norm (fun x => bdf2_R_mm (Rops eps0) vo japp y_n y_nm1 dt (M t) (f x t) x) y (japp a).
  Proof.
    intros H1 H2 Hk E.
    destruct (shown_bdf2_mm _ vo jo japp u HF HC HV HJ f jac _ H1 _ _ _ _ _ _ _ _ _ _ _ _ _ Hk E) as [-> Ej].
    rewrite (Ej H2). eexists. split; [reflexivity|]. split; [reflexivity|].
    apply (deriv_bdf2_mm eps0 vo jo japp norm HV HN (m_add _ _ _ _ HM) (m_scale _ _ _ _ HM) HL (fun x => f x t)).
    apply Hd.
  Qed.
End Derivs.

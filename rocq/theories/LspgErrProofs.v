(** Lemmas behind C100. *)
From Coq Require Import Reals ZArith List Lra Lia Bool.
From Verif Require Import Base RInst Laws LawInst AdvanceModel AdvanceSpec AdvanceProofs TargetProofs Track ExplicitModel ImplicitModel ImplicitSpec
  NonlinDiag NonlinModel NonlinSpec NonlinLaws LspgModel LspgSpec RomRunSpec RomLsSpec RomLsClaims
  StabilitySpec DissipSpec DissipProofs DissipChain DissipClaims OrderSpec OrderCalculus OrderProofs OrderClaims SteadyNlSpec SteadyNlProofs SteadyNlClaims LspgErrSpec.
Import ListNotations.
Local Open Scope R_scope.

Section Step.
  Context {Y : Type} (eps : R) (yo : vops R Y) (ip : Y -> Y -> R).
  Notation o := (Rops eps).
  Hypotheses (HY : vspace o yo) (HI : DissipSpec.inner yo ip).
  Let HF := R_field eps.
  Notation len := (length_of ip).
  Notation "x -- y" := (vminus (Rops eps) yo x y) (at level 50, left associativity).
  Notation "x ++ y" := (vadd yo x y).
  Lemma len_neg x : len (vscale yo (-1) x) = len x.
  Proof. unfold length_of. f_equal. rewrite (ip_scale _ _ HI), (ip_sym _ _ HI), (ip_scale _ _ HI). ring. Qed.
  Lemma len_plus x y : len (x ++ y) <= len x + len y.
  Proof.
    replace (x ++ y) with (x -- vscale yo (-1) y) by (unfold vminus, neg1; vreduce (Rops eps) yo HF HY; cbn; lra).
    rewrite <- (len_neg y). apply (len_minus eps yo ip HI); apply Rle_refl.
  Qed.
  Lemma len_scale s x : 0 <= s -> len (vscale yo s x) = s * len x.
  Proof.
    intros Hs. unfold length_of. rewrite (ip_scale _ _ HI), (ip_sym _ _ HI), (ip_scale _ _ HI).
    replace (s * (s * ip x x)) with ((s * s) * ip x x) by ring. rewrite sqrt_mult_alt by nra. rewrite sqrt_square by exact Hs. reflexivity.
  Qed.
  (** the least element of a line is orthogonal to it *)
  Lemma least_orthogonal r v : (forall s, len r <= len (r ++ vscale yo s v)) -> ip r v = 0.
  Proof.
    intros H. set (p := ip r v). set (q := ip v v). assert (Hq : 0 <= q) by apply (ip_pos _ _ HI).
    assert (K : forall s, 0 <= 2 * (s * p) + s * s * q).
    { intros s. pose proof (H s) as H1. apply (Rmult_le_compat _ _ _ _ (len_pos ip r) (len_pos ip r) H1) in H1.
      rewrite !(len_sq yo ip HI) in H1. rewrite (ip_add _ _ HI), !(ip_add_r yo ip HI), !(ip_scale _ _ HI), !(ip_scale_r yo ip HI), (ip_sym _ _ HI v r) in H1.
      fold p q in H1. lra. }
    specialize (K (- p / (q + 1))).
    assert (E : 2 * (- p / (q + 1) * p) + - p / (q + 1) * (- p / (q + 1)) * q = - (p * p) * ((q + 2) / ((q + 1) * (q + 1)))) by (field; lra).
    rewrite E in K. assert (0 < (q + 2) / ((q + 1) * (q + 1))) by (apply Rdiv_lt_0_compat; nra).
    assert (p * p <= 0) by nra. nra.
  Qed.
  (** points of the sphere over the diameter from e to s *)
  Lemma on_sphere q e s : ip (q -- e) (q -- s) = 0 -> len q <= len e + len s.
  Proof.
    intros H. rewrite (ip_minus eps yo ip HI), !(ip_minus_r eps yo ip HI) in H.
    assert (E : len (vscale yo 2 q -- (e ++ s)) = len (e -- s)).
    { unfold length_of. f_equal.
      rewrite !(ip_minus eps yo ip HI), !(ip_minus_r eps yo ip HI), !(ip_add _ _ HI), !(ip_add_r yo ip HI), !(ip_scale _ _ HI), !(ip_scale_r yo ip HI).
      rewrite (ip_sym _ _ HI e q), (ip_sym _ _ HI s q), (ip_sym _ _ HI s e) in *. lra. }
    assert (E2 : vscale yo 2 q = (vscale yo 2 q -- (e ++ s)) ++ (e ++ s)) by (unfold vminus, neg1; vreduce (Rops eps) yo HF HY; cbn; lra).
    assert (K : 2 * len q <= len (e -- s) + len (e ++ s)).
    { rewrite <- (len_scale 2 q) by lra. rewrite E2. rewrite <- E. apply len_plus. }
    pose proof (len_plus e s). pose proof (len_minus eps yo ip HI e s (len e) (len s) (Rle_refl _) (Rle_refl _)). lra.
  Qed.
  (** one step: [e], [e'] the errors before and after, [r] the residual left, [d] that of the FOM's states, [g] that of the
      approximation of the new FOM state *)
  Lemma step_error (A : Y -> Y) h e e' r d g : 0 <= h -> (forall v, ip (A v) v <= 0) ->
    r -- d = (e' -- vscale yo h (A e')) -- e -> ip r ((e' -- vscale yo h (A e')) -- g) = 0 ->
    len e' <= len e + len g + 2 * len d.
  Proof.
    intros Hh HA E HO. set (w := e' -- vscale yo h (A e')) in *. set (q := w ++ d).
    assert (Er : r = q -- e).
    { replace r with ((r -- d) ++ d) by (unfold vminus, neg1; vreduce (Rops eps) yo HF HY; cbn; lra).
      rewrite E. unfold q, vminus, neg1. vreduce (Rops eps) yo HF HY; cbn; lra. }
    assert (Es : w -- g = q -- (g ++ d)) by (unfold q, vminus, neg1; vreduce (Rops eps) yo HF HY; cbn; lra).
    rewrite Er, Es in HO. apply on_sphere in HO. pose proof (len_plus g d) as K1.
    assert (K2 : len w <= len q + len d).
    { replace w with (q -- d) by (unfold q, vminus, neg1; vreduce (Rops eps) yo HF HY; cbn; lra).
      apply (len_minus eps yo ip HI); apply Rle_refl. }
    assert (K3 : len e' <= len w).
    { apply sqrt_le_1_alt. unfold w. rewrite (ip_minus eps yo ip HI), !(ip_minus_r eps yo ip HI), !(ip_scale _ _ HI), !(ip_scale_r yo ip HI).
      rewrite (ip_sym _ _ HI e' (A e')). pose proof (HA e') as H1. pose proof (ip_pos _ _ HI (A e')) as H2.
      assert (0 <= h * - ip (A e') e') by (apply Rmult_le_pos; lra). assert (0 <= h * (h * ip (A e') (A e'))) by (repeat apply Rmult_le_pos; lra). lra. }
    lra.
  Qed.
End Step.

Section Chain.
  Context {X Y J H : Type} (eps : R) (no : nlops R X Y J H) (yo : vops R Y) (jo : vops R J) (ap : J -> X -> Y) (apH : H -> X -> X).
  Notation o := (Rops eps).
  Notation ip := (n_rdot no).
  Notation len := (length_of (n_rdot no)).
  Notation "x -- y" := (vminus (Rops eps) yo x y) (at level 50, left associativity).
  Hypotheses (HL : nl_laws eps no yo ap apH) (HT : tall (n_vo no) yo jo ap) (HJ : vspace o jo).
  Variables (ref : Y) (phi : J) (A : R -> Y -> Y) (b : R -> Y) (Aphi : R -> J) (L : R).
  Hypotheses (HA : forall t, linear yo yo (A t)) (HAp : forall t x, ap (Aphi t) x = A t (ap phi x)).
  Hypotheses (HLp : 0 <= L) (HD : dissipative_bounded ip L A).
  Let HF := R_field eps.
  Let HR := nl_r _ _ _ _ _ HL.
  Let HY := in_space _ _ HR.
  Let HI : DissipSpec.inner yo ip := dissip_inner HR.
  Let recon x := vadd yo ref (ap phi x).
  Let f y t := vadd yo (A t y) (b t).
  Lemma A_minus t u v : A t (u -- v) = A t u -- A t v.
  Proof. unfold vminus. rewrite (lin_add _ _ _ (HA t)), (lin_scale _ _ _ (HA t)). reflexivity. Qed.
  Lemma ap_minus j u v : ap j (vadd (n_vo no) u (vscale (n_vo no) (neg1 o) v)) = ap j u -- ap j v.
  Proof. unfold vminus. pose proof (nl_apJ _ _ _ _ _ HL j) as K. rewrite (lin_add _ _ _ K), (lin_scale _ _ _ K). reflexivity. Qed.
  Lemma shrink t h v : 0 <= h -> len v <= len (v -- vscale yo h (A t v)).
  Proof.
    intros Hh. apply sqrt_le_1_alt. rewrite (ip_minus eps yo ip HI), !(ip_minus_r eps yo ip HI), !(ip_scale _ _ HI), !(ip_scale_r yo ip HI).
    rewrite (ip_sym _ _ HI v (A t v)). pose proof (proj1 (HD t v)) as H1. pose proof (ip_pos _ _ HI (A t v)) as H2.
    assert (0 <= h * - ip (A t v) v) by (apply Rmult_le_pos; lra). assert (0 <= h * (h * ip (A t v) (A t v))) by (repeat apply Rmult_le_pos; lra). lra.
  Qed.
  Lemma ap_scheme t h v : ap (scheme_J o jo phi (s1 o) h (Aphi t)) v = ap phi v -- vscale yo h (A t (ap phi v)).
  Proof.
    unfold scheme_J, jminus. rewrite (tall_add _ _ _ _ HT), !(tall_scale _ _ _ _ HT), HAp.
    unfold vminus, neg1. vreduce (Rops eps) yo HF HY; cbn; lra.
  Qed.
  Lemma step_rank t h : 0 <= h -> full_rank no yo ap phi -> full_rank no yo ap (scheme_J o jo phi (s1 o) h (Aphi t)).
  Proof.
    intros Hh Hf v E. rewrite ap_scheme in E. apply Hf. apply (in_zero _ _ HR).
    pose proof (shrink t h (ap phi v) Hh) as K. rewrite E in K.
    assert (Z : ip (vzero yo) (vzero yo) = 0).
    { rewrite <- (vs_0 _ _ HY (vzero yo)) at 1. rewrite (ip_scale _ _ HI). cbn. ring. }
    unfold length_of in K. rewrite Z, sqrt_0 in K. apply sqrt_eq_0; [apply (ip_pos _ _ HI)|]. apply Rle_antisym; [exact K|apply R_sqrt.sqrt_pos].
  Qed.
  (** the residual along a line of reduced states *)
  Lemma res_line xn t h x v s : 
    bdf1_R o yo (recon xn) h (f (recon (vadd (n_vo no) x (vscale (n_vo no) s v))) t) (recon (vadd (n_vo no) x (vscale (n_vo no) s v))) =
    vadd yo (bdf1_R o yo (recon xn) h (f (recon x) t) (recon x)) (vscale yo s (ap phi v -- vscale yo h (A t (ap phi v)))).
  Proof.
    pose proof (nl_apJ _ _ _ _ _ HL phi) as K. unfold bdf1_R, f, recon.
    rewrite !(lin_add _ _ _ (HA t)), !(lin_add _ _ _ K), !(lin_scale _ _ _ K), !(lin_add _ _ _ (HA t)), !(lin_scale _ _ _ (HA t)).
    unfold vminus, neg1. vreduce (Rops eps) yo HF HY; cbn; lra.
  Qed.
  Lemma best_orthogonal xn t h x v :
    (forall z, n_rnorm no (bdf1_R o yo (recon xn) h (f (recon x) t) (recon x)) <= n_rnorm no (bdf1_R o yo (recon xn) h (f (recon z) t) (recon z))) ->
    ip (bdf1_R o yo (recon xn) h (f (recon x) t) (recon x)) (ap phi v -- vscale yo h (A t (ap phi v))) = 0.
  Proof.
    intros HM. apply (least_orthogonal yo ip HI). intros s.
    pose proof (HM (vadd (n_vo no) x (vscale (n_vo no) s v))) as K. rewrite !(nl_rnorm _ _ _ _ _ HL) in K. rewrite res_line in K. exact K.
  Qed.
  Lemma one_step xn x a z z' t h : 0 <= h ->
    (forall c, n_rnorm no (bdf1_R o yo (recon xn) h (f (recon x) t) (recon x)) <= n_rnorm no (bdf1_R o yo (recon xn) h (f (recon c) t) (recon c))) ->
    len (recon x -- z') <= len (recon xn -- z) + (1 + L * h) * len (recon a -- z') + 2 * len (bdf1_R o yo z h (f z' t) z').
  Proof.
    intros Hh HM. set (g := (recon a -- z') -- vscale yo h (A t (recon a -- z'))).
    assert (Hg : len g <= (1 + L * h) * len (recon a -- z')).
    { unfold g. replace ((1 + L * h) * len (recon a -- z')) with (len (recon a -- z') + h * (L * len (recon a -- z'))) by ring.
      apply (len_minus eps yo ip HI); [apply Rle_refl|]. rewrite (len_scale yo ip HI) by exact Hh.
      apply Rmult_le_compat_l; [exact Hh|apply (proj2 (HD t _))]. }
    pose proof (step_error eps yo ip HY HI (A t) h (recon xn -- z) (recon x -- z')
      (bdf1_R o yo (recon xn) h (f (recon x) t) (recon x)) (bdf1_R o yo z h (f z' t) z') g Hh (fun v => proj1 (HD t v))) as K.
    eapply Rle_trans; [apply K|lra].
    - rewrite A_minus. unfold bdf1_R, f, vminus, neg1. vreduce (Rops eps) yo HF HY; cbn; lra.
    - pose proof (best_orthogonal xn t h x (vadd (n_vo no) x (vscale (n_vo no) (neg1 o) a)) HM) as O. rewrite ap_minus in O.
      replace (((recon x -- z') -- vscale yo h (A t (recon x -- z'))) -- g) with
        ((ap phi x -- ap phi a) -- vscale yo h (A t (ap phi x -- ap phi a))); [exact O|].
      unfold g, recon. rewrite !A_minus, !(lin_add _ _ _ (HA t)). unfold vminus, neg1. vreduce (Rops eps) yo HF HY; cbn; lra.
  Qed.
  Variable tag : lstag.
  Hypotheses (Hphi : full_rank no yo ap phi) (Hreg : forall j, full_rank no yo ap j -> regular no yo ap apH tag j).
  Lemma chain_tracks start y0 tr (l : accepted R X) :
    linked_from Rplus (minimising (n_rnorm no) (regular no yo ap apH tag)
      (fun t dt past => lspg_jacobian o jo recon (fun _ _ => Aphi) phi BDF1 past t dt (vzero (n_vo no))) (lspg_res o yo recon f BDF1)) start y0 l ->
    reports tr = numbered l -> tracks eps yo ip recon f L y0 tr.
  Proof.
    intros [Hl (d0 & l0 & E0)] Er ts err eta n z Hts Hup Hz Ha.
    destruct (chain_fun _ _ _ Hl) as (rs & hs & ys & _ & _ & (d1 & l1 & E1) & _ & HIn & HS).
    assert (Ey : ys 0%nat = y0). { rewrite E1 in E0. apply app_inj_tail in E0. destruct E0 as [_ E0]. injection E0 as _ _ E0. exact E0. }
    assert (Ht : forall k, (k < length l)%nat -> rs k = ts k).
    { intros k Hk. apply (Hts k _ (ys k)). rewrite Er. apply HIn. exists k. repeat split; lia. }
    assert (Main : forall k, (k <= n)%nat -> (k < length l)%nat ->
      distance eps yo ip (recon (ys k)) (z k) <= distance eps yo ip (recon y0) (z 0%nat) +
        elapsed (fun j => (1 + L * (ts (Datatypes.S j) - ts j)) * eta (Datatypes.S j) + 2 * err j) k).
    { induction k as [|k IH]; intros Hk Hkl; [rewrite Ey; cbn [elapsed]; lra|]. cbn [elapsed].
      specialize (IH ltac:(lia) ltac:(lia)). destruct (HS k Hkl) as [Et HM]. rewrite !Ht in Et by lia.
      assert (Eh : hs k = ts (Datatypes.S k) - ts k) by (rewrite Et; ring).
      pose proof (Hup k ltac:(lia)) as Hu. assert (Hh : 0 <= hs k) by lra.
      destruct (Ha k ltac:(lia)) as [a Ha']. pose proof (Hz k ltac:(lia)) as Hz'.
      assert (Ep : exists q, past ys k = ys k :: q) by (destruct k; cbn [past]; eexists; reflexivity). destruct Ep as [q Ep].
      rewrite Ep in HM. assert (HB := HM (Hreg _ (step_rank _ _ Hh Hphi))).
      rewrite Ht in HB by lia. unfold lspg_res in HB. cbn [by_past] in HB. change (sadd o) with Rplus in HB. rewrite <- Et in HB.
      pose proof (one_step (ys k) (ys (Datatypes.S k)) a (z k) (z (Datatypes.S k)) (ts (Datatypes.S k)) (hs k) Hh (fun c => proj1 (HB c))) as K.
      rewrite Eh in K. fold (distance eps yo ip (recon (ys (Datatypes.S k))) (z (Datatypes.S k))) in K.
      fold (distance eps yo ip (recon (ys k)) (z k)) (distance eps yo ip (recon a) (z (Datatypes.S k))) in K.
      assert (0 <= L * (ts (Datatypes.S k) - ts k)) by (apply Rmult_le_pos; lra).
      assert ((1 + L * (ts (Datatypes.S k) - ts k)) * distance eps yo ip (recon a) (z (Datatypes.S k)) <=
              (1 + L * (ts (Datatypes.S k) - ts k)) * eta (Datatypes.S k)) by (apply Rmult_le_compat_l; lra).
      lra. }
    intros k t x Hk Hin. rewrite Er in Hin. apply HIn in Hin. destruct Hin as (j & Ej & Hj & _ & ->). apply Nat2Z.inj in Ej. subst j.
    apply Main; assumption.
  Qed.
End Chain.

Section Solution.
  Context {X Y : Type} (eps : R) (yo : vops R Y) (ip : Y -> Y -> R).
  Notation o := (Rops eps).
  Hypotheses (HY : vspace o yo) (HI : DissipSpec.inner yo ip).
  Variables (recon : X -> Y) (f : Y -> R -> Y) (L : R).
  Hypothesis HLp : 0 <= L.
  Lemma tracks_to_solution P start y0 tr (l : accepted R X) : linked_from Rplus P start y0 l -> reports tr = numbered l ->
    tracks eps yo ip recon f L y0 tr -> tracks_solution eps yo ip recon f L start y0 tr.
  Proof.
    intros [Hl (d0 & l0 & E0)] Er Htk sol T K hm eta Hs HK Ha Hfw Hh k t x Hin Ht.
    assert (HR : run_of 0 (fun _ _ _ _ => True) start y0 tr).
    { destruct (chain_fun _ _ _ Hl) as (rs & hs & ys & _ & Hlen & (d1 & l1 & E1) & _ & HIn & _).
      rewrite E1 in E0. apply app_inj_tail in E0. destruct E0 as [_ E0].
      exists (length l - 1)%nat, rs, ys. split; [exact (f_equal (fun q => fst (fst q)) E0)|]. split; [exact (f_equal snd E0)|].
      split; [|exact I]. intros k' t' y'. rewrite Er, HIn.
      split; intros (j & A & B & C & D); exists j; repeat split; try assumption; lia. }
    destruct (until (fun _ _ : X => 0) (fun y _ => y) 0 start T y0 tr (fun _ => y0) (fun w s _ => derivable_pt_lim_const 0 s) Hfw _ k t x HR Hin Ht) as (j & ts & -> & -> & Es & Htr & _ & HI2 & Hm & Hb).
    pose (err := fun i => K / 2 * (ts (Datatypes.S i) - ts i) ^ 2).
    assert (Hz : near_bdf1 eps yo ip f ts err j (fun i => sol (ts i))).
    { intros i Hi. pose proof (Hb i ltac:(lia)). pose proof (Hb (Datatypes.S i) ltac:(lia)). specialize (Hm i Hi).
      apply (backward_local eps yo ip HY HI f sol start T Hs K HK); lra. }
    pose proof (Htk ts err (fun _ => eta) j (fun i => sol (ts i)) Htr Hm Hz (fun i Hi => Ha (ts (Datatypes.S i)) (Hb (Datatypes.S i) ltac:(lia))) j (ts j) x (le_n _) Hin) as Q.
    cbv beta in Q. rewrite Es in Q. eapply Rle_trans; [exact Q|]. apply Rplus_le_compat_l. rewrite <- INR_IZR_INZ.
    pose proof (Hb 0%nat ltac:(lia)) as Hb0.
    pose proof (M2_pos eps yo ip HY HI f sol start T K HK ltac:(lra)) as HKp.
    assert (He : 0 <= eta). { destruct (Ha (ts 0%nat) Hb0) as [a A]. pose proof (len_pos ip (vminus o yo (recon a) (sol (ts 0%nat)))) as B. unfold distance in A. lra. }
    rewrite <- Es. clear Q Hin Ht Hz. revert Hm Hb HI2. clear - Hh He HKp HLp. intros Hm Hb HI2.
    induction j as [|j IH]; [cbn; lra|]. cbn [elapsed]. rewrite S_INR.
    specialize (IH (fun i Hi => Hm i ltac:(lia)) (fun i Hi => Hb i ltac:(lia)) (fun i Hi => HI2 i ltac:(lia))).
    destruct (HI2 j ltac:(lia)) as (a & c & HA & HC). pose proof (Hh _ _ _ _ _ HA HC) as Q1. pose proof (Hm j ltac:(lia)) as Q2.
    set (h := ts (Datatypes.S j) - ts j) in *. assert (Hp : 0 <= h) by (unfold h; lra).
    assert (A1 : (1 + L * h) * eta <= (1 + L * hm) * eta) by (apply Rmult_le_compat_r; [exact He|]; apply Rplus_le_compat_l, Rmult_le_compat_l; lra).
    assert (A2 : 2 * err j <= K * hm * h).
    { unfold err. fold h. replace (2 * (K / 2 * h ^ 2)) with (K * (h * h)) by field. rewrite Rmult_assoc.
      apply Rmult_le_compat_l; [lra|]. apply Rmult_le_compat_r; lra. }
    unfold h in *. lra.
  Qed.
End Solution.

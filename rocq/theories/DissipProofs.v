(** C77: one step of the implicit schemes for dissipative right-hand sides. *)
From Coq Require Import ZArith List Reals Lra Lia Field.
From Verif Require Import Base RInst Laws LawInst AdvanceModel AdvanceSpec ExplicitModel ImplicitModel ImplicitSpec DissipSpec.
Import ListNotations.
Local Open Scope R_scope.

Section Ip.
  Context {V : Type} (eps0 : R) (vo : vops R V) (ip : V -> V -> R).
  Notation o := (Rops eps0).
  Hypotheses (HV : vspace o vo) (HI : inner vo ip).
  Let HF := R_field eps0.
  Notation len := (length_of ip).
  Notation "x -- y" := (vminus (Rops eps0) vo x y) (at level 50, left associativity).
  Lemma ip_add_r x y z : ip z (vadd vo x y) = ip z x + ip z y.
  Proof. rewrite (ip_sym _ _ HI), (ip_add _ _ HI), !(ip_sym _ _ HI z). reflexivity. Qed.
  Lemma ip_scale_r a x z : ip z (vscale vo a x) = a * ip z x.
  Proof. rewrite (ip_sym _ _ HI), (ip_scale _ _ HI), (ip_sym _ _ HI z). reflexivity. Qed.
  Lemma ip_minus x y z : ip (x -- y) z = ip x z - ip y z.
  Proof. unfold vminus, neg1. cbn. rewrite (ip_add _ _ HI), (ip_scale _ _ HI). ring. Qed.
  Lemma ip_minus_r x y z : ip z (x -- y) = ip z x - ip z y.
  Proof. unfold vminus, neg1. cbn. rewrite ip_add_r, ip_scale_r. ring. Qed.
  Lemma len_pos x : 0 <= len x.
  Proof. apply sqrt_pos. Qed.
  Lemma len_sq x : len x * len x = ip x x.
  Proof. apply sqrt_sqrt. apply (ip_pos _ _ HI). Qed.
  Lemma len_le x a : 0 <= a -> ip x x <= a * a -> len x <= a.
  Proof. intros Ha H. unfold length_of. rewrite <- (sqrt_square a Ha). apply sqrt_le_1_alt. exact H. Qed.
  Lemma cauchy x y : ip x y <= len x * len y.
  Proof.
    pose proof (len_pos x) as Hx. pose proof (len_pos y) as Hy. pose proof (len_sq x) as Sx. pose proof (len_sq y) as Sy.
    set (N := len x) in *. set (M := len y) in *.
    assert (Z : forall a b, ip b b = 0 -> ip a b <= 0).
    { intros a b Hb. destruct (Rle_or_lt (ip a b) 0) as [|Hc]; [assumption|exfalso].
      set (s := (ip a a + 1) / (2 * ip a b)).
      pose proof (ip_pos _ _ HI (a -- vscale vo s b)) as Q.
      rewrite ip_minus, !ip_minus_r, !(ip_scale _ _ HI), !ip_scale_r, Hb, (ip_sym _ _ HI b a) in Q.
      assert (E : s * ip a b = (ip a a + 1) / 2) by (unfold s; field; lra).
      rewrite E in Q. nra. }
    destruct (Req_dec M 0) as [E0|EM].
    - rewrite E0, Rmult_0_r. apply Z. rewrite <- Sy, E0. ring.
    - destruct (Req_dec N 0) as [E0|EN].
      + rewrite E0, Rmult_0_l, (ip_sym _ _ HI). apply Z. rewrite <- Sx, E0. ring.
      + pose proof (ip_pos _ _ HI (vscale vo M x -- vscale vo N y)) as Q.
        rewrite ip_minus, !ip_minus_r, !(ip_scale _ _ HI), !ip_scale_r, (ip_sym _ _ HI y x), <- Sx, <- Sy in Q.
        assert (0 < N * M) by (apply Rmult_lt_0_compat; lra).
        assert (0 <= (N * M) * (N * M - ip x y)) by nra. nra.
  Qed.
  Lemma len_minus x y a b : len x <= a -> len y <= b -> len (x -- y) <= a + b.
  Proof.
    intros Ha Hb. pose proof (len_pos x). pose proof (len_pos y).
    apply len_le; [lra|]. rewrite ip_minus, !ip_minus_r, (ip_sym _ _ HI y x), <- !len_sq.
    pose proof (cauchy x (vscale vo (-1) y)) as C. rewrite ip_scale_r in C.
    assert (E : len (vscale vo (-1) y) = len y).
    { unfold length_of. f_equal. rewrite (ip_scale _ _ HI), ip_scale_r. ring. }
    rewrite E in C. nra.
  Qed.
  Lemma ip_le x y b : len x <= b -> ip x y <= b * len y.
  Proof.
    intros Hb. eapply Rle_trans; [apply cauchy|]. apply Rmult_le_compat_r; [apply len_pos|exact Hb].
  Qed.
  (** The estimates behind the three schemes, for the differences [e] of two states: [d] the difference of
      the right-hand sides, [r] that of the residuals. *)
  Lemma contract1 e0 e1 d r h b : 0 <= h -> ip d e1 <= 0 -> len r <= b ->
    e1 -- e0 -- vscale vo h d = r -> ip e1 e1 <= ip e0 e1 + b * len e1 /\ len e1 <= len e0 + b.
  Proof.
    intros Hh Hd Hr E. apply (f_equal (fun v => ip v e1)) in E. cbv beta in E.
    rewrite !ip_minus, (ip_scale _ _ HI) in E. pose proof (ip_le r e1 b Hr) as C.
    assert (Q : ip e1 e1 <= ip e0 e1 + b * len e1) by nra. split; [exact Q|].
    pose proof (cauchy e0 e1) as C0. rewrite <- len_sq in Q. pose proof (len_pos e1). pose proof (len_pos e0).
    assert (0 <= b) by (pose proof (len_pos r); lra). nra.
  Qed.
  (** |e1|^2 + |2 e1 - e0|^2 *)
  Definition gnorm2 (e1 e0 : V) : R := ip e1 e1 + ip (vscale vo 2 e1 -- e0) (vscale vo 2 e1 -- e0).
  Definition gnorm (e1 e0 : V) : R := sqrt (gnorm2 e1 e0).
  Lemma gnorm2_pos e1 e0 : 0 <= gnorm2 e1 e0.
  Proof. unfold gnorm2. pose proof (ip_pos _ _ HI e1). pose proof (ip_pos _ _ HI (vscale vo 2 e1 -- e0)). lra. Qed.
  Lemma gnorm_sq e1 e0 : gnorm e1 e0 * gnorm e1 e0 = gnorm2 e1 e0.
  Proof. apply sqrt_sqrt. apply gnorm2_pos. Qed.
  Lemma gnorm_pos e1 e0 : 0 <= gnorm e1 e0.
  Proof. apply sqrt_pos. Qed.
  Lemma len_gnorm e1 e0 : len e1 <= gnorm e1 e0.
  Proof.
    apply len_le; [apply gnorm_pos|]. rewrite gnorm_sq. unfold gnorm2. pose proof (ip_pos _ _ HI (vscale vo 2 e1 -- e0)). lra.
  Qed.
  Lemma contract2 e0 e1 e2 d r h b : 0 <= h -> ip d e2 <= 0 -> len r <= b ->
    vadd vo (e2 -- vscale vo (4 / 3) e1) (vscale vo (1 / 3) e0) -- vscale vo (2 / 3 * h) d = r ->
    gnorm e2 e1 <= gnorm e1 e0 + 6 * b.
  Proof.
    intros Hh Hd Hr E. apply (f_equal (fun v => ip v e2)) in E. cbv beta in E.
    rewrite ip_minus, (ip_add _ _ HI), ip_minus, !(ip_scale _ _ HI) in E. pose proof (ip_le r e2 b Hr) as C.
    pose proof (gnorm_sq e2 e1) as G2. pose proof (gnorm_sq e1 e0) as G1. pose proof (len_gnorm e2 e1) as Ll.
    pose proof (gnorm_pos e2 e1). pose proof (gnorm_pos e1 e0). pose proof (len_pos r).
    unfold gnorm2 in G2, G1. rewrite !ip_minus, !ip_minus_r, !(ip_scale _ _ HI), !ip_scale_r in G2, G1.
    pose proof (ip_pos _ _ HI (vadd vo (e2 -- vscale vo 2 e1) e0)) as P.
    rewrite !(ip_add _ _ HI), !ip_add_r, !ip_minus, !ip_minus_r, !(ip_scale _ _ HI), !ip_scale_r in P.
    rewrite ?(ip_sym _ _ HI e1 e2), ?(ip_sym _ _ HI e0 e2), ?(ip_sym _ _ HI e0 e1) in *.
    set (g2 := gnorm e2 e1) in *. set (g1 := gnorm e1 e0) in *.
    assert (Q : g2 * g2 <= g1 * g1 + 6 * b * g2).
    { assert (h * ip d e2 <= 0) by nra. assert (b * len e2 <= b * g2) by (apply Rmult_le_compat_l; lra). nra. }
    destruct (Rle_or_lt g2 (g1 + 6 * b)) as [|N]; [assumption|exfalso]. nra.
  Qed.
  Lemma start2 e0 e1 d r h b : 0 <= h -> ip d e1 <= 0 -> len r <= b ->
    e1 -- e0 -- vscale vo h d = r -> gnorm e1 e0 <= sqrt 2 * (len e0 + 2 * b).
  Proof.
    intros Hh Hd Hr E. destruct (contract1 e0 e1 d r h b Hh Hd Hr E) as [Q1 Q2].
    pose proof (len_pos e0). pose proof (len_pos e1). pose proof (len_pos r).
    unfold gnorm. rewrite <- (sqrt_square (len e0 + 2 * b)) by lra. rewrite <- sqrt_mult_alt by lra.
    apply sqrt_le_1_alt. unfold gnorm2. rewrite !ip_minus, !ip_minus_r, !(ip_scale _ _ HI), !ip_scale_r.
    rewrite (ip_sym _ _ HI e1 e0). rewrite <- (len_sq e0). rewrite <- len_sq in *. nra.
  Qed.
  (** Crank-Nicolson: what does not grow is |e - h/2 d|. *)
  Lemma contract_cn e0 e1 d0 d1 r h b : 0 <= h -> ip d0 e0 <= 0 -> len r <= b ->
    e1 -- e0 -- vscale vo (1 / 2 * h) (vadd vo d0 d1) = r ->
    len (e1 -- vscale vo (1 / 2 * h) d1) <= len (e0 -- vscale vo (1 / 2 * h) d0) + b.
  Proof.
    intros Hh Hd Hr E.
    assert (E1 : e1 -- vscale vo (1 / 2 * h) d1 = vadd vo e0 (vscale vo (1 / 2 * h) d0) -- vscale vo (-1) r).
    { rewrite <- E. unfold vminus, neg1. vreduce (Rops eps0) vo HF HV; cbn; lra. }
    rewrite E1. apply len_minus.
    - apply len_le; [apply len_pos|]. rewrite len_sq.
      rewrite !(ip_add _ _ HI), !ip_add_r, !ip_minus, !ip_minus_r, !(ip_scale _ _ HI), !ip_scale_r.
      rewrite (ip_sym _ _ HI e0 d0). nra.
    - replace (len (vscale vo (-1) r)) with (len r); [exact Hr|].
      unfold length_of. f_equal. rewrite (ip_scale _ _ HI), ip_scale_r. ring.
  Qed.
  Lemma len_cn e d s : 0 <= s -> ip d e <= 0 -> len e <= len (e -- vscale vo s d).
  Proof.
    intros Hs Hd. apply len_le; [apply len_pos|]. rewrite len_sq, ip_minus, !ip_minus_r, !(ip_scale _ _ HI), !ip_scale_r.
    rewrite (ip_sym _ _ HI e d). pose proof (ip_pos _ _ HI d). nra.
  Qed.
  Lemma shrink_cn e d s s' : 0 <= s' <= s -> ip d e <= 0 -> len (e -- vscale vo s' d) <= len (e -- vscale vo s d).
  Proof.
    intros Hs Hd. apply len_le; [apply len_pos|]. rewrite len_sq, !ip_minus, !ip_minus_r, !(ip_scale _ _ HI), !ip_scale_r.
    rewrite (ip_sym _ _ HI e d). pose proof (ip_pos _ _ HI d).
    assert (s' * s' <= s * s) by nra. assert (s' * s' * ip d d <= s * s * ip d d) by (apply Rmult_le_compat_r; assumption).
    assert (0 <= (s - s') * - ip d e) by (apply Rmult_le_pos; lra). nra.
  Qed.
End Ip.

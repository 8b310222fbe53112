From Coq Require Import ZArith List Bool Field Lia.
From Verif Require Import Base Laws ExplicitModel ExplicitSpec ExplicitProofs.
Import ListNotations.
Local Open Scope Z_scope.

Section Order.
  Context {S V : Type} (o : sops S) (vo : vops S V).
  Hypothesis HF : sfield o.
  Hypothesis HC : schar0 o.
  Hypothesis HV : vspace o vo.
  Add Field SF2 : (sfield_th o HF).

  Ltac nz := Laws.nz o HF HC.
  Ltac coef := cbv beta iota zeta delta [sZ s_of_pos Pos.succ]; field; nz.
  Ltac vec := cbn [ycomb map st_k erk_stages app tb_b tb_stages tab_fe tab_rk4 tab_ssprk3 fst snd
                   vpoly vint exp_taylor]; vreduce o vo HF HV; coef.

  Lemma quadrature name tab n cs c0 t h :
    tab_of o name = Some tab -> order_of name = Some n -> (length cs <= n)%nat ->
    erk_next o vo (fun _ => vpoly vo cs) tab (vadd vo c0 (vint o vo 1 cs t)) t h =
    vadd vo c0 (vint o vo 1 cs (sadd o t h)).
  Proof.
    destruct name; cbn [tab_of order_of]; intros HT HN HL; try discriminate;
      injection HT as <-; injection HN as <-; unfold erk_next.
    - destruct cs as [|a [|]]; cbn in HL; try lia; vec.
    - destruct cs as [|a [|b [|c [|d [|]]]]]; cbn in HL; try lia; vec.
    - destruct cs as [|a [|b [|c [|]]]]; cbn in HL; try lia; vec.
  Qed.

  Lemma growth name tab n L y t h :
    tab_of o name = Some tab -> order_of name = Some n -> linear vo vo L ->
    erk_next o vo (fun v _ => L v) tab y t h = exp_taylor o vo L h n 1 y.
  Proof.
    destruct name; cbn [tab_of order_of]; intros HT HN [LA LS]; try discriminate;
      injection HT as <-; injection HN as <-; unfold erk_next;
      cbn [ycomb map st_k erk_stages app tb_b tb_stages tab_fe tab_rk4 tab_ssprk3 fst snd exp_taylor];
      rewrite ?LA, ?LS, ?LA, ?LS, ?LA, ?LS, ?LA, ?LS, ?LA, ?LS, ?LA, ?LS; repeat rewrite ?LA, ?LS;
      vreduce o vo HF HV; coef.
  Qed.

  (** AB2 adds the exact increment of a linear polynomial's integral *)
  Lemma ab2_quadrature ts h ys c0 c1 k :
    ab2_sequence o vo (fun _ => vpoly vo [c0; c1]) ts (fun _ => h) ys ->
    ts (k + 1)%nat = sadd o (ts k) h ->
    vadd vo (ys (k + 2)%nat) (vint o vo 1 [c0; c1] (ts (k + 1)%nat)) =
    vadd vo (ys (k + 1)%nat) (vint o vo 1 [c0; c1] (sadd o (ts (k + 1)%nat) h)).
  Proof.
    intros [_ H] Ht. rewrite (H k), Ht. vec.
  Qed.

  Lemma ab2_exists f ts hs y0 : exists ys, ab2_sequence o vo f ts hs ys /\ ys 0%nat = y0.
  Proof.
    pose (nxt := fun (k : nat) (p : V * V) (* y_k, y_{k+1} *) =>
       (snd p, vadd vo (snd p) (vscale vo (hs (k + 1)%nat)
        (vadd vo
          (vscale vo (sdiv o (sZ o 3) (sZ o 2)) (f (snd p) (ts (k + 1)%nat)))
          (vscale vo (sopp o (sdiv o (sZ o 1) (sZ o 2))) (f (fst p) (ts k))))))).
    pose (pr := fix pr (k : nat) : V * V := match k with
       | O => (y0, vadd vo y0 (vscale vo (hs 0%nat) (f y0 (ts 0%nat))))
       | Datatypes.S m => nxt m (pr m) end).
    exists (fun k => fst (pr k)). split; [|reflexivity]. split; [reflexivity|].
    intros k. replace (k + 2)%nat with (Datatypes.S (Datatypes.S k)) by lia.
    assert (A : fst (pr (k + 1)%nat) = snd (pr k)).
    { replace (k + 1)%nat with (Datatypes.S k) by lia. reflexivity. }
    rewrite A. reflexivity.
  Qed.
End Order.

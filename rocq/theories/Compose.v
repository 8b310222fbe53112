(** A loop rule for advancing with a fixed step size: used to prove that the
    advancer together with a stepper object integrates as specified. *)
From Coq Require Import ZArith List Bool Lia.
From Verif Require Import Base AdvanceModel AdvanceSpec AdvanceProofs.
Import ListNotations.
Local Open Scope Z_scope.

Section Compose.
  Context {T St W : Type} (o : sops T) (step : St -> T -> Z -> T -> W -> outcome unit * (St * W)).
  Variable h t0 : T.
  Variable num : nat.
  Variable Rel : nat -> St -> W -> Prop.
  Hypothesis Hstep : forall k s w, (k < num)%nat -> Rel k s w ->
    exists s' w', step s (fixed_time (sadd o) t0 h k) (Z.of_nat (S k)) h w = (Ok tt, (s', w')) /\
                  Rel (S k) s' w'.

  Lemma compose_good : forall n dt0 w tr c y0, (n <= num)%nat -> Rel 0 y0 w ->
    good_steps (sadd o) (@noop_obs T St W) (fun _ _ _ w => (Ok h, w)) noop_guess step
      (mk_cfg t0 dt0 y0 w) n tr c ->
    c_t c = fixed_time (sadd o) t0 h n /\ Rel n (c_s c) (c_w c).
  Proof.
    intros n. induction n as [|n IH]; intros dt0 w tr c y0 Hn HR HG.
    - inversion HG; subst. cbn. auto.
    - inversion HG as [|n' tr1 c1 tr2 c2 HG1 HG2]; subst.
      destruct (IH _ _ _ _ _ ltac:(lia) HR HG1) as [Ht HRn].
      inversion HG2 as [dt wa g wb s' wc w' P Q R O]; subst.
      injection P as <- <-. unfold noop_guess in Q. injection Q as <- <-.
      unfold noop_obs in O. injection O as <-. cbn. split; [rewrite Ht; reflexivity|].
      destruct (Hstep n _ _ ltac:(lia) HRn) as (s1 & w1 & E & HR1).
      rewrite Ht in R. rewrite E in R. injection R as <- <-. exact HR1.
  Qed.

  Lemma compose_run : forall y0 w0, Z.of_nat num < int32_max -> Rel 0 y0 w0 ->
    exists s w tr,
      advance_n_steps o (mk_user noop_obs (pol3 (fun _ _ _ w => (Ok h, w))) noop_guess step)
        (Z.of_nat num) t0 (y0, w0, []) = (Ok tt, (s, w, tr)) /\ Rel num s w.
  Proof.
    intros y0 w0 Hn H0.
    destruct (advance_n_steps o (mk_user noop_obs (pol3 (fun _ _ _ w => (Ok h, w))) noop_guess step)
        (Z.of_nat num) t0 (y0, w0, [])) as [r [[s' w'] tr]] eqn:E.
    pose proof (advance_n_steps_spec o noop_obs (fun _ _ _ w => (Ok h, w)) noop_guess step
                  num t0 y0 w0 r s' w' tr Hn E) as R.
    inversion R as [r1 r2 w1 O F|j w1 tr1 c r1 s1 w2 tr2 Hj O G B|w1 tr1 c O G]; subst.
    - injection O as <- <-. inversion F.
    - injection O as <-. pose proof G as G0. apply compose_good in G; [|lia|assumption].
      destruct G as [Ht HR]. destruct (Hstep j _ _ Hj HR) as (s2 & w2 & Es & _).
      inversion B as [? ? ? P F|? ? ? ? ? ? P Q F|? ? ? ? ? ? ? ? P Q Z F|? ? ? ? ? ? ? ? ? P Q Z O F]; subst.
      + injection P as <- <-. inversion F.
      + unfold noop_guess in Q. injection Q as <- <- <-. inversion F.
      + injection P as <- <-. unfold noop_guess in Q. injection Q as <- <-.
        rewrite Ht, Es in Z. injection Z as <- <- <-. inversion F.
      + unfold noop_obs in O. injection O as <- <-. inversion F.
    - injection O as <-. apply compose_good in G; [|lia|assumption]. destruct G as [Ht HR].
      exists (c_s c), (c_w c), (CObs 0 t0 y0 :: tr1). split; [reflexivity|assumption].
  Qed.
End Compose.

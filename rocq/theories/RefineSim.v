(** A stepper that cannot be told apart from one that refines a problem refines it too. *)
From Coq Require Import ZArith List.
From Verif Require Import Base ExplicitModel ImplicitModel ImplicitSpec ImplicitProofs ImplicitSim.
Import ListNotations.

Section RefineSim.
  Context {S V R J GA GB Ws Q : Type} (o : sops S) (solver : Ws -> V -> sol V R J Ws).
  Variable problem : list V -> prun S V -> S -> V -> R -> option J -> Q -> outcome unit * (R * option J * Q).
  Variables (stepA : S -> Z -> S -> cmd GA unit) (stepB : S -> Z -> S -> cmd GB unit) (getA : GA -> V) (getB : GB -> V).
  Variable same : GA -> GB -> Prop.
  Hypothesis Hstep : forall t k dt, csim same (stepA t k dt) (stepB t k dt).
  Hypothesis Hget : forall a b, same a b -> getA a = getB b.
  Variable Inv : option (prun S V) -> list V -> GB -> Ws -> Q -> Prop.
  Definition inv_sim (rn : option (prun S V)) (tape : list V) (a : GA) (ws : Ws) (q : Q) : Prop :=
    exists b, same a b /\ Inv rn tape b ws q.
  Lemma refines_sim : step_refines o solver problem stepB getB Inv -> step_refines o solver problem stepA getA inv_sim.
  Proof.
    intros HB t y hist tape a ws q dt (b & HS & HI).
    destruct (HB t y hist tape b ws q dt HI) as (r & y1 & ws1 & q1 & b' & E1 & E2 & HK).
    destruct (Hstep t (Z.of_nat (length (y :: hist))) dt a b HS) as [F1 F2]. rewrite E2 in F1, F2. cbn [fst snd] in F1, F2.
    destruct (stepA t (Z.of_nat (length (y :: hist))) dt a) as [ra a'] eqn:EA. cbn [fst snd] in F1, F2. subst ra.
    exists r, y1, ws1, q1, a'. split; [exact E1|]. split; [reflexivity|].
    destruct r as [[]|e|v|]; [|destruct e| |]; destruct HK as [HG HI']; (split; [rewrite (Hget _ _ F2); exact HG|exists b'; split; [exact F2|exact HI']]).
  Qed.
End RefineSim.

(** The standard implicit steppers of two systems that cannot be told apart *)
Section Steppers.
  Context {S V J WA WB Ws : Type} (o : sops S) (vo : vops S V) (jo : vops S J) (jid : J).
  Variables (uA : isys (S:=S) (V:=V) (J:=J) (W:=WA)) (uB : isys (S:=S) (V:=V) (J:=J) (W:=WB)).
  Variable Rel : WA -> WB -> Prop.
  Hypothesis HU : ssim uA uB Rel.
  Variable solver : Ws -> V -> sol V V J Ws.
  Definition alike : @sst S V V (@ppol WA) Ws -> @sst S V V (@ppol WB) Ws -> Prop := same_stepper (prel Rel).
  Lemma alike_step name t k dt : csim alike (implicit_step o (policy_std o vo jo jid uA) solver name t k dt)
    (implicit_step o (policy_std o vo jo jid uB) solver name t k dt).
  Proof. apply implicit_step_sim. apply policy_std_sim. exact HU. Qed.
  Lemma alike_state a b : alike a b -> t_y a = t_y b.
  Proof. intros HS. exact (proj1 HS). Qed.
  Lemma alike_created name cs cr k wa wb y1 ws ga y0 : Rel wa wb -> implicit_create o name cs cr (mk_ppol k wa) y1 ws = Ok ga ->
    exists gb, implicit_create o name cs cr (mk_ppol k wb) y1 ws = Ok gb /\ alike (put_ode y0 ga) (put_ode y0 gb).
  Proof.
    intros HR E. unfold implicit_create in *. destruct (implicit_sizes name) as [[n m]| | |]; try discriminate E.
    injection E as <-. eexists. split; [reflexivity|]. repeat split. exact HR.
  Qed.
End Steppers.

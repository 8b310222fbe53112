(** Reasoning about programs that call a system: weakest preconditions against a
    nondeterministic system, and their relation to [exec] and to [run_solver]. *)
From Coq Require Import ZArith List Bool Lia.
From Verif Require Import Base ImplicitModel ImplicitSpec NonlinDiag NonlinModel.
Import ListNotations.
Local Open Scope Z_scope.

Section Wp.
  Context {V R J W : Type}.
  Notation sysrel := (V -> R -> option J -> W -> outcome unit -> R -> option J -> W -> Prop).

  Fixpoint wp {X} (sys : sysrel) (t : ptree V R J X) (w : W) (Q : X -> W -> Prop) : Prop :=
    match t with
    | PDone x => Q x w
    | PCall y r j k => forall e r' j' w', sys y r j w e r' j' w' -> wp sys (k e r' j') w' Q
    end.

  Lemma wp_mono : forall X sys (t : ptree V R J X) w (Q Q' : X -> W -> Prop),
    (forall x w', Q x w' -> Q' x w') -> wp sys t w Q -> wp sys t w Q'.
  Proof.
    intros X sys t. induction t as [x|y r j k IH]; cbn; intros w Q Q' HQ H; [auto|].
    intros e r' j' w' Hs. eapply IH; eauto.
  Qed.
  Lemma wp_bind : forall X Y sys (t : ptree V R J X) (k : X -> ptree V R J Y) w Q,
    wp sys (ptbind t k) w Q <-> wp sys t w (fun x w' => wp sys (k x) w' Q).
  Proof.
    intros X Y sys t k. induction t as [x|y r j q IH]; cbn; intros w Q; [reflexivity|].
    split; intros H e r' j' w' Hs; apply IH; auto.
  Qed.
  Lemma wp_sys : forall X (sys sys' : sysrel) (t : ptree V R J X) w Q,
    (forall y r j w e r' j' w', sys' y r j w e r' j' w' -> sys y r j w e r' j' w') ->
    wp sys t w Q -> wp sys' t w Q.
  Proof.
    intros X sys sys' t. induction t as [x|y r j q IH]; cbn; intros w Q Hs H; [exact H|].
    intros e r' j' w' HH. eapply IH; eauto.
  Qed.
  Lemma wp_and : forall X sys (t : ptree V R J X) w (Q Q' : X -> W -> Prop),
    wp sys t w Q -> wp sys t w Q' -> wp sys t w (fun x w' => Q x w' /\ Q' x w').
  Proof.
    intros X sys t. induction t as [x|y r j q IH]; cbn; intros w Q Q' H H'; [auto|].
    intros e r' j' w' HH. eapply IH; eauto.
  Qed.
  Lemma wp_true : forall X sys (t : ptree V R J X) w, wp sys t w (fun _ _ => True).
  Proof. intros X sys t. induction t as [x|y r j q IH]; cbn; intros; auto. Qed.

  (** The system [rj] as a relation *)
  Definition graph (rj : V -> R -> option J -> W -> outcome unit * (R * option J * W)) : sysrel :=
    fun y r j w e r' j' w' => rj y r j w = (e, (r', j', w')).
  Lemma wp_prun : forall X rj (t : ptree V R J X) w Q,
    wp (graph rj) t w Q -> Q (fst (prun rj t w)) (snd (prun rj t w)).
  Proof.
    intros X rj t. induction t as [x|y r j q IH]; cbn; intros w Q H; [exact H|].
    destruct (rj y r j w) as [e [[r' j'] w']] eqn:E. apply IH. apply H. exact E.
  Qed.
  Lemma prun_wp : forall X rj (t : ptree V R J X) w (Q : X -> W -> Prop),
    Q (fst (prun rj t w)) (snd (prun rj t w)) -> wp (graph rj) t w Q.
  Proof.
    intros X rj t. induction t as [x|y r j q IH]; cbn; intros w Q H; [exact H|].
    intros e r' j' w' E. unfold graph in E. rewrite E in H. apply IH. exact H.
  Qed.
End Wp.

Section WpProg.
  Context {V R J W G : Type}.
  Variable sys : V -> R -> option J -> W -> outcome unit -> R -> option J -> W -> Prop.
  (** [tri s w p Q]: started with memory [s] and system memory [w], [p] ends as [Q] says. *)
  Definition tri {A} (p : prog V R J G A) (s : G) (w : W) (Q : outcome A -> G -> W -> Prop) : Prop :=
    wp sys (p s) w (fun z w' => Q (fst z) (snd z) w').

  Lemma tri_lift : forall A (c : cmd G A) s w (Q : outcome A -> G -> W -> Prop),
    Q (fst (c s)) (snd (c s)) w -> tri (plift c) s w Q.
  Proof. intros. exact H. Qed.
  Lemma tri_bind : forall A B (m : prog V R J G A) (k : A -> prog V R J G B) s w (Q : outcome B -> G -> W -> Prop),
    tri m s w (fun r s' w' =>
      match r with
      | Ok a => tri (k a) s' w' Q
      | Throw e => Q (Throw e) s' w'
      | Undef u => Q (Undef u) s' w'
      | NoFuel => Q NoFuel s' w'
      end) -> tri (pbind m k) s w Q.
  Proof.
    intros A B m k s w Q H. unfold tri, pbind. apply wp_bind. eapply wp_mono; [|exact H].
    intros [[a|e|u|] s'] w' HQ; exact HQ.
  Qed.
  Lemma tri_catch : forall A (m : prog V R J G A) (handled : exn -> bool) (h : exn -> prog V R J G A) s w (Q : outcome A -> G -> W -> Prop),
    tri m s w (fun r s' w' =>
      match r with
      | Throw e => if handled e then tri (h e) s' w' Q else Q (Throw e) s' w'
      | _ => Q r s' w'
      end) -> tri (pcatch m handled h) s w Q.
  Proof.
    intros A m handled h s w Q H. unfold tri, pcatch. apply wp_bind. eapply wp_mono; [|exact H].
    intros [[a|e|u|] s'] w' HQ; cbn in HQ |- *; try exact HQ.
    destruct (handled e); exact HQ.
  Qed.
  Lemma tri_mono : forall A (p : prog V R J G A) s w (Q Q' : outcome A -> G -> W -> Prop),
    (forall r s' w', Q r s' w' -> Q' r s' w') -> tri p s w Q -> tri p s w Q'.
  Proof. intros A p s w Q Q' HQ H. eapply wp_mono; [|exact H]. intros [r s'] w' HH. apply HQ. exact HH. Qed.
  Lemma tri_and : forall A (p : prog V R J G A) s w (Q Q' : outcome A -> G -> W -> Prop),
    tri p s w Q -> tri p s w Q' -> tri p s w (fun r s' w' => Q r s' w' /\ Q' r s' w').
  Proof. intros. apply (wp_and _ _ _ _ _ _ H H0). Qed.
End WpProg.

Lemma tri_exec : forall V R J W G A (rj : V -> R -> option J -> W -> outcome unit * (R * option J * W))
  (p : prog V R J G A) s w (Q : outcome A -> G -> W -> Prop) r s' w',
  tri (graph rj) p s w Q -> exec rj p (s, w) = (r, (s', w')) -> Q r s' w'.
Proof.
  intros V R J W G A rj p s w Q r s' w' H E. unfold exec in E. cbn [fst snd] in E.
  apply wp_prun in H. destruct (prun rj (p s) w) as [[r0 s0] w0]. cbn in H.
  injection E as <- <- <-. exact H.
Qed.

(** ** Solvers given to the steppers *)
Section ToSol.
  Context {S V R J H L : Type}.
  Notation G := (reg S V R J H L).
  Definition forget {A} (r : outcome A) : outcome unit :=
    match r with Ok _ => Ok tt | Throw e => Throw e | Undef u => Undef u | NoFuel => NoFuel end.

  (** Programs that end as soon as they are told of undefined behaviour. *)
  Fixpoint strict {A} (t : ptree V R J (outcome A * G)) : Prop :=
    match t with
    | PDone _ => True
    | PCall y r j k => forall e r' j',
        match e with
        | Undef u => exists s, k e r' j' = PDone (Undef u, s)
        | NoFuel => exists s, k e r' j' = PDone (NoFuel, s)
        | _ => strict (k e r' j')
        end
    end.

  Lemma to_sol_run : forall A W (rj : V -> R -> option J -> W -> outcome unit * (R * option J * W))
    (t : ptree V R J (outcome A * G)) y0 ws0 w, strict t ->
    match prun rj t w with
    | ((Undef u, s), w') => exists y ws, run_solver rj (to_sol t) y0 ws0 w = (Undef u, (y, ws, w'))
    | ((NoFuel, s), w') => exists y ws, run_solver rj (to_sol t) y0 ws0 w = (NoFuel, (y, ws, w'))
    | ((r, s), w') => run_solver rj (to_sol t) y0 ws0 w = (forget r, (g_x s, s, w'))
    end.
  Proof.
    intros A W rj t y0 ws0. induction t as [[r s]|y r j k IH]; cbn; intros w HS.
    - destruct r; cbn; eauto.
    - destruct (rj y r j w) as [e [[r' j'] w']] eqn:E. specialize (HS e r' j').
      destruct e as [u|x|u|].
      + apply IH. exact HS.
      + apply IH. exact HS.
      + destruct HS as [s ->]. cbn. eauto.
      + destruct HS as [s ->]. cbn. eauto.
  Qed.
  Lemma strict_bind : forall A B (m : prog V R J G A) (k : A -> prog V R J G B) s,
    strict (m s) -> (forall a s', strict (k a s')) -> strict (pbind m k s).
  Proof.
    intros A B m k s Hm Hk. unfold pbind. induction (m s) as [[[a|e|u|] s']|y r j q IH]; cbn; try exact I.
    - apply Hk.
    - intros e r' j'. specialize (Hm e r' j'). destruct e.
      + apply IH; exact Hm.
      + apply IH; exact Hm.
      + destruct Hm as [s0 E]. rewrite E. cbn. eauto.
      + destruct Hm as [s0 E]. rewrite E. cbn. eauto.
  Qed.
  Lemma strict_catch : forall A (m : prog V R J G A) hd (h : exn -> prog V R J G A) s,
    strict (m s) -> (forall a s', strict (h a s')) -> strict (pcatch m hd h s).
  Proof.
    intros A m hd h s Hm Hk. unfold pcatch. induction (m s) as [[[a|e|u|] s']|y r j q IH]; cbn; try exact I.
    - destruct (hd e); [apply Hk|exact I].
    - intros e r' j'. specialize (Hm e r' j'). destruct e.
      + apply IH; exact Hm.
      + apply IH; exact Hm.
      + destruct Hm as [s0 E]. rewrite E. cbn. eauto.
      + destruct Hm as [s0 E]. rewrite E. cbn. eauto.
  Qed.
  Lemma strict_lift : forall A (c : cmd G A) s, strict (@plift V R J G A c s).
  Proof. intros. exact I. Qed.
End ToSol.

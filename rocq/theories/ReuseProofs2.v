(** Solver objects can be used again, continued: the programs. *)
From Coq Require Import ZArith List Bool Lia.
From Verif Require Import Base NonlinDiag NonlinModel NonlinDiagProofs ReuseSpec ReuseProofs.
Import ListNotations.
Local Open Scope Z_scope.

Section Two.
  Context {S V R J H L : Type}.
  Variable o : sops S.
  Variable no : nlops S V R J H.
  Variable xt : exts V R J H L.
  Notation G := (reg S V R J H L).
  Notation P := (prog V R J G).
  Variable good : L -> Prop.
  Variable fact : L -> L -> Prop.
  Hypothesis HX : reproducible xt good fact.
  Variable m : idiag -> bool.
  Variable base : dcont S.
  Hypothesis HB : wf base.
  Variables log0 log0' : list (line S V).
  Variables file0 file0' : option report.

  Definition file_rel (f f' : option report) : Prop := (f = file0 /\ f' = file0') \/ f' = f.
  (** What holds at any time *)
  Record R0 (g g' : G) : Prop := mk_R0 {
    z_x : g_x g' = g_x g;
    z_log : exists l, g_log g = log0 ++ l /\ g_log g' = log0' ++ l;
    z_file : file_rel (g_file g) (g_file g');
    z_good : good (g_ext g); z_good' : good (g_ext g');
    z_d : dsame m base (g_diags g); z_d' : dsame m base (g_diags g') }.

  Definition rp {A} (p : P A) (Pre : G -> G -> Prop) (Post : A -> G -> G -> Prop) : Prop :=
    forall s s', Pre s s' -> rel (p s) (p s') (fun z z' =>
      fst z' = fst z /\ match fst z with Ok a => Post a (snd z) (snd z') | _ => R0 (snd z) (snd z') end).

  Lemma rp_bind : forall A B (p : P A) (k : A -> P B) Pre Mid Post,
    rp p Pre Mid -> (forall a, rp (k a) (Mid a) Post) -> rp (pbind p k) Pre Post.
  Proof.
    intros A B p k Pre Mid Post H1 H2 s s' Hs. unfold pbind. eapply rel_bind; [apply H1; exact Hs|].
    intros [r z] [r' z'] [E K]. cbn in E, K. subst r'. destruct r; cbn; auto. apply H2. exact K.
  Qed.
  Lemma rp_catch : forall A (p : P A) hd (h : exn -> P A) Pre Post,
    rp p Pre Post -> (forall e, rp (h e) R0 Post) -> rp (pcatch p hd h) Pre Post.
  Proof.
    intros A p hd h Pre Post H1 H2 s s' Hs. unfold pcatch. eapply rel_bind; [apply H1; exact Hs|].
    intros [r z] [r' z'] [E K]. cbn in E, K. subst r'. destruct r; cbn; auto.
    destruct (hd e); [apply H2; exact K|]. cbn. auto.
  Qed.
  Lemma rp_mono : forall A (p : P A) (Pre Pre' : G -> G -> Prop) (Post Post' : A -> G -> G -> Prop),
    rp p Pre Post -> (forall s s', Pre' s s' -> Pre s s') -> (forall a s s', Post a s s' -> Post' a s s') -> rp p Pre' Post'.
  Proof.
    intros A p Pre Pre' Post Post' Hp H1 H2 s s' Hs. eapply rel_mono; [|apply Hp; apply H1; exact Hs].
    intros [r z] [r' z'] [E K]. cbn in *. split; [exact E|]. destruct r; auto.
  Qed.
  Lemma rp_mod : forall f (Pre : G -> G -> Prop) (Post : unit -> G -> G -> Prop),
    (forall s s', Pre s s' -> Post tt (f s) (f s')) -> rp (pmod f) Pre Post.
  Proof. intros f Pre Post Hf s s' Hs. cbn. split; auto. Qed.
  Lemma rp_get : forall A (f : G -> A) (Pre : G -> G -> Prop) (Post : A -> G -> G -> Prop),
    (forall s s', Pre s s' -> f s' = f s /\ Post (f s) s s') -> rp (pget f) Pre Post.
  Proof.
    intros A f Pre Post Hf s s' Hs. cbn. destruct (Hf _ _ Hs) as [-> K]. auto.
  Qed.
  Lemma rp_ret : forall A (a : A) (Pre : G -> G -> Prop) (Post : A -> G -> G -> Prop),
    (forall s s', Pre s s' -> Post a s s') -> rp (pret a) Pre Post.
  Proof. intros A a Pre Post Hf s s' Hs. cbn. auto. Qed.
  Lemma rp_throw : forall A e (Pre : G -> G -> Prop) (Post : A -> G -> G -> Prop),
    (forall s s', Pre s s' -> R0 s s') -> rp (pthrow e) Pre Post.
  Proof. intros A a Pre Post Hf s s' Hs. cbn. auto. Qed.
  Lemma rp_undef : forall A e (Pre : G -> G -> Prop) (Post : A -> G -> G -> Prop),
    (forall s s', Pre s s' -> R0 s s') -> rp (pundef e) Pre Post.
  Proof. intros A a Pre Post Hf s s' Hs. cbn. auto. Qed.
  Lemma rp_nofuel : forall A (Pre : G -> G -> Prop) (Post : A -> G -> G -> Prop),
    (forall s s', Pre s s' -> R0 s s') -> rp pnofuel Pre Post.
  Proof. intros A Pre Post Hf s s' Hs. cbn. auto. Qed.

  (** ** Changes that keep R0 *)
  Ltac r0 K := destruct K as [K1 K2 K3 K4 K5 K6 K7]; constructor; cbn; auto.
  Lemma R0_trial : forall v v' s s', R0 s s' -> R0 (set_trial v s) (set_trial v' s').
  Proof. intros v v' s s' K. r0 K. Qed.
  Lemma R0_x : forall v s s', R0 s s' -> R0 (set_x v s) (set_x v s').
  Proof. intros v s s' K. r0 K. Qed.
  Lemma R0_rj : forall r j r' j' s s', R0 s s' -> R0 (set_rj r j s) (set_rj r' j' s').
  Proof. intros r j r' j' s s' K. r0 K. Qed.
  Lemma R0_g : forall v v' s s', R0 s s' -> R0 (set_g v s) (set_g v' s').
  Proof. intros v v' s s' K. r0 K. Qed.
  Lemma R0_h : forall v v' s s', R0 s s' -> R0 (set_h v s) (set_h v' s').
  Proof. intros v v' s s' K. r0 K. Qed.
  Lemma R0_hu : forall v v' s s', R0 s s' -> R0 (set_hu v s) (set_hu v' s').
  Proof. intros v v' s s' K. r0 K. Qed.
  Lemma R0_damp : forall v v' s s', R0 s s' -> R0 (set_damp v s) (set_damp v' s').
  Proof. intros v v' s s' K. r0 K. Qed.
  Lemma R0_nu : forall v v' s s', R0 s s' -> R0 (set_nu v s) (set_nu v' s').
  Proof. intros v v' s s' K. r0 K. Qed.
  Lemma R0_c : forall v l v' l' s s', R0 s s' -> good l -> good l' -> R0 (set_c v l s) (set_c v' l' s').
  Proof. intros v l v' l' s s' K A B. r0 K. Qed.
  Lemma R0_wr : forall v l v' l' s s', R0 s s' -> good l -> good l' -> R0 (set_wr v l s) (set_wr v' l' s').
  Proof. intros v l v' l' s s' K A B. r0 K. Qed.
  Lemma R0_wj : forall v l v' l' s s', R0 s s' -> good l -> good l' -> R0 (set_wj v l s) (set_wj v' l' s').
  Proof. intros v l v' l' s s' K A B. r0 K. Qed.
  Lemma R0_qtr : forall v l v' l' s s', R0 s s' -> good l -> good l' -> R0 (set_qtr v l s) (set_qtr v' l' s').
  Proof. intros v l v' l' s s' K A B. r0 K. Qed.
  Lemma R0_ext : forall l l' s s', R0 s s' -> good l -> good l' -> R0 (set_ext l s) (set_ext l' s').
  Proof. intros l l' s s' K A B. r0 K. Qed.
  Lemma R0_diags : forall c c' s s', R0 s s' -> dsame m base c -> dsame m base c' -> R0 (set_diags c s) (set_diags c' s').
  Proof. intros c c' s s' K A B. r0 K. Qed.
  Lemma R0_line : forall v s s', R0 s s' -> R0 (add_line v s) (add_line v s').
  Proof.
    intros v s s' K. r0 K. destruct K2 as [l [-> ->]]. exists (l ++ [v]). rewrite !app_assoc. auto.
  Qed.
  Lemma R0_file : forall v s s', R0 s s' -> R0 (set_file v s) (set_file v s').
  Proof. intros v s s' K. r0 K. right. reflexivity. Qed.

  (** ** What is known to be equal *)
  Inductive fld := Fr | Fj | Fg | Fh | Fhu | Fc | Ft | Fdamp | Fnu | Fwr | Fwj | Fq.
  Definition eqf (f : fld) (g g' : G) : Prop :=
    match f with
    | Fr => g_r g' = g_r g | Fj => g_j g' = g_j g | Fg => g_g g' = g_g g | Fh => g_h g' = g_h g
    | Fhu => g_hu g' = g_hu g | Fc => g_c g' = g_c g | Ft => g_trial g' = g_trial g
    | Fdamp => g_damp g' = g_damp g | Fnu => g_nu g' = g_nu g | Fwr => g_wr g' = g_wr g
    | Fwj => g_wj g' = g_wj g | Fq => g_qtr g' = g_qtr g
    end.
  Definition KN (l : list fld) (D : dcont S -> dcont S -> Prop) (g g' : G) : Prop :=
    R0 g g' /\ D (g_diags g) (g_diags g') /\ (forall f, In f l -> eqf f g g').
  Lemma KN_R0 : forall l D s s', KN l D s s' -> R0 s s'.
  Proof. intros l D s s' [K _]. exact K. Qed.
  Lemma KN_get : forall f l D s s', KN l D s s' -> In f l -> eqf f s s'.
  Proof. intros f l D s s' [_ [_ K]]. apply K. Qed.
  Lemma KN_incl : forall l l' D s s', incl l' l -> KN l D s s' -> KN l' D s s'.
  Proof. intros l l' D s s' I [K1 [K2 K3]]. split; [exact K1|split; [exact K2|]]. auto. Qed.
  Ltac kn K := destruct K as [K1 [K2 K3]]; split; [|split; [exact K2|
     let f := fresh "f" in let If := fresh "If" in intros f If;
     destruct f; cbn; try reflexivity;
     repeat (destruct If as [If|If]; [discriminate|]); apply (K3 _ If)]].
  Lemma KN_rj : forall l D r j s s', KN l D s s' -> KN (Fr :: Fj :: l) D (set_rj r j s) (set_rj r j s').
  Proof. intros l D r j s s' K. kn K. apply R0_rj. exact K1. Qed.
  Lemma KN_r : forall l D r s s', KN l D s s' -> KN (Fr :: l) D (set_rj r (g_j s) s) (set_rj r (g_j s') s').
  Proof. intros l D r s s' K. kn K. apply R0_rj. exact K1. Qed.
  Lemma KN_g : forall l D v s s', KN l D s s' -> KN (Fg :: l) D (set_g v s) (set_g v s').
  Proof. intros l D v s s' K. kn K. apply R0_g. exact K1. Qed.
  Lemma KN_h : forall l D v s s', KN l D s s' -> KN (Fh :: l) D (set_h v s) (set_h v s').
  Proof. intros l D v s s' K. kn K. apply R0_h. exact K1. Qed.
  Lemma KN_hu : forall l D v s s', KN l D s s' -> KN (Fhu :: l) D (set_hu v s) (set_hu v s').
  Proof. intros l D v s s' K. kn K. apply R0_hu. exact K1. Qed.
  Lemma KN_damp : forall l D v s s', KN l D s s' -> KN (Fdamp :: l) D (set_damp v s) (set_damp v s').
  Proof. intros l D v s s' K. kn K. apply R0_damp. exact K1. Qed.
  Lemma KN_nu : forall l D v s s', KN l D s s' -> KN (Fnu :: l) D (set_nu v s) (set_nu v s').
  Proof. intros l D v s s' K. kn K. apply R0_nu. exact K1. Qed.
  Lemma KN_trial : forall l D v s s', KN l D s s' -> KN (Ft :: l) D (set_trial v s) (set_trial v s').
  Proof. intros l D v s s' K. kn K. apply R0_trial. exact K1. Qed.
  Lemma KN_x : forall l D v s s', KN l D s s' -> KN l D (set_x v s) (set_x v s').
  Proof.
    intros l D v s s' K. destruct K as [K1 [K2 K3]]. split; [apply R0_x; exact K1|split; [exact K2|]].
    intros f If. destruct f; apply (K3 _ If).
  Qed.
  Lemma KN_c : forall l D v a a' s s', KN l D s s' -> good a -> good a' -> KN (Fc :: l) D (set_c v a s) (set_c v a' s').
  Proof. intros l D v a a' s s' K A B. kn K. apply R0_c; auto. Qed.
  Lemma KN_wr : forall l D v a a' s s', KN l D s s' -> good a -> good a' -> KN (Fwr :: l) D (set_wr v a s) (set_wr v a' s').
  Proof. intros l D v a a' s s' K A B. kn K. apply R0_wr; auto. Qed.
  Lemma KN_wj : forall l D v a a' s s', KN l D s s' -> good a -> good a' -> KN (Fwj :: l) D (set_wj v a s) (set_wj v a' s').
  Proof. intros l D v a a' s s' K A B. kn K. apply R0_wj; auto. Qed.
  Lemma KN_q : forall l D v a a' s s', KN l D s s' -> good a -> good a' -> KN (Fq :: l) D (set_qtr v a s) (set_qtr v a' s').
  Proof. intros l D v a a' s s' K A B. kn K. apply R0_qtr; auto. Qed.
  Lemma KN_ext : forall l D a a' s s', KN l D s s' -> good a -> good a' -> KN l D (set_ext a s) (set_ext a' s').
  Proof.
    intros l D a a' s s' [K1 [K2 K3]] A B. split; [apply R0_ext; auto|split; [exact K2|]].
    intros f If. destruct f; apply (K3 _ If).
  Qed.
  Lemma KN_line : forall l D v s s', KN l D s s' -> KN l D (add_line v s) (add_line v s').
  Proof.
    intros l D v s s' [K1 [K2 K3]]. split; [apply R0_line; auto|split; [exact K2|]].
    intros f If. destruct f; apply (K3 _ If).
  Qed.
  Lemma KN_file : forall l D v s s', KN l D s s' -> KN l D (set_file v s) (set_file v s').
  Proof.
    intros l D v s s' [K1 [K2 K3]]. split; [apply R0_file; auto|split; [exact K2|]].
    intros f If. destruct f; apply (K3 _ If).
  Qed.
  Lemma KN_diags : forall l (D D' : dcont S -> dcont S -> Prop) c c' s s', KN l D s s' -> dsame m base c -> dsame m base c' -> D' c c' ->
    KN l D' (set_diags c s) (set_diags c' s').
  Proof.
    intros l D D' c c' s s' [K1 [K2 K3]] A B C. split; [apply R0_diags; auto|split; [exact C|]].
    intros f If. destruct f; apply (K3 _ If).
  Qed.

  (** ** Calls of the system and of the external parts *)
  Lemma rp_arg : forall A B (f : G -> B) (p : B -> P A) Pre Post,
    (forall b, rp (p b) Pre Post) -> (forall s s', Pre s s' -> f s' = f s) -> rp (fun s => p (f s) s) Pre Post.
  Proof. intros A B f p Pre Post Hp Hf s s' Hs. rewrite (Hf _ _ Hs). apply Hp. exact Hs. Qed.
  Lemma rp_residual : forall l D y, rp (compute_residual y) (KN l D) (fun _ => KN (Fr :: l) D).
  Proof.
    intros l D y s s' K. cbn. split; [reflexivity|]. split; [split; auto|].
    intros e r1 r2 j1 j2 A N. cbn. split; [reflexivity|]. destruct e as [[]|e|u|].
    - destruct (A eq_refl) as [-> ->]. apply KN_r. exact K.
    - apply R0_rj. eapply KN_R0, K.
    - apply R0_rj. eapply KN_R0, K.
    - apply R0_rj. eapply KN_R0, K.
  Qed.
  Lemma rp_rj : forall l D, rp compute_residual_and_jacobian (KN l D) (fun _ => KN (Fr :: Fj :: l) D).
  Proof.
    intros l D s s' K. cbn. split; [apply (z_x _ _ (KN_R0 _ _ _ _ K))|]. split; [split; discriminate|].
    intros e r1 r2 j1 j2 A N. cbn. split; [reflexivity|].
    destruct e as [[]|e|u|]; try (apply R0_rj; eapply KN_R0, K).
    destruct (A eq_refl) as [-> ->]. destruct j1 as [j1|]; [|exfalso; apply N; congruence].
    apply KN_rj. exact K.
  Qed.

  Ltac ext_call K F :=
    let A := fresh "A" in
    pose proof F as A;
    repeat match type of A with context [let '(_, _) := ?t in _] => destruct t as [? [? ?]] end.
  Lemma rp_weigh_r : forall l D, In Fr l -> rp (weigh_r xt) (KN l D) (fun _ => KN (Fwr :: l) D).
  Proof.
    intros l D I s s' K. pose proof (KN_get Fr _ _ _ _ K I) as E. cbn in E. cbn. rewrite E.
    pose proof (rp_wr _ _ _ HX (g_r s) (g_wr s) (g_wr s') (g_ext s) (g_ext s') (z_good _ _ (KN_R0 _ _ _ _ K)) (z_good' _ _ (KN_R0 _ _ _ _ K))) as A.
    destruct (x_wr xt (g_r s) (g_wr s) (g_ext s)) as [e [v a]]. destruct (x_wr xt (g_r s) (g_wr s') (g_ext s')) as [e' [v' a']].
    destruct A as [A1 [A2 [-> A3]]]. cbn. split; [reflexivity|].
    destruct e as [[]|e|u|]; try (apply R0_wr; auto; eapply KN_R0, K).
    destruct (A3 eq_refl) as [-> _]. apply KN_wr; auto.
  Qed.
  Lemma rp_weigh_j : forall l D, In Fj l -> rp (weigh_j xt) (KN l D) (fun _ => KN (Fwj :: l) D).
  Proof.
    intros l D I s s' K. pose proof (KN_get Fj _ _ _ _ K I) as E. cbn in E. cbn. rewrite E.
    pose proof (rp_wj _ _ _ HX (g_j s) (g_wj s) (g_wj s') (g_ext s) (g_ext s') (z_good _ _ (KN_R0 _ _ _ _ K)) (z_good' _ _ (KN_R0 _ _ _ _ K))) as A.
    destruct (x_wj xt (g_j s) (g_wj s) (g_ext s)) as [e [v a]]. destruct (x_wj xt (g_j s) (g_wj s') (g_ext s')) as [e' [v' a']].
    destruct A as [A1 [A2 [-> A3]]]. cbn. split; [reflexivity|].
    destruct e as [[]|e|u|]; try (apply R0_wj; auto; eapply KN_R0, K).
    destruct (A3 eq_refl) as [-> _]. apply KN_wj; auto.
  Qed.
  Lemma rp_negate : forall l D, In Fc l -> rp (negate_c o no) (KN l D) (fun _ => KN l D).
  Proof.
    intros l D I. apply rp_mod. intros s s' K. pose proof (KN_get Fc _ _ _ _ K I) as E. cbn in E. rewrite E.
    eapply KN_incl; [|apply (KN_c l); [exact K|apply (z_good _ _ (KN_R0 _ _ _ _ K))|apply (z_good' _ _ (KN_R0 _ _ _ _ K))]].
    intros f If. right. exact If.
  Qed.
  Lemma rp_hessian : forall l D, In Fh l -> In Fg l -> rp (solve_hessian xt) (KN l D) (fun _ => KN (Fc :: l) D).
  Proof.
    intros l D I I' s s' K. pose proof (KN_get Fh _ _ _ _ K I) as E. pose proof (KN_get Fg _ _ _ _ K I') as E'.
    cbn in E, E'. cbn. rewrite E, E'.
    pose proof (rp_normal _ _ _ HX (g_h s) (g_g s) (g_c s) (g_c s') (g_ext s) (g_ext s') (z_good _ _ (KN_R0 _ _ _ _ K)) (z_good' _ _ (KN_R0 _ _ _ _ K))) as A.
    destruct (x_normal xt (g_h s) (g_g s) (g_c s) (g_ext s)) as [e [v a]].
    destruct (x_normal xt (g_h s) (g_g s) (g_c s') (g_ext s')) as [e' [v' a']].
    destruct A as [A1 [A2 [-> A3]]]. cbn. split; [reflexivity|].
    destruct e as [[]|e|u|]; try (apply R0_c; auto; eapply KN_R0, K).
    destruct (A3 eq_refl) as [-> _]. apply KN_c; auto.
  Qed.
  Lemma rp_newton_step : forall l D, In Fr l -> In Fj l -> rp (newton_step o no xt) (KN l D) (fun _ => KN (Fc :: l) D).
  Proof.
    intros l D I I'. unfold newton_step. eapply rp_bind with (Mid := fun _ => KN (Fc :: l) D);
      [|intros []; apply rp_negate; left; reflexivity].
    intros s s' K. pose proof (KN_get Fr _ _ _ _ K I) as E. pose proof (KN_get Fj _ _ _ _ K I') as E'.
    cbn in E, E'. cbn. rewrite E, E'.
    pose proof (rp_newton _ _ _ HX (g_j s) (g_r s) (g_c s) (g_c s') (g_ext s) (g_ext s') (z_good _ _ (KN_R0 _ _ _ _ K)) (z_good' _ _ (KN_R0 _ _ _ _ K))) as A.
    destruct (x_newton xt (g_j s) (g_r s) (g_c s) (g_ext s)) as [e [v a]].
    destruct (x_newton xt (g_j s) (g_r s) (g_c s') (g_ext s')) as [e' [v' a']].
    destruct A as [A1 [A2 [-> A3]]]. cbn. split; [reflexivity|].
    destruct e as [[]|e|u|]; try (apply R0_c; auto; eapply KN_R0, K).
    destruct (A3 eq_refl) as [-> _]. apply KN_c; auto.
  Qed.
  Lemma rp_qr : forall l D, In Fr l -> In Fj l -> rp (correction o no xt GaussNewtonQr) (KN l D) (fun _ => KN (Fc :: l) D).
  Proof.
    intros l D I I'. cbn [correction].
    eapply rp_bind with (Mid := fun _ s s' => KN l D s s' /\ fact (g_ext s) (g_ext s')).
    { intros s s' K. pose proof (KN_get Fj _ _ _ _ K I') as E. cbn in E. cbn. rewrite E.
      pose proof (rp_thin _ _ _ HX (g_j s) (g_ext s) (g_ext s') (z_good _ _ (KN_R0 _ _ _ _ K)) (z_good' _ _ (KN_R0 _ _ _ _ K))) as A.
      destruct (x_thin xt (g_j s) (g_ext s)) as [e a]. destruct (x_thin xt (g_j s) (g_ext s')) as [e' a'].
      destruct A as [A1 [A2 [-> A3]]]. cbn. split; [reflexivity|].
      destruct e as [[]|e|u|]; try (apply R0_ext; auto; eapply KN_R0, K).
      split; [apply KN_ext; auto|apply A3; reflexivity]. }
    intros _. eapply rp_bind with (Mid := fun _ s s' => KN (Fq :: l) D s s' /\ fact (g_ext s) (g_ext s')).
    { intros s s' [K F]. pose proof (KN_get Fr _ _ _ _ K I) as E. cbn in E. cbn. rewrite E.
      pose proof (rp_qtr _ _ _ HX (g_r s) (g_qtr s) (g_qtr s') (g_ext s) (g_ext s') (z_good _ _ (KN_R0 _ _ _ _ K)) (z_good' _ _ (KN_R0 _ _ _ _ K)) F) as A.
      destruct (x_qtr xt (g_r s) (g_qtr s) (g_ext s)) as [e [v a]]. destruct (x_qtr xt (g_r s) (g_qtr s') (g_ext s')) as [e' [v' a']].
      destruct A as [A1 [A2 [-> A3]]]. cbn. split; [reflexivity|].
      destruct e as [[]|e|u|]; try (apply R0_qtr; auto; eapply KN_R0, K).
      destruct (A3 eq_refl) as [-> F']. split; [apply KN_q; auto|exact F']. }
    intros _. eapply rp_bind with (Mid := fun _ => KN (Fc :: Fq :: l) D).
    { intros s s' [K F]. pose proof (KN_get Fq _ _ _ _ K (or_introl eq_refl)) as E. cbn in E. cbn. rewrite E.
      pose proof (rp_rsolve _ _ _ HX (g_qtr s) (g_c s) (g_c s') (g_ext s) (g_ext s') (z_good _ _ (KN_R0 _ _ _ _ K)) (z_good' _ _ (KN_R0 _ _ _ _ K)) F) as A.
      destruct (x_rsolve xt (g_qtr s) (g_c s) (g_ext s)) as [e [v a]]. destruct (x_rsolve xt (g_qtr s) (g_c s') (g_ext s')) as [e' [v' a']].
      destruct A as [A1 [A2 [-> A3]]]. cbn. split; [reflexivity|].
      destruct e as [[]|e|u|]; try (apply R0_c; auto; eapply KN_R0, K).
      destruct (A3 eq_refl) as [-> _]. apply KN_c; auto. }
    intros _. eapply rp_mono; [apply (rp_negate (Fc :: Fq :: l) D); left; reflexivity|intros s s' K; exact K|].
    intros ? s s' K. eapply KN_incl; [|exact K]. intros f [<-|If]; cbn; auto.
  Qed.

  (** ** Objective and operators. [tk tag]: what the tag needs to be known. *)
  Definition tk (tag : lstag) : list fld := match tag with LevMar => [Fdamp] | _ => [] end.
  Lemma rp_objective : forall tag l D y, rp (objective o no xt tag y) (KN l D) (fun _ => KN l D).
  Proof.
    intros tag l D y. assert (I : incl l (Fr :: l)) by (intros f If; right; exact If).
    assert (I2 : incl l (Fwr :: Fr :: l)) by (intros f If; right; right; exact If).
    destruct tag; cbn [objective];
      (eapply rp_bind; [apply rp_residual|intros []]);
      try (apply rp_get; intros s s' K; pose proof (KN_get Fr _ _ _ _ K (or_introl eq_refl)) as E; cbn in E;
           rewrite E; split; [reflexivity|eapply KN_incl; [exact I|exact K]]);
      (eapply rp_bind; [apply rp_weigh_r; left; reflexivity|intros []]);
      (apply rp_get; intros s s' K; pose proof (KN_get Fr _ _ _ _ K (or_intror (or_introl eq_refl))) as E;
       pose proof (KN_get Fwr _ _ _ _ K (or_introl eq_refl)) as E'; cbn in E, E';
       rewrite ?E, ?E'; split; [reflexivity|eapply KN_incl; [exact I2|exact K]]).
  Qed.
  Ltac know K f := let E := fresh "E" in pose proof (KN_get f _ _ _ _ K ltac:(cbn; tauto)) as E; cbn in E; rewrite ?E.
  Lemma KN_sub : forall l l' D s s', KN l D s s' -> incl l' l -> KN l' D s s'.
  Proof. intros. eapply KN_incl; eauto. Qed.
  Ltac sub := let f := fresh in let If := fresh in intros f If; cbn in If |- *; tauto.
  Lemma rp_operators : forall tag l D, incl (tk tag) l ->
    rp (operators_and_objective o no xt tag) (KN l D)
       (fun _ => KN ((match tag with GaussNewtonQr => [] | _ => [Fh] end) ++
                     (match tag with LevMar => [Fhu] | _ => [] end) ++ Fg :: Fr :: Fj :: l) D).
  Proof.
    intros tag l D T. unfold operators_and_objective. eapply rp_bind; [apply rp_rj|intros []].
    destruct tag.
    - eapply rp_bind with (Mid := fun _ => KN (Fh :: _) D); [apply rp_mod; intros s s' K; know K Fj; apply KN_h; exact K|intros []].
      eapply rp_bind with (Mid := fun _ => KN (Fg :: _) D); [apply rp_mod; intros s s' K; know K Fj; know K Fr; apply KN_g; exact K|intros []].
      apply rp_get. intros s s' K. know K Fr. split; [reflexivity|]. eapply KN_sub; [exact K|]. sub.
    - eapply rp_bind with (Mid := fun _ => KN (Fg :: _) D); [apply rp_mod; intros s s' K; know K Fj; know K Fr; apply KN_g; exact K|intros []].
      apply rp_get. intros s s' K. know K Fr. split; [reflexivity|]. eapply KN_sub; [exact K|]. sub.
    - eapply rp_bind; [apply rp_weigh_r; cbn; tauto|intros []].
      eapply rp_bind; [apply rp_weigh_j; cbn; tauto|intros []].
      eapply rp_bind with (Mid := fun _ => KN (Fh :: _) D); [apply rp_mod; intros s s' K; know K Fj; know K Fwj; apply KN_h; exact K|intros []].
      eapply rp_bind with (Mid := fun _ => KN (Fg :: _) D); [apply rp_mod; intros s s' K; know K Fj; know K Fwr; apply KN_g; exact K|intros []].
      apply rp_get. intros s s' K. know K Fr. know K Fwr. split; [reflexivity|]. eapply KN_sub; [exact K|]. sub.
    - eapply rp_bind; [apply rp_weigh_r; cbn; tauto|intros []].
      eapply rp_bind; [apply rp_weigh_j; cbn; tauto|intros []].
      eapply rp_bind with (Mid := fun _ => KN (Fh :: _) D); [apply rp_mod; intros s s' K; know K Fwj; apply KN_h; exact K|intros []].
      eapply rp_bind with (Mid := fun _ => KN (Fg :: _) D); [apply rp_mod; intros s s' K; know K Fwj; know K Fwr; apply KN_g; exact K|intros []].
      apply rp_get. intros s s' K. know K Fwr. split; [reflexivity|]. eapply KN_sub; [exact K|]. sub.
    - assert (Id : In Fdamp l) by (apply T; left; reflexivity).
      eapply rp_bind with (Mid := fun _ => KN (Fhu :: _) D); [apply rp_mod; intros s s' K; know K Fj; apply KN_hu; exact K|intros []].
      eapply rp_bind with (Mid := fun _ => KN (Fg :: _) D); [apply rp_mod; intros s s' K; know K Fj; know K Fr; apply KN_g; exact K|intros []].
      eapply rp_bind with (Mid := fun _ => KN (Fh :: _) D); [apply rp_mod; intros s s' K; know K Fhu; know K Fdamp; apply KN_h; exact K|intros []].
      apply rp_get. intros s s' K. know K Fr. split; [reflexivity|]. eapply KN_sub; [exact K|]. sub.
  Qed.
  Lemma rp_correction : forall tag l D, (match tag with GaussNewtonQr => True | _ => In Fh l end) ->
    In Fg l -> In Fr l -> In Fj l -> rp (correction o no xt tag) (KN l D) (fun _ => KN (Fc :: l) D).
  Proof.
    intros tag l D Ih Ig Ir Ij. destruct tag; try (apply rp_qr; assumption); cbn [correction];
      (eapply rp_bind; [apply rp_hessian; assumption|intros []; apply rp_negate; left; reflexivity]).
  Qed.

  (** ** Diagnostics *)
  Definition deq (c c' : dcont S) : Prop := c' = c.
  Definition dk (b : bool) (m1 : idiag -> bool) : dcont S -> dcont S -> Prop := if b then dsame m1 else deq.
  Lemma R0_dsame : forall s s', R0 s s' -> dsame m (g_diags s) (g_diags s').
  Proof. intros s s' K. eapply dsame_trans; [apply (z_d _ _ K)|apply (z_d' _ _ K)]. Qed.
  Lemma R0_wf : forall s s', R0 s s' -> wf (g_diags s).
  Proof. intros s s' K. eapply dsame_wf; [apply (z_d _ _ K)|exact HB]. Qed.
  Lemma R0_wf' : forall s s', R0 s s' -> wf (g_diags s').
  Proof. intros s s' K. eapply dsame_wf; [apply (z_d' _ _ K)|exact HB]. Qed.
  Definition update_objective (v : S) (first : bool) : P unit :=
    plift (fun s => match dc_iupdate o (g_diags s) IObjective v first with
                    | Ok c => (Ok tt, set_diags c s)
                    | Throw e => (Throw e, s) | Undef u => (Undef u, s) | NoFuel => (NoFuel, s)
                    end).
  Lemma rp_update_objective : forall l first v, m IObjective = true ->
    rp (update_objective v first) (KN l (dk first m)) (fun _ => KN l (dk first (less m IObjective))).
  Proof.
    intros l first v M s s' K. pose proof (KN_R0 _ _ _ _ K) as K0. destruct first; cbn -[dc_iupdate].
    - pose proof (iupdate_first o m (g_diags s) (g_diags s') IObjective v (R0_dsame _ _ K0) (R0_wf _ _ K0)) as A.
      destruct (dc_iupdate o (g_diags s) IObjective v true) as [c|e|u|] eqn:E;
        destruct (dc_iupdate o (g_diags s') IObjective v true) as [c'|e'|u'|] eqn:E'; try contradiction.
      + cbn. split; [reflexivity|]. eapply KN_diags; [exact K| | |exact A].
        * eapply iupdate_like; [apply (z_d _ _ K0)|eapply R0_wf, K0|exact M|exact E].
        * eapply iupdate_like; [apply (z_d' _ _ K0)|eapply R0_wf', K0|exact M|exact E'].
      + cbn. subst u'. split; [reflexivity|exact K0].
    - destruct K as [_ [Kd Kf]]. unfold dk, deq in Kd. rewrite Kd.
      destruct (dc_iupdate o (g_diags s) IObjective v false) as [c|e|u|] eqn:E; cbn; (split; [reflexivity|]); auto.
      assert (B : dsame m base c) by (eapply iupdate_like; [apply (z_d _ _ K0)|eapply R0_wf, K0|exact M|exact E]).
      eapply KN_diags with (D := deq); [split; [exact K0|split; [exact Kd|exact Kf]]|exact B|exact B|reflexivity].
  Qed.
  Lemma rp_norms : forall l grad first (m1 : idiag -> bool), In Fr l -> In Fc l -> (grad = true -> In Fg l) ->
    m ICorrection = true -> m IResidual = true -> (grad = true -> m IGradient = true) ->
    m1 IObjective = false -> m1 IInvalid = false -> (grad = false -> m1 IGradient = false) ->
    rp (norm_diagnostics o no grad first) (KN l (dk first m1)) (fun _ => KN l deq).
  Proof.
    intros l grad first m1 Ir Ic Ig M1 M2 M3 N1 N2 N3. apply rp_mod. intros s s' K.
    pose proof (KN_R0 _ _ _ _ K) as K0.
    pose proof (KN_get Fr _ _ _ _ K Ir) as Er. pose proof (KN_get Fc _ _ _ _ K Ic) as Ec. cbn in Er, Ec.
    assert (Eg : grad = true -> g_g s' = g_g s) by (intro Hg; exact (KN_get Fg _ _ _ _ K (Ig Hg))).
    assert (En : forall b d, norm_diagnostic o no grad b s' d = norm_diagnostic o no grad b s d).
    { intros b d. unfold norm_diagnostic. rewrite Er, Ec. destruct (d_name d); try reflexivity.
      destruct grad; [rewrite Eg by reflexivity|]; reflexivity. }
    assert (L1 : forall b d d', dlike m d d' -> dlike m d (norm_diagnostic o no grad b s d')).
    { intros b d d' [A1 A2]. unfold norm_diagnostic.
      destruct (d_name d') eqn:Ed; try (split; [congruence|]; intro Hm; apply A2; exact Hm).
      - split; [rewrite d_update_name; congruence|]. intro Hm. rewrite <- A1, M1 in Hm. discriminate.
      - split; [rewrite d_update_name; congruence|]. intro Hm. rewrite <- A1, M2 in Hm. discriminate.
      - destruct grad; [|split; [congruence|]; intro Hm; apply A2; exact Hm].
        split; [rewrite d_update_name; congruence|]. intro Hm. rewrite <- A1, M3 in Hm by reflexivity. discriminate. }
    assert (L2 : forall c, dsame m base c ->
              dsame m base (mk_dcont (map (norm_diagnostic o no grad first s) (dc_data c)) (dc_pub c) (dc_int c) (dc_map c))).
    { intros c (A1 & A2 & A3 & A). repeat split; cbn; auto. induction A; constructor; auto. }
    cbv beta zeta. rewrite (map_ext _ _ (En first)).
    eapply KN_diags; [exact K|apply L2; apply (z_d _ _ K0)|apply L2; apply (z_d' _ _ K0)|].
    destruct K as [_ [Kd _]]. unfold deq. destruct first; cbn [dk] in Kd; [|rewrite Kd; reflexivity].
    destruct Kd as (A1 & A2 & A3 & A). rewrite A1, A2, A3. f_equal.
    clear - A N1 N2 N3. induction A as [|d d' k k' [B1 B2] A IH]; [reflexivity|]. cbn. rewrite IH. f_equal.
    destruct (m1 (d_name d)) eqn:Em; [|rewrite B2 by reflexivity; reflexivity].
    unfold norm_diagnostic. rewrite B1. destruct (d_name d) eqn:Ed; try (unfold d_update; rewrite B1, Ed; reflexivity);
      try congruence.
    destruct grad; [unfold d_update; rewrite B1, Ed; reflexivity|]. rewrite N3 in Em by reflexivity. discriminate.
  Qed.
  Lemma rp_log : forall l k, rp (log_iteration k) (KN l deq) (fun _ => KN l deq).
  Proof.
    intros l k s s' K. pose proof K as [K0 [Kd _]]. unfold deq in Kd. cbn -[log_line]. rewrite Kd.
    destruct (log_line (g_diags s)) as [ls|e|u|]; cbn; (split; [reflexivity|]); auto.
    rewrite (z_x _ _ K0). apply KN_line. exact K.
  Qed.

  (** ** Updaters *)
  Ltac knowx K := rewrite ?(z_x _ _ (KN_R0 _ _ _ _ K)).
  Definition keeps_all (obj : V -> P S) : Prop :=
    forall l D y, rp (obj y) (KN l D) (fun _ => KN l D).
  Lemma rp_default : forall l D obj f0, In Fc l -> rp (default_updater o no obj f0) (KN l D) (fun _ => KN l D).
  Proof.
    intros l D obj f0 I. apply rp_mod. intros s s' K. know K Fc. knowx K. apply KN_x. exact K.
  Qed.
  Lemma rp_backtrack_loop : forall l D zeta obj f0 fuel alpha, keeps_all obj -> In Fc l ->
    rp (backtrack_loop o no zeta obj f0 fuel alpha) (KN l D) (fun _ => KN l D).
  Proof.
    intros l D zeta obj f0 fuel. induction fuel as [|n IH]; intros alpha Ho I; cbn [backtrack_loop].
    - apply rp_nofuel. intros s s' K. eapply KN_R0, K.
    - destruct (sleb o (sabs o alpha) (alpha_min o)); [apply rp_throw; intros s s' K; eapply KN_R0, K|].
      eapply rp_bind with (Mid := fun _ => KN (Ft :: l) D);
        [apply rp_mod; intros s s' K; know K Fc; knowx K; apply KN_trial; exact K|intros []].
      eapply rp_bind with (Mid := fun _ => KN (Ft :: l) D);
        [apply rp_arg with (f := @g_trial S V R J H L); [intro b; apply Ho|intros s s' K; know K Ft; reflexivity]|].
      intro f. destruct (sleb o f (smul o zeta f0)).
      + apply rp_mod. intros s s' K. know K Fc. knowx K. apply KN_x. eapply KN_sub; [exact K|].
        intros g If. right. exact If.
      + eapply rp_mono; [apply IH; assumption| |intros a s s' K; exact K].
        intros s s' K. eapply KN_sub; [exact K|]. intros g If. right. exact If.
  Qed.
  Lemma rp_backtrack : forall l D ps obj f0, keeps_all obj -> In Fc l ->
    rp (backtrack_updater o no ps obj f0) (KN l D) (fun _ => KN l D).
  Proof.
    intros l D ps obj f0 Ho I. unfold backtrack_updater. destruct ps as [[|z ?]|]; try (apply rp_backtrack_loop; assumption).
    apply rp_undef. intros s s' K. eapply KN_R0, K.
  Qed.
  Lemma rp_gain : forall l D obj f0, keeps_all obj -> In Fc l -> In Fg l -> In Fhu l -> In Fdamp l ->
    rp (lm_gain_factor o no obj f0) (KN l D) (fun _ => KN l D).
  Proof.
    intros l D obj f0 Ho Ic Ig Ih Id. unfold lm_gain_factor.
    eapply rp_bind with (Mid := fun _ => KN (Ft :: l) D);
      [apply rp_mod; intros s s' K; know K Fc; knowx K; apply KN_trial; exact K|intros []].
    eapply rp_bind with (Mid := fun _ => KN (Ft :: l) D);
      [apply rp_arg with (f := @g_trial S V R J H L); [intro b; apply Ho|intros s s' K; know K Ft; reflexivity]|].
    intro f. apply rp_get. intros s s' K. know K Fc. know K Fg. know K Fhu. know K Fdamp. split; [reflexivity|].
    eapply KN_sub; [exact K|]. intros g If. right. exact If.
  Qed.
  Lemma KN_tl : forall f l D s s', KN (f :: l) D s s' -> KN l D s s'.
  Proof. intros f l D s s' K. eapply KN_sub; [exact K|]. intros g If. right. exact If. Qed.
  Lemma rp_lm1 : forall l D obj f0, keeps_all obj -> In Fc l -> In Fg l -> In Fhu l -> In Fdamp l -> In Fnu l ->
    rp (lm1_updater o no obj f0) (KN l D) (fun _ => KN l D).
  Proof.
    intros l D obj f0 Ho Ic Ig Ih Id In_. unfold lm1_updater. eapply rp_bind; [apply rp_gain; assumption|].
    intro rho. cbv beta. destruct (sltb o (s0 o) rho).
    - eapply rp_bind with (Mid := fun _ => KN l D); [apply rp_mod; intros s s' K; know K Fc; knowx K; apply KN_x; exact K|intros []].
      eapply rp_bind with (Mid := fun _ => KN l D);
        [apply rp_mod; intros s s' K; know K Fdamp; eapply KN_tl, KN_damp; exact K|intros []].
      apply rp_mod. intros s s' K. eapply KN_tl, KN_nu. exact K.
    - eapply rp_bind with (Mid := fun _ => KN l D);
        [apply rp_mod; intros s s' K; know K Fdamp; know K Fnu; eapply KN_tl, KN_damp; exact K|intros []].
      apply rp_mod. intros s s' K. know K Fnu. eapply KN_tl, KN_nu. exact K.
  Qed.
  Lemma rp_lm2 : forall l D obj f0, keeps_all obj -> In Fc l -> In Fg l -> In Fhu l -> In Fdamp l ->
    rp (lm2_updater o no obj f0) (KN l D) (fun _ => KN l D).
  Proof.
    intros l D obj f0 Ho Ic Ig Ih Id. unfold lm2_updater. eapply rp_bind; [apply rp_gain; assumption|].
    intro rho. cbv beta. eapply rp_bind with (Mid := fun _ => KN l D).
    { destruct (sltb o rho (sdiv o (one o) (sZ o 5))); [|apply rp_ret; auto].
      apply rp_mod; intros s s' K; know K Fdamp; eapply KN_tl, KN_damp; exact K. }
    intros []. eapply rp_bind with (Mid := fun _ => KN l D).
    { destruct (sltb o (sdiv o (sZ o 4) (sZ o 5)) rho); [|apply rp_ret; auto].
      apply rp_mod; intros s s' K; know K Fdamp; eapply KN_tl, KN_damp; exact K. }
    intros []. destruct (sltb o (s0 o) rho); [|apply rp_ret; auto].
    apply rp_mod; intros s s' K; know K Fc; knowx K; apply KN_x; exact K.
  Qed.

  (** ** The loop *)
  Lemma rp_iterate : forall il (body : Z -> P bool) mx,
    (forall k, 0 <= k -> rp (body (k + 1)) (KN il (dk (k =? 0) m)) (fun b => if b then R0 else KN il deq)) ->
    forall fuel k, 0 <= k -> rp (iterate body mx fuel k) (KN il (dk (k =? 0) m)) (fun _ => R0).
  Proof.
    intros il body mx Hb fuel. induction fuel as [|n IH]; intros k Hk; cbn [iterate].
    - apply rp_nofuel. intros s s' K. eapply KN_R0, K.
    - destruct (k =? int32_max); [apply rp_undef; intros s s' K; eapply KN_R0, K|].
      destruct (k + 1 <=? mx); [|apply rp_ret; intros s s' K; eapply KN_R0, K].
      eapply rp_bind; [apply Hb; exact Hk|]. intros [|]; [apply rp_ret; auto|].
      eapply rp_mono; [apply IH; lia| |intros a s s' K; exact K].
      intros s s' K. replace (k + 1 =? 0) with false by (symmetry; apply Z.eqb_neq; lia). exact K.
  Qed.
  Lemma dk_start : forall l s s', R0 s s' -> (forall f, In f l -> eqf f s s') -> KN l (dk true m) s s'.
  Proof. intros l s s' K F. split; [exact K|split; [apply R0_dsame; exact K|exact F]]. Qed.

  Lemma rp_metric : forall l d tol, rp (plift (fun s => (metric_below o (g_diags s) d tol, s))) (KN l deq) (fun _ => KN l deq).
  Proof.
    intros l d tol s s' K. cbn. pose proof K as [K0 [Kd _]]. unfold deq in Kd. rewrite Kd. split; [reflexivity|].
    destruct (metric_below o (g_diags s) d tol); auto.
  Qed.
  Lemma rp_iat : forall l i, rp (plift (fun s => match dc_iat (g_diags s) i with
                                   | Ok d => (Ok (d_abs d), s)
                                   | Throw e => (Throw e, s) | Undef u => (Undef u, s) | NoFuel => (NoFuel, s)
                                   end)) (KN l deq) (fun _ => KN l deq).
  Proof.
    intros l i s s' K. cbn -[dc_iat]. pose proof K as [K0 [Kd _]]. unfold deq in Kd. rewrite Kd.
    destruct (dc_iat (g_diags s) i); cbn; (split; [reflexivity|]); auto.
  Qed.

  Section Ls.
    Hypothesis M1 : m ICorrection = true.
    Hypothesis M2 : m IResidual = true.
    Hypothesis M3 : m IGradient = true.
    Hypothesis M4 : m IObjective = true.
    Hypothesis M5 : m IInvalid = false.
    Variable tag : lstag.
    Variable cf : config S.
    Variable nk : list fld.
    Definition il : list fld := tk tag ++ nk.
    Definition ul : list fld :=
      Fc :: (match tag with GaussNewtonQr => [] | _ => [Fh] end) ++ (match tag with LevMar => [Fhu] | _ => [] end) ++
      Fg :: Fr :: Fj :: il.
    Lemma ul_il : incl il ul.
    Proof. intros f If. unfold ul. destruct tag; cbn; auto 10. Qed.
    Lemma rp_ls_stop : forall l k, rp (ls_must_stop o cf k) (KN l deq) (fun _ => KN l deq).
    Proof.
      intros l k. unfold ls_must_stop. destruct (f_stop cf); try apply rp_metric.
      intros s s' K. cbn. auto.
    Qed.
    Lemma rp_ls_body : forall up,
      (forall obj f0, keeps_all obj -> rp (up obj f0) (KN ul deq) (fun _ => KN ul deq)) ->
      forall k, 0 <= k ->
      rp (ls_body o no xt tag cf up (k + 1)) (KN il (dk (k =? 0) m)) (fun b => if b then R0 else KN il deq).
    Proof.
      intros up Hu k Hk. unfold ls_body. cbv zeta.
      replace (k + 1 =? 1) with (k =? 0) by (destruct (Z.eqb_spec k 0), (Z.eqb_spec (k + 1) 1); lia || reflexivity).
      eapply rp_bind.
      { apply rp_catch; [|intro e; apply rp_throw; auto].
        eapply rp_bind; [apply rp_operators; intros f If; unfold il; apply in_or_app; left; exact If|].
        intro v. apply (rp_update_objective _ (k =? 0) v M4). }
      intros []. eapply rp_bind; [apply rp_correction; destruct tag; cbn; tauto|].
      intros []. eapply rp_bind.
      { apply rp_norms; auto; try (destruct tag; cbn; tauto);
          unfold less; try rewrite M4; try rewrite M5; try reflexivity. discriminate. }
      intros []. eapply rp_bind; [apply rp_log|]. intros []. eapply rp_bind; [apply rp_ls_stop|].
      intros [|]; [apply rp_ret; intros s s' K; eapply KN_R0, K|].
      apply rp_catch; [|intro e; apply rp_ret; auto].
      eapply rp_bind; [apply rp_iat|]. intro f0. eapply rp_bind.
      { apply Hu. intros l D y. apply rp_objective. }
      intros []. apply rp_ret. intros s s' K. eapply KN_sub; [exact K|apply ul_il].
    Qed.
  End Ls.
  Lemma rp_ls_solve : forall tag cf,
    m ICorrection = true -> m IResidual = true -> m IGradient = true -> m IObjective = true -> m IInvalid = false ->
    rp (ls_solve o no xt tag cf) R0 (fun _ => R0).
  Proof.
    intros tag cf M1 M2 M3 M4 M5.
    assert (Hr : rp (reset_for_new_solve o tag) R0 (fun _ => KN (tk tag) (dk true m))).
    { destruct tag; cbn [reset_for_new_solve tk];
        try (apply rp_ret; intros s s' K; apply dk_start; [exact K|intros f []]).
      apply rp_mod. intros s s' K. apply KN_damp. apply dk_start; [exact K|intros f []]. }
    assert (Hl : forall up, (forall obj f0, keeps_all obj -> rp (up obj f0) (KN (ul tag []) deq) (fun _ => KN (ul tag []) deq)) ->
        rp (pbind (reset_for_new_solve o tag) (fun _ => ls_loop o no xt tag cf up)) R0 (fun _ => R0)).
    { intros up Hu. eapply rp_bind; [exact Hr|]. intros []. unfold ls_loop.
      replace (tk tag) with (il tag []) by (unfold il; apply app_nil_r).
      apply (rp_iterate (il tag []) _ _ (rp_ls_body M1 M2 M3 M4 M5 tag cf [] up Hu)). lia. }
    unfold ls_solve. destruct (f_update cf).
    - apply Hl. intros obj f0 Ho. apply rp_default. left. reflexivity.
    - assert (Hb : forall ps, rp (pbind (reset_for_new_solve o tag) (fun _ => ls_loop o no xt tag cf (backtrack_updater o no ps))) R0 (fun _ => R0)).
      { intro ps. apply Hl. intros obj f0 Ho. apply rp_backtrack; [exact Ho|left; reflexivity]. }
      destruct (f_params cf) as [[|z t]|] eqn:Ep.
      + eapply rp_bind; [exact Hr|]. intros []. apply rp_undef. intros s s' K. eapply KN_R0, K.
      + apply (Hb (Some (z :: t))).
      + apply (Hb None).
    - assert (Hb : forall ps, rp (pbind (reset_for_new_solve o tag) (fun _ => ls_loop o no xt tag cf (backtrack_updater o no ps))) R0 (fun _ => R0)).
      { intro ps. apply Hl. intros obj f0 Ho. apply rp_backtrack; [exact Ho|left; reflexivity]. }
      destruct (f_params cf) as [[|z t]|] eqn:Ep.
      + eapply rp_bind; [exact Hr|]. intros []. apply rp_undef. intros s s' K. eapply KN_R0, K.
      + apply (Hb (Some (z :: t))).
      + apply (Hb None).
    - destruct (is_levmar tag) eqn:T; [|apply rp_throw; auto]. destruct tag; try discriminate.
      eapply rp_bind; [exact Hr|]. intros []. eapply rp_bind with (Mid := fun _ => KN (il LevMar [Fnu]) (dk true m)).
      { apply rp_mod. intros s s' K. eapply KN_sub; [apply KN_nu; exact K|]. intros f If. cbn in *. tauto. }
      intros []. unfold ls_loop. apply (rp_iterate (il LevMar [Fnu])); [|lia]. apply rp_ls_body; auto.
      intros obj f0 Ho. apply rp_lm1; auto; cbn; tauto.
    - destruct (is_levmar tag) eqn:T; [|apply rp_throw; auto]. destruct tag; try discriminate.
      apply Hl. intros obj f0 Ho. apply rp_lm2; auto; cbn; tauto.
    - apply rp_throw. auto.
  Qed.

  (** ** The root finder *)
  Lemma rp_root_objective : keeps_all (root_objective no).
  Proof.
    intros l D y. unfold root_objective. eapply rp_bind; [apply rp_residual|]. intros [].
    apply rp_get. intros s s' K. know K Fr. split; [reflexivity|]. eapply KN_tl, K.
  Qed.
  Lemma rp_report : forall l D v, rp (write_report v) (KN l D) (fun _ => KN l D).
  Proof. intros l D v. apply rp_mod. intros s s' K. apply KN_file. exact K. Qed.
  Lemma rp_root_stop : forall l cf k, rp (root_must_stop o cf k) (KN l deq) (fun _ => KN l deq).
  Proof.
    intros l cf k. unfold root_must_stop. eapply rp_bind; [apply rp_metric|]. intro b. cbv beta zeta.
    eapply rp_bind with (Mid := fun _ => KN l deq).
    { destruct ((f_max cf <=? k) && negb b)%bool; [apply rp_report|apply rp_ret; auto]. }
    intros []. apply rp_ret. auto.
  Qed.
  Lemma rp_root_body : forall cf up, m ICorrection = true -> m IResidual = true ->
    m IGradient = false -> m IObjective = false -> m IInvalid = false ->
    (forall obj f0, keeps_all obj -> rp (up obj f0) (KN [Fc; Fr; Fj] deq) (fun _ => KN [Fc; Fr; Fj] deq)) ->
    forall k, 0 <= k ->
    rp (root_body o no xt cf up (k + 1)) (KN [] (dk (k =? 0) m)) (fun b => if b then R0 else KN [] deq).
  Proof.
    intros cf up M1 M2 M3 M4 M5 Hu k Hk. unfold root_body.
    replace (k + 1 =? 1) with (k =? 0) by (destruct (Z.eqb_spec k 0), (Z.eqb_spec (k + 1) 1); lia || reflexivity).
    eapply rp_bind.
    { apply rp_catch; [apply rp_rj|]. intro e. eapply rp_bind with (Mid := fun _ => R0).
      - apply rp_mod. intros s s' K. apply R0_file. exact K.
      - intros []. apply rp_throw. auto. }
    intros []. eapply rp_bind; [apply rp_newton_step; cbn; tauto|].
    intros []. eapply rp_bind; [apply rp_norms; auto; cbn; try tauto; discriminate|].
    intros []. eapply rp_bind; [apply rp_log|]. intros []. eapply rp_bind; [apply rp_root_stop|].
    intros [|]; [apply rp_ret; intros s s' K; eapply KN_R0, K|].
    apply rp_catch.
    - eapply rp_bind; [apply rp_iat|]. intro f0. eapply rp_bind; [apply Hu; exact rp_root_objective|].
      intros []. apply rp_ret. intros s s' K. eapply KN_sub; [exact K|]. intros f [].
    - intro e. eapply rp_bind with (Mid := fun _ => R0).
      + apply rp_mod. intros s s' K. apply R0_file. exact K.
      + intros []. apply rp_ret. auto.
  Qed.
  Lemma rp_root_solve : forall cf, m ICorrection = true -> m IResidual = true ->
    m IGradient = false -> m IObjective = false -> m IInvalid = false ->
    rp (root_solve o no xt cf) R0 (fun _ => R0).
  Proof.
    intros cf M1 M2 M3 M4 M5.
    assert (Hl : forall up, (forall obj f0, keeps_all obj -> rp (up obj f0) (KN [Fc; Fr; Fj] deq) (fun _ => KN [Fc; Fr; Fj] deq)) ->
        rp (root_loop o no xt cf up) R0 (fun _ => R0)).
    { intros up Hu. eapply rp_mono; [|intros s s' K; apply (dk_start [] s s' K); intros f []|intros a s s' K; exact K].
      unfold root_loop. apply (rp_iterate [] _ _ (rp_root_body cf up M1 M2 M3 M4 M5 Hu)). lia. }
    unfold root_solve. destruct (f_update cf); try (apply rp_throw; auto).
    - apply Hl. intros obj f0 Ho. apply rp_default. left. reflexivity.
    - destruct (f_params cf) as [[|z t]|] eqn:Ep; [apply rp_undef; auto| |];
        (apply Hl; intros obj f0 Ho; apply rp_backtrack; [exact Ho|left; reflexivity]).
  Qed.
End Two.

(** ** Histories *)
Section History.
  Context {S V R J H L : Type}.
  Variable o : sops S.
  Notation G := (reg S V R J H L).
  Variable solve : config S -> prog V R J G unit.
  Variable good : L -> Prop.
  Variable m : idiag -> bool.
  Variable diags : list diag.
  Notation base := (make_container o diags).
  Hypothesis Hs : forall log0 log0' file0 file0' cf,
    rp good m base log0 log0' file0 file0' (solve cf) (R0 good m base log0 log0' file0 file0')
       (fun _ => R0 good m base log0 log0' file0 file0').
  Lemma start : forall (g g' : G) y, good (g_ext g) -> good (g_ext g') -> dsame m base (g_diags g) -> dsame m base (g_diags g') ->
    R0 good m base (g_log g) (g_log g') (g_file g) (g_file g') (set_x y g) (set_x y g').
  Proof.
    intros g g' y H1 H2 H3 H4. constructor; cbn; auto.
    - exists []. rewrite !app_nil_r. auto.
    - left. auto.
  Qed.
  Lemma used_inv : forall g, used o solve good diags g -> good (g_ext g) /\ dsame m base (g_diags g).
  Proof.
    intros g U. induction U as [v r j h l Hl|W rj cf y w g r g' w' KJ U [I1 I2] E].
    - split; [exact Hl|]. apply dsame_refl.
    - pose proof (Hs (g_log g) (g_log g) (g_file g) (g_file g) cf _ _ (start g g y I1 I1 I2 I2)) as K.
      pose proof (rel_self _ _ rj _ w _ KJ K) as Q. unfold exec in E. cbn [fst snd] in E.
      destruct (prun rj (solve cf (set_x y g)) w) as [[r0 s0] w0]. injection E as <- <- <-. cbn in Q.
      destruct Q as [_ Q].
      assert (Q' : R0 good m base (g_log g) (g_log g) (g_file g) (g_file g) s0 s0) by (destruct r0; exact Q).
      split; [apply (z_good _ _ _ _ _ _ _ _ _ Q')|apply (z_d _ _ _ _ _ _ _ _ _ Q')].
  Qed.
  Lemma reuse : forall W (rj : V -> R -> option J -> W -> outcome unit * (R * option J * W)) cf y w g g2,
    used o solve good diags g -> used o solve good diags g2 -> overwrites rj -> keeps_jacobian rj ->
    same_solve solve rj cf y w g g2.
  Proof.
    intros W rj cf y w g g2 U U2 O KJ. destruct (used_inv g U) as [I1 I2]. destruct (used_inv g2 U2) as [J1 J2].
    pose proof (Hs (g_log g) (g_log g2) (g_file g) (g_file g2) cf _ _ (start g g2 y I1 J1 I2 J2)) as K.
    destruct (rel_run _ _ rj _ _ w _ O KJ K) as [Q Ew]. unfold same_solve, exec. cbn [fst snd].
    destruct (prun rj (solve cf (set_x y g)) w) as [[r0 s0] w0].
    destruct (prun rj (solve cf (set_x y g2)) w) as [[r1 s1] w1]. cbn in Q, Ew. subst w1. destruct Q as [-> Q].
    assert (Q' : R0 good m base (g_log g) (g_log g2) (g_file g) (g_file g2) s0 s1) by (destruct r0; exact Q).
    destruct Q' as [Z1 Z2 Z3 _ _ _ _]. repeat split; auto.
  Qed.
End History.

Lemma reuse_ls : forall (S V R J H L W : Type) (o : sops S) (no : nlops S V R J H) (xt : exts V R J H L)
    (good : L -> Prop) (fact : L -> L -> Prop)
    (rj : V -> R -> option J -> W -> outcome unit * (R * option J * W)) tag diags cf y w g g2,
  reproducible xt good fact -> overwrites rj -> keeps_jacobian rj ->
  used o (ls_solve o no xt tag) good diags g -> used o (ls_solve o no xt tag) good diags g2 ->
  same_solve (ls_solve o no xt tag) rj cf y w g g2.
Proof.
  intros S V R J H L W o no xt good fact rj tag diags cf y w g g2 HX O KJ U U2.
  eapply (reuse o _ good (fun i => match i with IInvalid => false | _ => true end) diags); eauto.
  intros. eapply rp_ls_solve; eauto using make_wf.
Qed.
Lemma reuse_root : forall (S V R J H L W : Type) (o : sops S) (no : nlops S V R J H) (xt : exts V R J H L)
    (good : L -> Prop) (fact : L -> L -> Prop)
    (rj : V -> R -> option J -> W -> outcome unit * (R * option J * W)) diags cf y w g g2,
  reproducible xt good fact -> overwrites rj -> keeps_jacobian rj ->
  used o (root_solve o no xt) good diags g -> used o (root_solve o no xt) good diags g2 ->
  same_solve (root_solve o no xt) rj cf y w g g2.
Proof.
  intros S V R J H L W o no xt good fact rj diags cf y w g g2 HX O KJ U U2.
  eapply (reuse o _ good (fun i => match i with ICorrection | IResidual => true | _ => false end) diags); eauto.
  intros. eapply rp_root_solve; eauto using make_wf.
Qed.

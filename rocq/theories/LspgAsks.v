(** The solvers of the library evaluate at least once (C34, C35). *)
From Coq Require Import ZArith List Bool Lia.
From Verif Require Import Base ExplicitModel ImplicitModel NonlinDiag NonlinModel NonlinSpec LspgSpec.
Import ListNotations.
Local Open Scope Z_scope.

Section Asks.
  Context {S V R J H L : Type} (o : sops S) (no : nlops S V R J H) (xt : exts V R J H L).
  Notation leaf t := (match t with PDone _ => False | _ => True end).

  Lemma to_sol_leaf {A} (t : ptree V R J (outcome A * reg S V R J H L)) :
    leaf t -> match to_sol t with SEnd _ _ _ => False | _ => True end.
  Proof. destruct t as [[r s]|y r j k]; [intros []|intros _; exact I]. Qed.
  Lemma iterate_asks (body : Z -> reg S V R J H L -> ptree V R J (outcome bool * reg S V R J H L)) n s :
    1 <= n -> leaf (body 1 s) -> leaf (iterate body n (loop_fuel n) 0 s).
  Proof.
    intros Hn HB. cbv [loop_fuel]. cbn [iterate]. change (0 =? int32_max) with false. cbv iota.
    rewrite (proj2 (Z.leb_le _ _)) by lia. cbv beta iota. change (0 + 1) with 1.
    cbv [pbind]. destruct (body 1 s) as [x|y r j k]; [destruct HB|]. exact I.
  Qed.
  Lemma newton_asks cf : root_supported cf -> 1 <= f_max cf -> asks (as_solver (root_solve o no xt cf)).
  Proof.
    intros [HU _] Hn ws y. cbv [as_solver]. apply to_sol_leaf.
    assert (HB : forall up s, leaf (root_loop o no xt cf up s)).
    { intros up s. apply iterate_asks; [exact Hn|]. exact I. }
    cbv [root_solve]. destruct (f_update cf); try (destruct HU; fail); [apply HB|].
    destruct (f_params cf) as [[|z l]|]; [destruct HU; reflexivity|apply HB|apply HB].
  Qed.
  Lemma least_squares_asks tag cf : ls_supported tag cf -> 1 <= f_max cf -> asks (as_solver (ls_solve o no xt tag cf)).
  Proof.
    intros HU Hn ws y. cbv [as_solver]. apply to_sol_leaf.
    assert (HB : forall up s, leaf (ls_loop o no xt tag cf up s)).
    { intros up s. apply iterate_asks; [exact Hn|]. exact I. }
    assert (HR : forall (p : reg S V R J H L -> ptree V R J (outcome unit * reg S V R J H L)) s, (forall s, leaf (p s)) -> leaf (pbind (reset_for_new_solve o tag) (fun _ : unit => p) s)).
    { intros p s Hp. destruct tag; apply Hp. }
    cbv [ls_solve ls_supported] in *. destruct (f_update cf).
    - apply HR. intros s. apply HB.
    - apply HR. intros s. destruct (f_params cf) as [[|z l]|]; [destruct HU; reflexivity|apply HB|apply HB].
    - apply HR. intros s. destruct (f_params cf) as [[|z l]|]; [destruct HU; reflexivity|apply HB|apply HB].
    - subst tag. apply HR. intros s. apply HB.
    - subst tag. apply HR. intros s. apply HB.
    - destruct HU.
  Qed.
End Asks.

(** Laws of exact arithmetic, as hypotheses, and a decision procedure for
    equations between linear combinations of vectors. *)
From Coq Require Import ZArith List Field Arith Lia.
From Verif Require Import Base.
Import ListNotations.

(** Scalars form a field (Leibniz equality). *)
Definition sinv {S} (o : sops S) (x : S) : S := sdiv o (s1 o) x.
Definition sfield {S} (o : sops S) : Prop :=
  field_theory (s0 o) (s1 o) (sadd o) (smul o) (ssub o) (sopp o) (sdiv o) (sinv o) eq.
Lemma sfield_th {S} (o : sops S) : sfield o ->
  field_theory (s0 o) (s1 o) (sadd o) (smul o) (ssub o) (sopp o) (sdiv o) (sinv o) eq.
Proof. exact (fun h => h). Qed.

(** ... of characteristic 0: no positive integer is 0. *)
Definition schar0 {S} (o : sops S) : Prop := forall p, s_of_pos o p <> s0 o.

(** Vectors form a vector space. *)
Record vspace {S V} (o : sops S) (vo : vops S V) : Prop := {
  va_comm : forall x y, vadd vo x y = vadd vo y x;
  va_assoc : forall x y z, vadd vo x (vadd vo y z) = vadd vo (vadd vo x y) z;
  va_0_l : forall x, vadd vo (vzero vo) x = x;
  vs_1 : forall x, vscale vo (s1 o) x = x;
  vs_0 : forall x, vscale vo (s0 o) x = vzero vo;
  vs_mul : forall a b x, vscale vo a (vscale vo b x) = vscale vo (smul o a b) x;
  vs_add_l : forall a b x, vscale vo (sadd o a b) x = vadd vo (vscale vo a x) (vscale vo b x);
  vs_add_r : forall a x y, vscale vo a (vadd vo x y) = vadd vo (vscale vo a x) (vscale vo a y)
}.

(** [L] is linear. *)
Record linear {S V V'} (vo : vops S V) (vo' : vops S V') (L : V -> V') : Prop := {
  lin_add : forall x y, L (vadd vo x y) = vadd vo' (L x) (L y);
  lin_scale : forall a x, L (vscale vo a x) = vscale vo' a (L x)
}.

(** * Decision procedure for linear combinations *)
Inductive vexp (S : Type) :=
| XZero | XVar (n : nat) | XAdd (a b : vexp S) | XScale (c : S) (a : vexp S).
Arguments XZero {S}. Arguments XVar {S}. Arguments XAdd {S}. Arguments XScale {S}.

Section VRing.
  Context {S V : Type} (o : sops S) (vo : vops S V) (HF : sfield o) (HV : vspace o vo).

  Lemma sring : ring_theory (s0 o) (s1 o) (sadd o) (smul o) (ssub o) (sopp o) eq.
  Proof. exact (F_R HF). Qed.
  Add Ring SRing : sring.

  Fixpoint xeval (env : list V) (e : vexp S) : V :=
    match e with
    | XZero => vzero vo
    | XVar n => nth n env (vzero vo)
    | XAdd a b => vadd vo (xeval env a) (xeval env b)
    | XScale c a => vscale vo c (xeval env a)
    end.

  Fixpoint xcoef (e : vexp S) (n : nat) : S :=
    match e with
    | XZero => s0 o
    | XVar m => if Nat.eqb m n then s1 o else s0 o
    | XAdd a b => sadd o (xcoef a n) (xcoef b n)
    | XScale c a => smul o c (xcoef a n)
    end.

  Fixpoint xsum (env : list V) (i : nat) (f : nat -> S) : V :=
    match env with
    | [] => vzero vo
    | v :: env' => vadd vo (vscale vo (f i) v) (xsum env' (Datatypes.S i) f)
    end.

  Lemma vs_zero_r : forall a, vscale vo a (vzero vo) = vzero vo.
  Proof.
    intros a. rewrite <- (vs_0 _ _ HV (vzero vo)). rewrite (vs_mul _ _ HV).
    replace (smul o a (s0 o)) with (s0 o) by ring. reflexivity.
  Qed.
  Lemma va_0_r : forall x, vadd vo x (vzero vo) = x.
  Proof. intros. rewrite (va_comm _ _ HV). apply (va_0_l _ _ HV). Qed.
  Lemma va_swap : forall a b c d,
    vadd vo (vadd vo a b) (vadd vo c d) = vadd vo (vadd vo a c) (vadd vo b d).
  Proof.
    intros. rewrite <- !(va_assoc _ _ HV). f_equal. rewrite !(va_assoc _ _ HV). f_equal.
    apply (va_comm _ _ HV).
  Qed.

  Lemma xsum_0 : forall env i, xsum env i (fun _ => s0 o) = vzero vo.
  Proof.
    induction env; intros; cbn; [reflexivity|]. rewrite IHenv, (vs_0 _ _ HV). apply va_0_r.
  Qed.
  Lemma xsum_ext : forall env i f g, (forall n, i <= n < i + length env -> f n = g n) ->
    xsum env i f = xsum env i g.
  Proof.
    induction env; intros i f g H; cbn; [reflexivity|]. rewrite H by (cbn; lia). f_equal.
    apply IHenv. intros n Hn. apply H. cbn. lia.
  Qed.
  Lemma xsum_add : forall env i f g,
    xsum env i (fun n => sadd o (f n) (g n)) = vadd vo (xsum env i f) (xsum env i g).
  Proof.
    induction env; intros; cbn; [rewrite va_0_r; reflexivity|].
    rewrite IHenv, (vs_add_l _ _ HV). apply va_swap.
  Qed.
  Lemma xsum_scale : forall env i c f,
    xsum env i (fun n => smul o c (f n)) = vscale vo c (xsum env i f).
  Proof.
    induction env; intros; cbn; [rewrite vs_zero_r; reflexivity|].
    rewrite IHenv, (vs_add_r _ _ HV), (vs_mul _ _ HV). reflexivity.
  Qed.
  Lemma xsum_var : forall env i m,
    xsum env i (fun n => if Nat.eqb (i + m) n then s1 o else s0 o) = nth m env (vzero vo).
  Proof.
    induction env; intros i m; cbn; [destruct m; reflexivity|].
    destruct m as [|m].
    - rewrite Nat.add_0_r, Nat.eqb_refl, (vs_1 _ _ HV).
      rewrite (xsum_ext _ _ _ (fun _ => s0 o)).
      + rewrite xsum_0. apply va_0_r.
      + intros n Hn. rewrite (proj2 (Nat.eqb_neq _ _)) by lia. reflexivity.
    - rewrite (proj2 (Nat.eqb_neq _ _)) by lia. rewrite (vs_0 _ _ HV), (va_0_l _ _ HV).
      rewrite Nat.add_succ_r. apply (IHenv (Datatypes.S i) m).
  Qed.

  Lemma xeval_sum : forall env e, xeval env e = xsum env 0 (xcoef e).
  Proof.
    intros env e. induction e as [|m|a IHa b IHb|c a IHa].
    - symmetry. apply (xsum_0 env 0).
    - symmetry. apply (xsum_var env 0 m).
    - cbn [xeval]. rewrite IHa, IHb, <- xsum_add. reflexivity.
    - cbn [xeval]. rewrite IHa, <- xsum_scale. reflexivity.
  Qed.

  Fixpoint xcoefs_eq (n : nat) (a b : vexp S) : Prop :=
    match n with
    | O => True
    | Datatypes.S m => xcoef a m = xcoef b m /\ xcoefs_eq m a b
    end.

  Lemma xeval_eq : forall env a b, xcoefs_eq (length env) a b -> xeval env a = xeval env b.
  Proof.
    intros env a b H. rewrite !xeval_sum. apply xsum_ext. intros n [_ Hn]. cbn in Hn.
    revert n Hn. induction (length env) as [|k IH]; intros n Hn; [lia|].
    destruct H as [H1 H2]. destruct (Nat.eq_dec n k) as [->|]; [assumption|]. apply IH; [assumption|lia].
  Qed.
End VRing.

Ltac vr_find x l :=
  lazymatch l with
  | x :: _ => constr:(O)
  | _ :: ?t => let n := vr_find x t in constr:(Datatypes.S n)
  end.
Ltac vr_mem x l :=
  lazymatch l with
  | nil => constr:(false)
  | x :: _ => constr:(true)
  | _ :: ?t => vr_mem x t
  end.
Ltac vr_atoms vo e l :=
  lazymatch e with
  | vadd vo ?a ?b => let l1 := vr_atoms vo a l in vr_atoms vo b l1
  | vscale vo _ ?a => vr_atoms vo a l
  | vzero vo => l
  | ?x => let b := vr_mem x l in
          lazymatch b with true => l | false => constr:(x :: l) end
  end.
Ltac vr_reify S vo e l :=
  lazymatch e with
  | vadd vo ?a ?b =>
      let a' := vr_reify S vo a l in let b' := vr_reify S vo b l in constr:(@XAdd S a' b')
  | vscale vo ?c ?a => let a' := vr_reify S vo a l in constr:(@XScale S c a')
  | vzero vo => constr:(@XZero S)
  | ?x => let n := vr_find x l in constr:(@XVar S n)
  end.
(** Reduce an equation of linear combinations to equations of coefficients. *)
Ltac vreduce o vo HF HV :=
  lazymatch goal with
  | |- @eq ?V ?a ?b =>
      let l0 := vr_atoms vo a (@nil V) in
      let l := vr_atoms vo b l0 in
      lazymatch type of vo with
      | vops ?S _ =>
        let ea := vr_reify S vo a l in
        let eb := vr_reify S vo b l in
        change (xeval vo l ea = xeval vo l eb);
        apply (xeval_eq o vo HF HV);
        cbn [length xcoefs_eq xcoef Nat.eqb]; repeat split
      end
  end.

(** * Non-zero side conditions of [field] *)
Section NonZero.
  Context {S : Type} (o : sops S) (HF : sfield o).
  Add Field SFnz : (sfield_th o HF).
  Lemma s_mul_nz a b : a <> s0 o -> b <> s0 o -> smul o a b <> s0 o.
  Proof.
    intros Ha Hb E. apply Ha.
    transitivity (sdiv o (smul o a b) b).
    - field. assumption.
    - rewrite E. field. assumption.
  Qed.
  Lemma s_nz3 (HC : schar0 o) : sadd o (s1 o) (sadd o (s1 o) (s1 o)) <> s0 o.
  Proof.
    replace (sadd o (s1 o) (sadd o (s1 o) (s1 o))) with (s_of_pos o 3); [apply HC|]. cbn. ring.
  Qed.
End NonZero.
(** [field] writes the literals 2, 3, 4, 6, ... as products of 2 and 3. *)
Ltac nz o HF HC :=
  repeat split;
  fold (s0 o) (s1 o) (sadd o) (smul o);
  repeat apply (s_mul_nz o HF);
  first [ assumption | exact (HC 1%positive) | exact (HC 2%positive) | exact (s_nz3 o HF HC)
        | exact (HC 3%positive) ].

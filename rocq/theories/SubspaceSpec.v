(** Specification of subspaces (C33, C59): what the caller of a constructor can do
    to memory afterwards, and the map a subspace stands for. *)
From Coq Require Import ZArith List Bool.
From Verif Require Import Base SubspaceModel.
Import ListNotations.

(** [caller am av h am' av' h']: a program that can reach the matrix cells [am] and
    the vector cells [av] takes memory from [h] to [h']: it overwrites cells it can
    reach and makes new ones, which it then can reach. *)
Section Caller.
  Context {M V : Type}.
  Definition put_m (h : mem) (a : nat) (m : M) : @mem M V :=
    mk_mem (firstn a (hm h) ++ m :: skipn (S a) (hm h)) (hv h).
  Definition put_v (h : mem) (a : nat) (v : V) : @mem M V :=
    mk_mem (hm h) (firstn a (hv h) ++ v :: skipn (S a) (hv h)).
  Inductive caller : list nat -> list nat -> @mem M V -> list nat -> list nat -> @mem M V -> Prop :=
  | caller_done am av h : caller am av h am av h
  | caller_write_m am av h a m am' av' h' : In a am -> (a < length (hm h))%nat ->
      caller am av (put_m h a m) am' av' h' -> caller am av h am' av' h'
  | caller_write_v am av h a v am' av' h' : In a av -> (a < length (hv h))%nat ->
      caller am av (put_v h a v) am' av' h' -> caller am av h am' av' h'
  | caller_new_m am av h m am' av' h' :
      caller (length (hm h) :: am) av (mk_mem (hm h ++ [m]) (hv h)) am' av' h' ->
      caller am av h am' av' h'
  | caller_new_v am av h v am' av' h' :
      caller am (length (hv h) :: av) (mk_mem (hm h) (hv h ++ [v])) am' av' h' ->
      caller am av h am' av' h'.

  (** All cells there are. *)
  Definition all_m (h : @mem M V) : list nat := seq 0 (length (hm h)).
  Definition all_v (h : @mem M V) : list nat := seq 0 (length (hv h)).
  Definition m_at (h : @mem M V) (a : nat) (m : M) : Prop := nth_error (hm h) a = Some m.
  Definition v_at (h : @mem M V) (a : nat) (v : V) : Prop := nth_error (hv h) a = Some v.
End Caller.

(** The point phi x, or phi x + t of an affine subspace. *)
Definition image {S M V X} (vo : vops S V) (mprod : M -> X -> V) (phi : M) (t : V) (affine : bool)
           (x : X) : V :=
  if affine then vadd vo (mprod phi x) t else mprod phi x.

(** [s] behaves in memory [h] as the subspace with basis [phi] and translation [t]:
    the map, into any vector outside the subspace, and nothing else changes. *)
Section Behaves.
  Context {S M V X : Type} (o : sops S) (vo : vops S V) (mprod : M -> X -> V) (mcols mrows : M -> nat).
  Variable xzeros : nat -> X.
  Definition maps (h : mem) (s : sub) (reach : list nat) (phi : M) (t : V) (affine : bool) : Prop :=
    forall x y v, In y reach -> v_at h y v ->
    exists h', sub_map o vo mprod s x y h = (Ok tt, h') /\
      v_at h' y (image vo mprod phi t affine x) /\ hm h' = hm h /\
      forall a, a <> y -> nth_error (hv h') a = nth_error (hv h) a.
  Definition accessors (h : mem) (s : sub) (phi : M) (t : V) (affine : bool) : Prop :=
    sub_translation s h = (Ok (if affine then t else vzero vo), h) /\
    sub_dimension mrows mcols s h = (Ok (mcols phi), h) /\
    sub_basis_translated s h = (Ok phi, h) /\
    sub_create_reduced mcols xzeros s h = (Ok (xzeros (mcols phi)), h) /\
    sub_is_column s = true /\ sub_is_row s = false /\
    (exists a h', sub_create_full vo s h = (Ok a, h') /\ a = length (hv h) /\
       hm h' = hm h /\ hv h' = hv h ++ [vzero vo]) /\
    (forall x, exists a h', sub_create_from o vo mprod s x h = (Ok a, h') /\ a = length (hv h) /\
       hm h' = hm h /\ hv h' = hv h ++ [image vo mprod phi t affine x]).
End Behaves.

(** What C33 asks of a subspace made from two lvalues: [untouched]: its construction
    changes nothing the caller has; [fixed]: it is the subspace it was made as, for
    ever. *)
Section Claims.
  Context {S M V X : Type} (o : sops S) (vo : vops S V) (mprod : M -> X -> V) (mcols mrows : M -> nat).
  Variable xzeros : nat -> X.
  Variables (mview vview : bool) (mgone : M) (vgone : V) (affine : bool).
  Definition untouched : Prop := forall h b t phi0 t0, m_at h b phi0 -> v_at h t t0 ->
    exists s h1, sub_create vo mview vview mgone vgone (LValue b) (LValue t) affine h = (Ok s, h1) /\
      (forall a m, m_at h a m -> m_at h1 a m) /\ (forall a v, v_at h a v -> v_at h1 a v).
  Definition fixed : Prop := forall h b t phi0 t0, m_at h b phi0 -> v_at h t t0 ->
    exists s h1, sub_create vo mview vview mgone vgone (LValue b) (LValue t) affine h = (Ok s, h1) /\
      forall am av h2, caller (all_m h) (all_v h) h1 am av h2 ->
        maps o vo mprod h2 s av phi0 t0 affine /\
        accessors o vo mprod mcols mrows xzeros h2 s phi0 t0 affine.
End Claims.

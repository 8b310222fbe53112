(** C33, C59: trial subspaces. [mview], [vview]: copying a matrix, a full state copies a
    handle (Kokkos, Tpetra), not the entries. *)
From Coq Require Import ZArith List.
From Verif Require Import Base SubspaceModel SubspaceSpec SubspaceProofs SubspaceClaims.

(** Full states with value semantics: the constructor changes nothing of the caller's, and
    whatever the caller does to memory afterwards, the map is phi x (+ t if affine) into any
    vector of the caller's, and the accessors give what was passed. *)
Theorem C33_values :
  forall (S M V X : Type) (o : sops S) (vo : vops S V) (mprod : M -> X -> V)
    (mrows mcols : M -> nat) (xzeros : nat -> X) (mview : bool) (mgone : M) (vgone : V),
  (forall v, vscale vo (s1 o) v = v) ->
  forall affine : bool,
  untouched vo mview false mgone vgone affine /\
  fixed o vo mprod mcols mrows xzeros mview false mgone vgone affine.
Proof. exact @values_claim. Qed.
Print Assumptions C33_values.

(** Also from temporaries, of which only those change that were moved from. *)
Theorem C33_temporaries :
  forall (S M V X : Type) (o : sops S) (vo : vops S V) (mprod : M -> X -> V)
    (mrows mcols : M -> nat) (xzeros : nat -> X) (mgone : M) (vgone : V),
  (forall v, vscale vo (s1 o) v = v) ->
  forall (h : mem) (b t : arg) (affine : bool) (phi0 : M) (t0 : V),
  m_at h (arg_of b) phi0 -> v_at h (arg_of t) t0 ->
  exists s h1, sub_create vo false false mgone vgone b t affine h = (Ok s, h1) /\
    (forall a m, m_at h a m -> b <> RValue a -> m_at h1 a m) /\
    (forall a v, v_at h a v -> t <> RValue a -> v_at h1 a v) /\
    forall am av h2, caller (all_m h) (all_v h) h1 am av h2 ->
      maps o vo mprod h2 s av phi0 t0 affine /\
      accessors o vo mprod mcols mrows xzeros h2 s phi0 t0 affine.
Proof. exact @temporaries_claim. Qed.
Print Assumptions C33_temporaries.

(** A copy is the subspace the original was made as, even if the original shares cells with
    the caller and these are overwritten later; making it changes nothing. *)
Theorem C33_copies :
  forall (S M V X : Type) (o : sops S) (vo : vops S V) (mprod : M -> X -> V)
    (mrows mcols : M -> nat) (xzeros : nat -> X) (mview vview : bool) (mgone : M) (vgone : V),
  (forall v, vscale vo (s1 o) v = v) ->
  forall (h : mem) (b t : arg) (affine : bool) (phi0 : M) (t0 : V),
  m_at h (arg_of b) phi0 -> v_at h (arg_of t) t0 ->
  exists s h1, sub_create vo mview vview mgone vgone b t affine h = (Ok s, h1) /\
  exists s' h2, sub_copy vo s h1 = (Ok s', h2) /\
    (exists l, hm h2 = hm h1 ++ l)%list /\ (exists l, hv h2 = hv h1 ++ l)%list /\
    forall am av h3, caller (all_m h1) (all_v h1) h2 am av h3 ->
      maps o vo mprod h3 s' av phi0 t0 affine /\
      accessors o vo mprod mcols mrows xzeros h3 s' phi0 t0 affine.
Proof. exact @copies_behave. Qed.
Print Assumptions C33_copies.

(** Full states that are handles: until the caller writes to the vector it passed the
    subspace is right, ... *)
Theorem C33_handles_partial :
  forall (S M V X : Type) (o : sops S) (vo : vops S V) (mprod : M -> X -> V)
    (mrows mcols : M -> nat) (xzeros : nat -> X) (mview vview : bool) (mgone : M) (vgone : V),
  (forall v, vscale vo (s1 o) v = v) ->
  forall (h : mem) (b t : arg) (affine : bool) (phi0 : M) (t0 : V),
  m_at h (arg_of b) phi0 -> v_at h (arg_of t) t0 ->
  exists s h1, sub_create vo mview vview mgone vgone b t affine h = (Ok s, h1) /\
    (forall reach, ~ In (sb_tr s) reach -> maps o vo mprod h1 s reach phi0 t0 affine) /\
    accessors o vo mprod mcols mrows xzeros h1 s phi0 t0 affine.
Proof. exact @handles_right_now. Qed.
Print Assumptions C33_handles_partial.

(** ... but the constructor of a subspace that is not affine fills it with zeros, ... *)
Theorem C33_handles_untouched_refuted :
  forall (S M V : Type) (vo : vops S V) (mview : bool) (mgone : M) (vgone : V),
  forall (m : M) (v : V), v <> vzero vo ->
  ~ untouched vo mview true mgone vgone false.
Proof. exact @views_untouched_not. Qed.
Print Assumptions C33_handles_untouched_refuted.

(** ... and an affine one changes with it. *)
Theorem C33_handles_fixed_refuted :
  forall (S M V X : Type) (o : sops S) (vo : vops S V) (mprod : M -> X -> V)
    (mrows mcols : M -> nat) (xzeros : nat -> X) (mview : bool) (mgone : M) (vgone : V),
  (forall v, vscale vo (s1 o) v = v) ->
  forall (m : M) (x : X) (t w : V), vadd vo (mprod m x) w <> vadd vo (mprod m x) t ->
  ~ fixed o vo mprod mcols mrows xzeros mview true mgone vgone true.
Proof. exact @views_fixed_not. Qed.
Print Assumptions C33_handles_fixed_refuted.

(** Linear subspaces. *)
Theorem C33_linear_subspace :
  forall (M V : Type) (mrows mcols : M -> nat) (mview : bool) (mgone : M)
    (h : @mem M V) (b : arg) (sp : spanning) (m0 : M),
  m_at h (arg_of b) m0 -> m_detached mview b = true ->
  exists l h1, linsub_create mview mgone b sp h = (Ok l, h1) /\
    (forall a m, m_at h a m -> ~ m_taken mview b a -> m_at h1 a m) /\ hv h1 = hv h /\
    forall am av h2, caller (all_m h) (all_v h) h1 am av h2 ->
      load_m (ls_basis l) h2 = (Ok m0, h2) /\
      linsub_dimension mrows mcols l h2
        = (Ok (match sp with Columns => mcols m0 | Rows => mrows m0 end), h2) /\
      (linsub_is_column l = true <-> sp = Columns) /\ (linsub_is_row l = true <-> sp = Rows).
Proof. exact @linsub_claim. Qed.
Print Assumptions C33_linear_subspace.

(** basis() gives the basis of an affine subspace, and dereferences a null pointer
    otherwise. *)
Theorem C59_basis_affine_partial :
  forall (S M V : Type) (vo : vops S V) (mview vview : bool) (mgone : M) (vgone : V)
    (h : mem) (b t : arg) (affine : bool) (phi0 : M) (t0 : V),
  m_at h (arg_of b) phi0 -> v_at h (arg_of t) t0 ->
  exists s h1, sub_create vo mview vview mgone vgone b t affine h = (Ok s, h1) /\
    sub_basis s h1 = (if affine then Ok phi0 else Undef UNullDeref, h1).
Proof. exact @basis_claim. Qed.
Print Assumptions C59_basis_affine_partial.

Theorem C59_basis_refuted :
  forall (S M V : Type) (vo : vops S V) (mview : bool) (mgone : M) (vgone : V),
  forall (m : M) (v : V) (vview : bool),
  ~ (forall (h : mem) b t phi0 t0, m_at h b phi0 -> v_at h t t0 ->
     exists s h1, sub_create vo mview vview mgone vgone (LValue b) (LValue t) false h = (Ok s, h1) /\
       exists m, sub_basis s h1 = (Ok m, h1)).
Proof. exact @basis_not. Qed.
Print Assumptions C59_basis_refuted.

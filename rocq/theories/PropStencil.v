(** C73: stencil containers. *)
From Coq Require Import List Bool Arith.
From Verif Require Import Base LinsolveModel StencilModel StencilSpec StencilProofs.
Import ListNotations.

(** A new static container: zero at its N latest time instances, nothing else
    in memory changes, and its elements are independent of each other and of all
    objects that existed before. For value and view types. *)
Theorem C73_static : forall V (zero : V) asserts e N h y h' c,
  static_new zero N h y = (h', c) ->
  all_zero zero asserts e N h' c /\ untouched zero h h' (seq 0 (length h)) /\
  independent zero asserts e N h' c (seq 0 (length h)).
Proof. intros V zero asserts e N h y h' c. exact (static_ok zero asserts e N h y h' c). Qed.
Print Assumptions C73_static.

(** The same for a dynamic container of value types. Missing: view types. *)
Theorem C73_dynamic_partial : forall V (zero : V) asserts e il h h' c,
  dyn_new zero false h il = (h', c) ->
  all_zero zero asserts e (length il) h' c /\ untouched zero h h' (seq 0 (length h)) /\
  independent zero asserts e (length il) h' c (seq 0 (length h)).
Proof. intros V zero asserts e il h h' c. exact (dyn_value_ok zero asserts e il h h' c). Qed.
Print Assumptions C73_dynamic_partial.

(** View types: false, constructing the container erases the caller's object. *)
Theorem C73_dynamic_refuted : forall V (zero v : V), v <> zero ->
  exists h y h' c, dyn_new zero true h [y] = (h', c) /\ live h [y] /\
    load zero h y = v /\ load zero h' y = zero.
Proof. intros V zero v. exact (dyn_view_bad zero v). Qed.
Print Assumptions C73_dynamic_refuted.

(** Copies of containers of value types: equal to and independent of the
    original. Missing: view types. *)
Theorem C73_copy_partial : forall V (zero : V) asserts e n h c h' c',
  c_size c = Some n -> length (c_data c) = n -> live h (c_data c) ->
  cont_copy zero false h c = (h', c') ->
  (forall t, has e n t -> get zero asserts e h' c' t = get zero asserts e h c t) /\
  untouched zero h h' (seq 0 (length h)) /\
  independent zero asserts e n h' c' (seq 0 (length h)).
Proof. intros V zero asserts e n h c h' c'. exact (copy_value_ok zero asserts e n h c h' c'). Qed.
Print Assumptions C73_copy_partial.

(** View types: false, assigning to an element of the copy changes the original. *)
Theorem C73_copy_refuted : forall V (zero v : V) asserts, v <> zero ->
  exists h c h' c' h2, static_new zero 2 [v] 0 = (h, c) /\ cont_copy zero true h c = (h', c') /\
    set asserts EndsN h' c' Tn v = Done h2 /\
    get zero asserts EndsN h c Tn = Done zero /\ get zero asserts EndsN h2 c Tn = Done v.
Proof. intros V zero v asserts. exact (copy_view_bad zero asserts v). Qed.
Print Assumptions C73_copy_refuted.

(** A time instance the container does not have never gives another one: the
    access is refused or, for the dynamic container without assertions,
    undefined. *)
Theorem C73_outside : forall asserts e n c t,
  c_size c = Some n -> length (c_data c) = n -> ~ has e n t ->
  elem asserts e c t = Stopped \/ (asserts = false /\ elem asserts e c t = Undefd UOutOfBounds).
Proof. intros asserts e n c t. exact (outside asserts e n c t). Qed.
Print Assumptions C73_outside.

(** The size of a default constructed dynamic container should be 0: false, it
    is indeterminate. *)
Theorem C73_default_size_refuted : cont_size dyn_default = Undefd UUninitialized.
Proof. exact eq_refl. Qed.
Print Assumptions C73_default_size_refuted.

(** Model of the containers that hold the states and right hand sides of several
    time instances: ode/ode_stencil_containers.hpp,
    ode/impl/ode_stencil_data_container_static.hpp and
    ode/impl/ode_stencil_data_container_dynamic.hpp. *)
From Coq Require Import List Bool Arith.
From Verif Require Import Base LinsolveModel.
Import ListNotations.

(** Tags of ode/ode_enum_and_tags.hpp 92-96: n+1, n, n-1, n-2, n-3. *)
Inductive tag := TnPlusOne | Tn | TnMinusOne | TnMinusTwo | TnMinusThree.
(** StencilEndsAtTag: nPlusOne (right hand sides) or n (states);
    ode_stencil_containers.hpp 60-75. *)
Inductive ends := EndsNPlusOne | EndsN.

(** operator()(tag): which element of data_ (static 117-163 and 233-279, dynamic
    88-127 and 166-205). [None]: there is no such overload. *)
Definition slot (e : ends) (t : tag) : option nat :=
  match e, t with
  | EndsNPlusOne, TnPlusOne => Some 0
  | EndsNPlusOne, Tn => Some 1
  | EndsNPlusOne, TnMinusOne => Some 2
  | EndsNPlusOne, TnMinusTwo => Some 3
  | EndsNPlusOne, TnMinusThree => None
  | EndsN, Tn => Some 0
  | EndsN, TnMinusOne => Some 1
  | EndsN, TnMinusTwo => Some 2
  | EndsN, TnMinusThree => Some 3
  | EndsN, TnPlusOne => None
  end.

Section Stencil.
  Context {V : Type} (zero : V).
  (** ValueType has view semantics (Kokkos::View): copying the C++ object copies
      a handle, not the data. *)
  Variable view : bool.

  (** The data lives in a memory; a C++ object is the address of its data. *)
  (* model only: the memory *)
  Definition mem := list V.
  (* model only: a new object in that memory *)
  Definition alloc (h : mem) (v : V) : mem * nat := (h ++ [v], length h).
  (* model only *)
  Definition load (h : mem) (a : nat) : V := nth a h zero.
  (* model only *)
  Fixpoint store (h : mem) (a : nat) (v : V) : mem :=
    match h, a with
    | [], _ => []
    | _ :: h, 0 => v :: h
    | w :: h, Datatypes.S a => w :: store h a v
    end.
  (** pressio::ops::clone (external): new data in all cases. *)
  (* called at static 76, 84-85, 92-94, 101-104, 193, 200-201, 208-210, 217-220 *)
  Definition clone (h : mem) (a : nat) : mem * nat := alloc h (load h a).
  (** copy constructor of ValueType *)
  (* called at dynamic 71, 149, by the constructor of the vector from the list *)
  Definition copy1 (h : mem) (a : nat) : mem * nat := if view then (h, a) else clone h a.
  (* model only: applied to each element in turn *)
  Fixpoint each (f : mem -> nat -> mem * nat) (h : mem) (l : list nat) : mem * list nat :=
    match l with
    | [] => (h, [])
    | a :: l => let (h, a') := f h a in let (h, l') := each f h l in (h, a' :: l')
    end.
  (** ops::set_zero on every element (static 166-170, 282-286; dynamic 73-75, 151-153) *)
  Definition set_zero (h : mem) (l : list nat) : mem :=
    fold_left (fun h a => store h a zero) l h.

  (** A container: the data of its elements; size_ ([None]: indeterminate, only
      for the dynamic container). *)
  (* static 64-67, 181-184, dynamic 130-131, 208-209 *)
  Record cont := mk_cont { c_data : list nat; c_size : option nat }.

  (** static, constructors 70-106 and 187-222, N = 0 .. 4: N clones of y, zeroed *)
  Definition static_new (N : nat) (h : mem) (y : nat) : mem * cont :=
    let (h, l) := each clone h (repeat y N) in
    (set_zero h l, mk_cont l (Some N)).
  (** dynamic, 68 and 146: size_ has no initialiser *)
  Definition dyn_default : cont := mk_cont [] None.
  (** dynamic, 70-76 and 148-154: the elements of the initializer list are
      copied into data_, then zeroed *)
  Definition dyn_new (h : mem) (il : list nat) : mem * cont :=
    let (h, l) := each copy1 h il in
    (set_zero h l, mk_cont l (Some (length l))).
  (** defaulted copy constructor (static 108, 224, dynamic 78, 156) *)
  Definition cont_copy (h : mem) (c : cont) : mem * cont :=
    let (h, l) := each copy1 h (c_data c) in (h, mk_cont l (c_size c)).
  (** size(): static 115, 231, dynamic 85, 163 *)
  Definition cont_size (c : cont) : ran nat :=
    match c_size c with Some n => Done n | None => Undefd UUninitialized end.

  (** operator()(tag): the element. [asserts]: assertions are compiled in (for
      the static container the check is a static_assert, so [asserts = true] and
      [Stopped] means that the program does not compile). *)
  (* static 117-163, 233-279, dynamic 88-127, 166-205 *)
  Definition elem (asserts : bool) (e : ends) (c : cont) (t : tag) : ran nat :=
    match slot e t with
    | None => Stopped
    | Some i =>
        if asserts && match c_size c with Some n => n <=? i | None => false end then Stopped
        else match nth_error (c_data c) i with
             | Some a => Done a
             | None => Undefd UOutOfBounds
             end
    end.
  (** reading and assigning the data of an element *)
  (* through the const overloads: static 141-163, 257-279, dynamic 109-127, 187-205 *)
  Definition get (asserts : bool) (e : ends) (h : mem) (c : cont) (t : tag) : ran V :=
    andthen (elem asserts e c t) (fun a => Done (load h a)).
  (* through the other overloads: static 117-139, 233-255, dynamic 88-106, 166-184 *)
  Definition set (asserts : bool) (e : ends) (h : mem) (c : cont) (t : tag) (v : V) : ran mem :=
    andthen (elem asserts e c t) (fun a => Done (store h a v)).
End Stencil.

(** Vocabulary for the stencil containers. *)
From Coq Require Import List Bool Arith.
From Verif Require Import Base LinsolveModel StencilModel.
Import ListNotations.

(** The time instances a container with [n] elements has: the [n] latest ones,
    counted back from n+1 or from n. *)
Definition latest (e : ends) : list tag :=
  match e with
  | EndsNPlusOne => [TnPlusOne; Tn; TnMinusOne; TnMinusTwo]
  | EndsN => [Tn; TnMinusOne; TnMinusTwo; TnMinusThree]
  end.
Definition has (e : ends) (n : nat) (t : tag) : Prop := In t (firstn n (latest e)).

Section Spec.
  Context {V : Type} (zero : V).
  Variable asserts : bool.
  Variable e : ends.

  (** [c] is a container of [n] elements in memory [h], none of which is an object
      in [others]: every time instance can be read; assigning to one changes that
      one and nothing else, neither another time instance nor one of [others]. *)
  Definition independent (n : nat) (h : mem (V:=V)) (c : cont) (others : list nat) : Prop :=
    cont_size c = Done n /\
    (forall t, has e n t -> exists v, get zero asserts e h c t = Done v) /\
    (forall t v, has e n t -> exists h', set asserts e h c t v = Done h' /\
       get zero asserts e h' c t = Done v /\
       (forall t', has e n t' -> t' <> t -> get zero asserts e h' c t' = get zero asserts e h c t') /\
       (forall a, In a others -> load zero h' a = load zero h a)).
  (** all elements are zero *)
  Definition all_zero (n : nat) (h : mem (V:=V)) (c : cont) : Prop :=
    forall t, has e n t -> get zero asserts e h c t = Done zero.
  (** the objects in [l] are unchanged from [h] to [h'] *)
  Definition untouched (h h' : mem (V:=V)) (l : list nat) : Prop :=
    forall a, In a l -> load zero h' a = load zero h a.
  Definition live (h : mem (V:=V)) (l : list nat) : Prop := forall a, In a l -> a < length h.
End Spec.

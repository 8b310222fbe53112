(** The hypotheses of C73 are met by concrete containers of numbers. *)
From Coq Require Import List Bool Arith Lia.
From Verif Require Import Base LinsolveModel StencilModel StencilSpec StencilProofs PropStencil.
Import ListNotations.

(** three elements cloned from the object 1 of a memory with two objects *)
Example ex_static : exists h' c, static_new 0 3 [7; 8] 1 = (h', c) /\
  h' = [7; 8; 0; 0; 0] /\ c_data c = [2; 3; 4] /\
  all_zero 0 true EndsN 3 h' c /\ untouched 0 [7; 8] h' [0; 1] /\
  independent 0 true EndsN 3 h' c [0; 1].
Proof.
  eexists. eexists. split; [reflexivity|]. split; [reflexivity|]. split; [reflexivity|].
  exact (C73_static nat 0 true EndsN 3 [7; 8] 1 _ _ eq_refl).
Qed.
Example ex_has : has EndsN 3 TnMinusTwo /\ ~ has EndsN 3 TnMinusThree /\ has EndsNPlusOne 3 TnMinusOne.
Proof. cbn. intuition discriminate. Qed.
Example ex_dynamic : exists h' c, dyn_new 0 false [7; 8] [0; 1] = (h', c) /\
  h' = [7; 8; 0; 0] /\ independent 0 false EndsNPlusOne 2 h' c [0; 1].
Proof.
  eexists. eexists. split; [reflexivity|]. split; [reflexivity|].
  exact (proj2 (proj2 (C73_dynamic_partial nat 0 false EndsNPlusOne [0; 1] [7; 8] _ _ eq_refl))).
Qed.
Example ex_dynamic_view : exists h y h' c, dyn_new 0 true h [y] = (h', c) /\ live h [y] /\
  load 0 h y = 5 /\ load 0 h' y = 0.
Proof. apply C73_dynamic_refuted. discriminate. Qed.
Example ex_copy : exists h' c',
  cont_copy 0 false [7; 8; 9] (mk_cont [0; 2] (Some 2)) = (h', c') /\
  get 0 true EndsN h' c' TnMinusOne = Done 9 /\ independent 0 true EndsN 2 h' c' [0; 1; 2].
Proof.
  eexists. eexists. split; [reflexivity|]. split; [reflexivity|].
  refine (proj2 (proj2 (C73_copy_partial nat 0 true EndsN 2 [7; 8; 9] (mk_cont [0; 2] (Some 2)) _ _
    eq_refl eq_refl _ eq_refl))).
  intros a [<-|[<-|[]]]; cbn; lia.
Qed.
Example ex_outside :
  elem true EndsN (mk_cont [0; 2] (Some 2)) TnMinusTwo = Stopped /\
  elem false EndsN (mk_cont [0; 2] (Some 2)) TnMinusTwo = Undefd UOutOfBounds.
Proof. split; reflexivity. Qed.

(** Specification shared by the reduced-order models: derivatives of maps between spaces,
    affine trial maps, restrictions (C37, C38). *)
From Coq Require Import Reals.
From Verif Require Import Base Laws ImplicitSpec.
Local Open Scope R_scope.

(** F (x+d) = F x + L d + o(|d|) *)
Definition derivative2 {X Y : Type} (xo : vops R X) (nx : X -> R) (yo : vops R Y) (ny : Y -> R)
           (F : X -> Y) (x : X) (L : X -> Y) : Prop :=
  forall eps, 0 < eps -> exists del, 0 < del /\ forall d, nx d < del ->
    ny (vadd yo (F (vadd xo x d)) (vscale yo (-1) (vadd yo (F x) (L d)))) <= eps * nx d.
(** A bounded linear map. *)
Record bounded {X Y : Type} (xo : vops R X) (nx : X -> R) (yo : vops R Y) (ny : Y -> R) (L : X -> Y) : Prop := {
  bo_lin : linear xo yo L;
  bo_bound : exists K, forall x, ny (L x) <= K * nx x
}.
(** Matrices acting from [X] to [Y]. *)
Record actions {S X Y J : Type} (yo : vops S Y) (jo : vops S J) (japp : J -> X -> Y) : Prop := {
  ac_add : forall a b x, japp (vadd jo a b) x = vadd yo (japp a x) (japp b x);
  ac_scale : forall c a x, japp (vscale jo c a) x = vscale yo c (japp a x)
}.
(** Outcomes [a] of a restricted computation and [b] of the full one: same end and world,
    and on success the restricted result. *)
Definition restricts {A A' W : Type} (P : A -> A') (a : outcome unit * (A' * W)) (b : outcome unit * (A * W)) : Prop :=
  fst a = fst b /\ snd (snd a) = snd (snd b) /\ (fst b = Ok tt -> fst (snd a) = P (fst (snd b))).
Definition restricts2 {A A' J J' W : Type} (P : A -> A') (PJ : J -> J')
  (a : outcome unit * (A' * option J' * W)) (b : outcome unit * (A * option J * W)) : Prop :=
  fst a = fst b /\ snd (snd a) = snd (snd b) /\
  (fst b = Ok tt -> fst (fst (snd a)) = P (fst (fst (snd b))) /\
                    snd (fst (snd a)) = option_map PJ (snd (fst (snd b)))).

(** FOM vectors in the plane, for the refutation and the examples of C39. *)
From Coq Require Import ZArith List Bool QArith Qcanon.
From Verif Require Import Base QcInst Laws LawInst LinearRomModel LinearRomSpec LinearRomProofs.
Import ListNotations.

Definition lw_v : vops Qc (Qc * Qc) := pair_v (self_v QcS) (self_v QcS).
Definition lw_dot (a b : Qc * Qc) : Qc := (fst a * fst b + snd a * snd b)%Qc.
(** The matrix with rows (1 2) and (3 4), and forcing b *)
Definition lw_A (v : Qc * Qc) : Qc * Qc :=
  (fst v + Q2Qc 2 * snd v, Q2Qc 3 * fst v + Q2Qc 4 * snd v)%Qc.
Definition lw_apply (b v r : Qc * Qc) (w : unit) : outcome unit * (Qc * Qc * unit) := (Ok tt, (vadd lw_v (lw_A v) b, tt)).

Lemma lw_space : vspace QcS lw_v.
Proof. apply pair_space; apply self_space; exact Qc_field. Qed.
Lemma lw_dot_add l u v : lw_dot l (vadd lw_v u v) = sadd QcS (lw_dot l u) (lw_dot l v).
Proof. unfold lw_dot. cbn. ring. Qed.
Lemma lw_dot_scale l a v : lw_dot l (vscale lw_v a v) = smul QcS a (lw_dot l v).
Proof. unfold lw_dot. cbn. ring. Qed.
Lemma lw_A_linear : linear lw_v lw_v lw_A.
Proof. split; intros; unfold lw_A; cbn; f_equal; ring. Qed.
Lemma lw_applies b : applies lw_v (fun _ => True) (lw_apply b) lw_A b.
Proof. intros v r w _. exists tt. split; [reflexivity|exact I]. Qed.

Lemma matrix_forcing_refuted :
  ~ (forall (A : Qc * Qc -> Qc * Qc), linear lw_v lw_v A ->
     forall apply, applies lw_v (fun _ : unit => True) apply A (vzero lw_v) ->
     forall lb rb shift AR0 As0, length AR0 = length rb ->
     exists m M s f, create_reduced_matrix_operator QcS lw_v lw_dot apply lb rb shift AR0 As0 tt = (Ok tt, m) /\
       operators m = (Some M, Some s, Some f) /\
       (forall x, length x = length rb ->
          plus QcS (plus QcS (mat_times QcS M x) s) f =
          tested lw_dot lb (A (vadd lw_v (combine_cols lw_v rb x) shift)))).
Proof.
  intros H.
  set (e := (Q2Qc 1, Q2Qc 1)).
  destruct (H lw_A lw_A_linear _ (lw_applies (vzero lw_v)) [e] [e] e [e] e eq_refl) as (m & M & s & f & E & Ho & _).
  destruct (matrix_operator_ok QcS lw_v Qc_field lw_space lw_dot lw_dot_add lw_dot_scale _ _ lw_A (vzero lw_v)
    (lw_applies (vzero lw_v)) lw_A_linear [e] [e] e [e] e tt eq_refl eq_refl I) as (m' & M' & E' & Ho' & _).
  rewrite E in E'. injection E' as <-. rewrite Ho in Ho'. discriminate Ho'.
Qed.

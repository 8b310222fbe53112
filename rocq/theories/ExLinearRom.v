(** Cases meeting the hypotheses of [PropLinearRom.v]. *)
From Coq Require Import ZArith List Bool QArith Qcanon.
From Verif Require Import Base QcInst Laws LawInst LinearRomModel LinearRomSpec LinearRomProofs LinearRomWitness PropLinearRom.
Import ListNotations.

(** A with rows (1 2), (3 4); b = (5, 6); L = (1, 0); R = (1, 1); shift = (0, 1) *)
Definition ex_b : Qc * Qc := (Q2Qc 5, Q2Qc 6).
Definition ex_l : Qc * Qc := (Q2Qc 1, Q2Qc 0).
Definition ex_r : Qc * Qc := (Q2Qc 1, Q2Qc 1).
Definition ex_s : Qc * Qc := (Q2Qc 0, Q2Qc 1).
Example ex_linear_rom : exists m M,
  create_reduced_linear_operator QcS lw_v lw_dot (lw_apply ex_b) [ex_l] [ex_r] ex_s [ex_l] ex_l tt = (Ok tt, m) /\
  operators m = (Some M, Some (tested lw_dot [ex_l] (lw_A ex_s)), Some (tested lw_dot [ex_l] ex_b)).
Proof.
  destruct (C39_linear_operator Qc (Qc * Qc) unit QcS lw_v Qc_field lw_space lw_dot lw_dot_add lw_dot_scale
    (lw_apply ex_b) (fun _ => True) lw_A ex_b (lw_applies ex_b) lw_A_linear [ex_l] [ex_r] ex_s [ex_l] ex_l tt eq_refl I)
    as (m & M & E & Eo & _).
  exists m, M. split; [exact E|exact Eo].
Qed.
(** A_r = (3), s_r = (2), b_r = (5) *)
Example ex_linear_rom_values :
  (let '(a, s, f) := operators (snd (create_reduced_linear_operator QcS lw_v lw_dot (lw_apply ex_b) [ex_l] [ex_r] ex_s [ex_l] ex_l tt)) in
   (option_map (map (map this)) a, option_map (map this) s, option_map (map this) f)) =
  (Some [[3%Q]], Some [2%Q], Some [5%Q]).
Proof. vm_compute. reflexivity. Qed.
Example ex_matrix_rom : exists m M,
  create_reduced_matrix_operator QcS lw_v lw_dot (lw_apply (vzero lw_v)) [ex_l; ex_r] [ex_r; ex_s] ex_s [ex_l; ex_l] ex_l tt = (Ok tt, m) /\
  operators m = (Some M, Some (tested lw_dot [ex_l; ex_r] (lw_A ex_s)), None).
Proof.
  destruct (C39_matrix_operator_partial Qc (Qc * Qc) unit QcS lw_v Qc_field lw_space lw_dot lw_dot_add lw_dot_scale
    (lw_apply (vzero lw_v)) (fun _ => True) lw_A (vzero lw_v) (lw_applies _) lw_A_linear [ex_l; ex_r] [ex_r; ex_s] ex_s
    [ex_l; ex_l] ex_l tt eq_refl eq_refl I) as (m & M & E & Eo & _).
  exists m, M. split; [exact E|exact Eo].
Qed.
(** A FOM operator that throws *)
Definition ex_throws (v r : Qc * Qc) (w : unit) : outcome unit * (Qc * Qc * unit) := (Throw (EUser 3), (r, w)).
Example ex_rom_failure : exists m,
  create_linear QcS lw_v lw_dot ex_throws true [ex_l] [ex_r] ex_s [ex_l] ex_l tt = (Throw (EUser 3), m) /\
  fails_with ex_throws (Throw (EUser 3)).
Proof.
  eexists. split; [reflexivity|].
  refine (C39_failure _ _ _ QcS lw_v lw_dot ex_throws true [ex_l] [ex_r] ex_s [ex_l] ex_l tt _ _ eq_refl eq_refl _). discriminate.
Qed.

(** C75 without an orthonormal basis: basis 2 on the line, y' = y, one step of forward Euler. *)
From Coq Require Import ZArith List QArith Qcanon.
From Verif Require Import Base QcInst Laws LawInst ExplicitModel ExplicitSpec ExplicitExtra LspgModel RomSpec GalerkinModel GalerkinSpec GalerkinOrtho.
Import ListNotations.
Definition two_rom := rhs_system (Jf:=Qc) (Mf:=unit) (Rm:=unit) (Jm:=unit) (J:=unit)
  (default_rhs QcS two_recon (q 2) two_prod two_fom) (fun _ _ _ _ w => (Ok tt, w)).
Definition line_fom : @esys Qc Qc unit unit :=
  mk_esys (fun y _ _ w => (Ok tt, (y, w))) (fun _ _ m f w => (NoFuel, (m, f, w)))
          (fun _ x _ w => (NoFuel, (x, w))) (fun _ _ _ _ w => (Ok tt, w)).
Definition two_start : @est Qc Qc unit (gobj Qc Qc Qc unit unit unit unit) :=
  mk_est (q 1) [q 0] (q 0) (q 0) tt two_obj [].
Definition line_start : @est Qc Qc unit unit := mk_est (q 2) [q 0] (q 0) (q 0) tt tt [].
Lemma not_reproduced : exists g g',
  drive (explicit_step QcS QcV two_rom ForwardEuler) (fun _ => q 0) (fun _ => q 1) 1 two_start = (Ok tt, g) /\
  drive (explicit_step QcS QcV line_fom ForwardEuler) (fun _ => q 0) (fun _ => q 1) 1 line_start = (Ok tt, g') /\
  x_y line_start = two_recon (x_y two_start) /\ x_y g' <> two_recon (x_y g).
Proof.
  do 2 eexists. split; [vm_compute; reflexivity|]. split; [vm_compute; reflexivity|]. split.
  - apply Qc_is_canon. vm_compute. reflexivity.
  - intros E. apply (f_equal this) in E. revert E. vm_compute. discriminate.
Qed.
Lemma line_computes : computes line_fom (fun _ => True) (fun y _ => y).
Proof. split; intros; exists w; repeat split. Qed.

(** C54: matrix-free Newton. *)
From Coq Require Import ZArith List.
From Verif Require Import Base NonlinDiag NonlinModel MatrixFreeModel MatrixFreeSpec MatrixFreeProofs.

(** Same end, state, printed lines and file as Newton with the matrix, also when the residual
    or the linear solver fails. *)
Theorem C54_same_as_newton :
  forall (S V R J H L W U : Type) (o : sops S) (no : nlops S V R J H) (xt : exts V R J H L)
    (rj : V -> R -> option J -> W -> outcome unit * (R * option J * W))
    (res : V -> R -> W -> outcome unit * (R * W))
    (appJ : V -> V -> V -> U -> outcome unit * (V * U))
    (krylov : R -> V -> L -> ktree V L) (DF : V -> J) (ap : J -> V -> V),
  same_residual rj res DF -> jacobian_action no appJ DF ap -> same_corrections o no xt krylov ap ->
  forall (new_l : L) (new_aux : V) (cf : config S) (s : reg S V R J H L) (w : W) (aux : V) (u : U),
  f_update cf = UStandard ->
  exists aux' u',
  let z := exec rj (root_solve o no xt cf) (set_ext new_l s, w) in
  mf_solve o (forget_ops no) res appJ krylov new_l new_aux cf (mk_mf (forget s) aux w u) =
    (fst z, mk_mf (forget (fst (snd z))) aux' (snd (snd z)) u').
Proof. exact @matrix_free_refines. Qed.
Print Assumptions C54_same_as_newton.

(** Without assertions the update setting is not looked at. *)
Theorem C54_update_setting_ignored :
  forall (S V R L W U : Type) (o : sops S) (no : nlops S V R unit unit)
    (res : V -> R -> W -> outcome unit * (R * W))
    (appJ : V -> V -> V -> U -> outcome unit * (V * U))
    (krylov : R -> V -> L -> ktree V L) (new_l : L) (new_aux : V)
    (mx : Z) (st : stop) (tol : S) (u1 u2 : update) (p1 p2 : option (list S)) (g : mfstate S V R L W U),
  mf_solve o no res appJ krylov new_l new_aux (mk_config mx st tol u1 p1) g =
  mf_solve o no res appJ krylov new_l new_aux (mk_config mx st tol u2 p2) g.
Proof. exact update_ignored. Qed.
Print Assumptions C54_update_setting_ignored.

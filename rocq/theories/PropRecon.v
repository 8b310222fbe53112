(** C42, C65, C66: the LSPG reconstructor and the ascii export of reduced operators. *)
From Coq Require Import ZArith List Bool QArith Qcanon.
From Verif Require Import Base QcInst Laws LawInst ExplicitModel ImplicitModel ImplicitSpec LspgModel ReconModel ReconSpec ReconProofs
  ReconWitness.
Import ListNotations.

(** C42. From a file with m >= 1 rows of the right length the writer receives the m - 1 pairs in order
    ([all_pairs], ReconSpec): i, the BDF1 residual between rows i-1 and i, and phi - dt (df/dy phi).
    If the FOM or the writer fails it received the pairs before that. *)
Theorem C42_semi_discrete :
  forall (S Y J W : Type) (o : sops S) (yo : vops S Y) (jo : vops S J), sfield o -> vspace o yo -> vspace o jo ->
  forall (log : W -> list (nat * Y * J)) must (good : W -> Prop) (recon : list S -> Y)
    (fom : sfom (S:=S) (Y:=Y) (R:=Y) (J:=J) (B:=J) (W:=W)) f df writer,
  (forall y t r w, good w -> computes log must good w (fo_rhs fom y t r w) (f y t)) ->
  (forall y p t j w, good w -> computes log must good w (fo_jac fom y p t j w) (df y p t)) ->
  writes log must good writer ->
  forall phi name n rows r0 j0 w, rows <> [] -> (forall r, In r rows -> length (snd r) = n) -> good w ->
  reconstructs o log recon
    (fun _ t dt y yn => (bdf1_R o yo yn dt (f y t) y, scheme_J o jo phi (s1 o) dt (df y phi t)))
    must rows w (reconstruct o recon (semi_discrete_eval o yo jo fom phi name) writer n (file_of rows) r0 j0 w).
Proof. exact @semi_discrete_ok. Qed.
Print Assumptions C42_semi_discrete.

(** ... with a fully discrete FOM: its residual and Jacobian action, for step i, t_i, dt, y_i, y_i-1. *)
Theorem C42_fully_discrete :
  forall (S Y R J B W : Type) (o : sops S) (log : W -> list (nat * R * J)) must (good : W -> Prop) (recon : list S -> Y)
    (dfom : Z -> S -> S -> R -> B -> option J -> Y -> list Y -> W -> outcome unit * (R * option J * W)) phi D DJ writer,
  (forall step t dt r j y yn w, good w ->
     computes log must good w (dfom step t dt r phi (Some j) y [yn] w) (D step t dt y yn, Some (DJ step t dt y yn))) ->
  writes log must good writer ->
  forall n rows r0 j0 w, rows <> [] -> (forall r, In r rows -> length (snd r) = n) -> good w ->
  reconstructs o log recon (fun i t dt y yn => (D (Z.of_nat i) t dt y yn, DJ (Z.of_nat i) t dt y yn))
    must rows w (reconstruct o recon (discrete_eval dfom phi) writer n (file_of rows) r0 j0 w).
Proof. exact @discrete_ok. Qed.
Print Assumptions C42_fully_discrete.

(** m - 1 pairs, numbered from 1. *)
Theorem C42_count :
  forall (S Y R J : Type) (o : sops S) (recon : list S -> Y) (value : nat -> S -> S -> Y -> Y -> R * J) rows,
  map (fun p => fst (fst p)) (all_pairs o recon value rows) = seq 1 (length rows - 1).
Proof. intros. unfold all_pairs. rewrite map_map. apply map_id. Qed.
Print Assumptions C42_count.

(** Malformed files are not reported: a file that is missing or empty, or with a row longer than the
    reduced dimension, gives an access out of bounds ... *)
Theorem C42_no_rows_refuted :
  forall (S Y R J W : Type) (o : sops S) (recon : list S -> Y)
    (eval : nat -> S -> S -> R -> J -> Y -> Y -> W -> outcome unit * (R * J * W)) writer n r0 j0 w file,
  file = None \/ file = Some [] -> reconstruct o recon eval writer n file r0 j0 w = (Undef UOutOfBounds, w).
Proof. exact @no_rows. Qed.
Print Assumptions C42_no_rows_refuted.
Theorem C42_too_many_values_refuted :
  forall (S Y R J W : Type) (o : sops S) (recon : list S -> Y)
    (eval : nat -> S -> S -> R -> J -> Y -> Y -> W -> outcome unit * (R * J * W)) writer n ls l r0 j0 w,
  In l ls -> (n < length (line_values l))%nat ->
  reconstruct o recon eval writer n (Some ls) r0 j0 w = (Undef UOutOfBounds, w).
Proof. exact @too_many_values. Qed.
Print Assumptions C42_too_many_values_refuted.
(** ... and a shorter row makes it use entries that were never set. *)
Theorem C42_too_few_values_refuted :
  forall (S Y R J W : Type) (o : sops S) (recon : list S -> Y)
    (eval : nat -> S -> S -> R -> J -> Y -> Y -> W -> outcome unit * (R * J * W)) writer (good : W -> Prop),
  (forall i t dt r j y yn w, good w ->
     fst (eval i t dt r j y yn w) = Ok tt /\ good (snd (snd (eval i t dt r j y yn w)))) ->
  (forall i r j w, good w -> fst (writer i r j w) = Ok tt /\ good (snd (writer i r j w))) ->
  forall n rows r0 j0 w, Exists (fun r => length (snd r) < n)%nat rows -> (forall r, In r rows -> length (snd r) <= n)%nat ->
  good w -> fst (reconstruct o recon eval writer n (file_of rows) r0 j0 w) = Undef UUninitialized.
Proof. exact @too_few_values. Qed.
Print Assumptions C42_too_few_values_refuted.

(** C66. Asked for the residuals of BDF2 the reconstructor neither throws nor writes them (by
    [C42_semi_discrete], whatever [name] is, it writes those of BDF1). *)
Theorem C66_refuted :
  ~ (forall x0 x1 x2 : Qc, exists e w,
     reconstruct QcS rw_recon (semi_discrete_eval QcS rw_v rw_v rw_fom (Q2Qc 1) BDF2) rw_writer 1
       (file_of [(Q2Qc 0, [x0]); (Q2Qc 1, [x1]); (Q2Qc 2, [x2])]) (Q2Qc 0) (Q2Qc 0) [] = (e, w) /\
     ((exists x, e = Throw x) \/
      (e = Ok tt /\ exists p j, w = [p; (2%nat, bdf2_R QcS rw_v x1 x0 (Q2Qc 1) (- x2)%Qc x2, j)]))).
Proof. exact scheme_refuted. Qed.
Print Assumptions C66_refuted.

(** C65. [write_matrix A] is the matrix that the exported text denotes. Entries that are whole numbers of up to
    six digits survive. Missing: all others; for whole numbers the relative error is at most 1/200000. *)
Theorem C65_six_digits_partial :
  forall A, (forall r, In r A -> forall n, In n r -> (Z.abs n < 1000000)%Z) -> write_matrix A = A.
Proof. exact write_small. Qed.
Print Assumptions C65_six_digits_partial.
Theorem C65_relative_error_partial : forall n, (200000 * Z.abs (shown n - n) <= Z.abs n)%Z.
Proof. exact shown_close. Qed.
Print Assumptions C65_relative_error_partial.
(** In general the operator cannot be read back: different matrices give the same file. *)
Theorem C65_refuted : ~ (forall A B, write_matrix A = write_matrix B -> A = B).
Proof. intros H. discriminate (H _ _ write_not_injective). Qed.
Print Assumptions C65_refuted.

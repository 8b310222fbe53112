(** C10 - C13, C43 - C45: explicit steppers. *)
From Coq Require Import ZArith List QArith Qcanon.
From Verif Require Import Base QcInst Laws LawInst AdvanceModel AdvanceSpec
  ExplicitModel ExplicitSpec ExplicitProofs ExplicitOrder ExplicitExtra.
Import ListNotations.
Local Open Scope Z_scope.

(** C10. *)
Theorem C10_textbook_update :
  forall (S V M W : Type) (o : sops S) (vo : vops S V) (u : @esys S V M W),
  sfield o -> schar0 o -> vspace o vo ->
  forall (good : W -> Prop) (f : V -> S -> V), computes u good f ->
  forall name tab n, tab_of o name = Some tab -> explicit_num_bufs name = Ok n ->
  forall g, used n (explicit_step o vo u name) g -> good (x_w g) ->
  forall t step h, exists g',
    explicit_step o vo u name t step h g = (Ok tt, g') /\
    x_y g' = erk_next o vo f tab (x_y g) t h /\
    x_tr g' = x_tr g ++ erk_calls step 0 f (erk_stages o vo f (tb_stages tab) (x_y g) t h []) /\
    good (x_w g').
Proof.
  exact (fun S V M W o vo u HF HC HV good f HU name tab n HT HN g HG Hg t step h =>
    erk_step_ok o vo u HF HC HV good f HU name tab n t step h g HT HN
      (used_length o vo u name n g HN HG) Hg).
Qed.
Print Assumptions C10_textbook_update.

Theorem C10_integrated_by_the_advancer :
  forall (S V M W : Type) (o : sops S) (vo : vops S V) (u : @esys S V M W),
  sfield o -> schar0 o -> vspace o vo ->
  forall (good : W -> Prop) (f : V -> S -> V), computes u good f ->
  forall name tab n (g : @est S V M W) num t0 h y0,
  tab_of o name = Some tab -> explicit_num_bufs name = Ok n ->
  used n (explicit_step o vo u name) g -> good (x_w g) -> Z.of_nat num < int32_max ->
  exists g' tr,
    advance_n_steps o (mk_user noop_obs (pol3 (fun _ _ _ w => (Ok h, w))) noop_guess
                         (stepper_fn (explicit_step o vo u name)))
      (Z.of_nat num) t0 (y0, g, []) =
    (Ok tt, (fixed_state (sadd o) (fun y t _ h => erk_next o vo f tab y t h) t0 h y0 num, g', tr)).
Proof. exact @erk_advance. Qed.
Print Assumptions C10_integrated_by_the_advancer.

(** C11. *)
Theorem C11_ab2_recurrence :
  forall (S V M W : Type) (o : sops S) (vo : vops S V) (u : @esys S V M W),
  sfield o -> schar0 o -> vspace o vo ->
  forall (good : W -> Prop) (f : V -> S -> V), computes u good f ->
  forall g, used 2 (explicit_step o vo u AdamsBashforth2) g -> good (x_w g) ->
  forall ts hs ys n, ab2_sequence o vo f ts hs ys -> ys 0%nat = x_y g ->
  exists g', drive (explicit_step o vo u AdamsBashforth2) ts hs n g = (Ok tt, g') /\
    x_y g' = ys n /\
    x_tr g' = x_tr g ++ flat_map (fun k => [ERhs (ys k) (ts k);
                  EObs (Z.of_nat (Datatypes.S k)) 0 (ts k) (f (ys k) (ts k))]) (seq 0 n).
Proof.
  exact (fun S V M W o vo u HF HC HV good f HU g HG Hg ts hs ys n HS H0 =>
    match ab2_drive o vo u HF HC HV good f HU ts hs ys g n
            (used_length o vo u AdamsBashforth2 2 g eq_refl HG) Hg HS H0 with
    | ex_intro _ g' (conj E (conj Y (conj _ (conj _ (conj T _))))) =>
        ex_intro _ g' (conj E (conj Y T))
    end).
Qed.
Print Assumptions C11_ab2_recurrence.

Theorem C11_recurrence_has_a_solution :
  forall (S V : Type) (o : sops S) (vo : vops S V) (f : V -> S -> V) ts hs y0,
  exists ys, ab2_sequence o vo f ts hs ys /\ ys 0%nat = y0.
Proof. exact @ab2_exists. Qed.
Print Assumptions C11_recurrence_has_a_solution.

Theorem C11_integrated_by_the_advancer :
  forall (S V M W : Type) (o : sops S) (vo : vops S V) (u : @esys S V M W),
  sfield o -> schar0 o -> vspace o vo ->
  forall (good : W -> Prop) (f : V -> S -> V), computes u good f ->
  forall (g : @est S V M W) num t0 h y0 ys,
  used 2 (explicit_step o vo u AdamsBashforth2) g -> good (x_w g) ->
  Z.of_nat num < int32_max ->
  ab2_sequence o vo f (fixed_time (sadd o) t0 h) (fun _ => h) ys -> ys 0%nat = y0 ->
  exists g' tr,
    advance_n_steps o (mk_user noop_obs (pol3 (fun _ _ _ w => (Ok h, w))) noop_guess
                         (stepper_fn (explicit_step o vo u AdamsBashforth2)))
      (Z.of_nat num) t0 (y0, g, []) = (Ok tt, (ys num, g', tr)).
Proof. exact @ab2_advance. Qed.
Print Assumptions C11_integrated_by_the_advancer.

(** C12. [X y t] is the solution of mass * x = force. *)
Theorem C12_mass_matrix_one_step_schemes :
  forall (S V M W : Type) (o : sops S) (vo : vops S V) (u : @esys S V M W),
  sfield o -> schar0 o -> vspace o vo ->
  forall (good : W -> Prop) (apply : M -> V -> V) (mass : V -> S -> M) (force X : V -> S -> V),
  computes_mm u good apply mass force ->
  (forall y t, apply (mass y t) (X y t) = force y t) ->
  (forall y t x x', apply (mass y t) x = apply (mass y t) x' -> x = x') ->
  forall name tab n, tab_of o name = Some tab -> explicit_num_bufs_mm name = Ok n ->
  forall g, used n (explicit_step_mm o vo u name) g -> good (x_w g) ->
  forall t step h, exists g',
    explicit_step_mm o vo u name t step h g = (Ok tt, g') /\
    x_y g' = erk_next o vo X tab (x_y g) t h /\
    x_tr g' = x_tr g ++ erk_calls step 0 force (erk_stages o vo X (tb_stages tab) (x_y g) t h []) /\
    good (x_w g').
Proof.
  exact (fun S V M W o vo u HF HC HV good apply mass force X HU HX HI name tab n HT HN g HG Hg t step h =>
    erk_step_mm_ok o vo u HF HC HV good apply mass force X HU HX HI name tab n t step h g HT HN
      (used_length_mm o vo u name n g HN HG) Hg).
Qed.
Print Assumptions C12_mass_matrix_one_step_schemes.

Theorem C12_mass_matrix_ab2 :
  forall (S V M W : Type) (o : sops S) (vo : vops S V) (u : @esys S V M W),
  sfield o -> schar0 o -> vspace o vo ->
  forall (good : W -> Prop) (apply : M -> V -> V) (mass : V -> S -> M) (force X : V -> S -> V),
  computes_mm u good apply mass force ->
  (forall y t, apply (mass y t) (X y t) = force y t) ->
  (forall y t x x', apply (mass y t) x = apply (mass y t) x' -> x = x') ->
  forall g, used 2 (explicit_step_mm o vo u AdamsBashforth2) g -> good (x_w g) ->
  forall ts hs ys n, ab2_sequence o vo X ts hs ys -> ys 0%nat = x_y g ->
  exists g', drive (explicit_step_mm o vo u AdamsBashforth2) ts hs n g = (Ok tt, g') /\
    x_y g' = ys n /\
    x_tr g' = x_tr g ++ flat_map (fun k => [ERhs (ys k) (ts k);
                  EObs (Z.of_nat (Datatypes.S k)) 0 (ts k) (force (ys k) (ts k))]) (seq 0 n).
Proof.
  exact (fun S V M W o vo u HF HC HV good apply mass force X HU HX HI g HG Hg ts hs ys n HS H0 =>
    match ab2_drive_mm o vo u HF HC HV good apply mass force X HU HX HI ts hs ys g n
            (used_length_mm o vo u AdamsBashforth2 2 g eq_refl HG) Hg HS H0 with
    | ex_intro _ g' (conj E (conj Y (conj _ (conj _ (conj T _))))) =>
        ex_intro _ g' (conj E (conj Y T))
    end).
Qed.
Print Assumptions C12_mass_matrix_ab2.

(** C13. *)
Theorem C13_quadrature_exact :
  forall (S V : Type) (o : sops S) (vo : vops S V), sfield o -> schar0 o -> vspace o vo ->
  forall name tab n cs c0 t h,
  tab_of o name = Some tab -> order_of name = Some n -> (length cs <= n)%nat ->
  erk_next o vo (fun _ => vpoly vo cs) tab (vadd vo c0 (vint o vo 1 cs t)) t h =
  vadd vo c0 (vint o vo 1 cs (sadd o t h)).
Proof. exact @quadrature. Qed.
Print Assumptions C13_quadrature_exact.

Theorem C13_linear_growth_factor :
  forall (S V : Type) (o : sops S) (vo : vops S V), sfield o -> schar0 o -> vspace o vo ->
  forall name tab n (L : V -> V) y t h,
  tab_of o name = Some tab -> order_of name = Some n -> linear vo vo L ->
  erk_next o vo (fun v _ => L v) tab y t h = exp_taylor o vo L h n 1 y.
Proof. exact @growth. Qed.
Print Assumptions C13_linear_growth_factor.

Theorem C13_ab2_quadrature_exact :
  forall (S V : Type) (o : sops S) (vo : vops S V), sfield o -> schar0 o -> vspace o vo ->
  forall ts h ys c0 c1 k,
  ab2_sequence o vo (fun _ => vpoly vo [c0; c1]) ts (fun _ => h) ys ->
  ts (k + 1)%nat = sadd o (ts k) h ->
  vadd vo (ys (k + 2)%nat) (vint o vo 1 [c0; c1] (ts (k + 1)%nat)) =
  vadd vo (ys (k + 1)%nat) (vint o vo 1 [c0; c1] (sadd o (ts (k + 1)%nat) h)).
Proof. exact @ab2_quadrature. Qed.
Print Assumptions C13_ab2_quadrature_exact.

(** C43. *)
Theorem C43_failed_step_leaves_state :
  forall (S V M W : Type) (o : sops S) (vo : vops S V) (u : @esys S V M W) (F : failure -> Prop),
  fails_only u F ->
  forall name n t step h, explicit_num_bufs name = Ok n ->
  forall g r g', length (x_bufs g) = n -> explicit_step o vo u name t step h g = (r, g') ->
  length (x_bufs g') = n /\ (fails r <> None -> x_y g' = x_y g) /\
  (forall f, fails r = Some f -> F f).
Proof. exact @explicit_step_frame. Qed.
Print Assumptions C43_failed_step_leaves_state.

Theorem C43_failed_step_leaves_state_mass_matrix :
  forall (S V M W : Type) (o : sops S) (vo : vops S V) (u : @esys S V M W) (F : failure -> Prop),
  fails_only u F ->
  forall name n t step h, explicit_num_bufs_mm name = Ok n ->
  forall g r g', length (x_bufs g) = n -> explicit_step_mm o vo u name t step h g = (r, g') ->
  length (x_bufs g') = n /\ (fails r <> None -> x_y g' = x_y g) /\
  (forall f, fails r = Some f -> F f).
Proof. exact @explicit_step_mm_frame. Qed.
Print Assumptions C43_failed_step_leaves_state_mass_matrix.

Theorem C43_used_steppers_keep_their_buffers :
  forall (S V M W : Type) (o : sops S) (vo : vops S V) (u : @esys S V M W) name n g,
  explicit_num_bufs name = Ok n -> used n (explicit_step o vo u name) g ->
  length (x_bufs g) = n.
Proof. exact @used_length. Qed.
Print Assumptions C43_used_steppers_keep_their_buffers.

(** C44. *)
Theorem C44_created_from_lvalue :
  forall (Sys V : Type) (createRhs createState : Sys -> V) moved_from,
  creates_from_system createRhs createState moved_from false.
Proof. exact @create_lvalue. Qed.
Print Assumptions C44_created_from_lvalue.

Theorem C44_created_from_temporary_partial :
  forall (Sys V : Type) (createRhs createState : Sys -> V) moved_from,
  (forall s, createRhs (moved_from s) = createRhs s) ->
  (forall s, createState (moved_from s) = createState s) ->
  creates_from_system createRhs createState moved_from true.
Proof. exact @create_rvalue. Qed.
Print Assumptions C44_created_from_temporary_partial.

Theorem C44_created_from_temporary_refuted :
  ~ creates_from_system (fun mesh : list Z => map (fun _ => 0) mesh)
      (fun mesh => map (fun _ => 0) mesh) (fun _ => []) true.
Proof. exact create_rvalue_fails. Qed.
Print Assumptions C44_created_from_temporary_refuted.

(** C45. *)
Theorem C45_retry_one_step_schemes :
  forall (S V M W : Type) (o : sops S) (vo : vops S V) name tab,
  sfield o -> schar0 o -> vspace o vo -> tab_of o name = Some tab -> @retry_ok S V M W o vo name.
Proof. exact @retry_one_step. Qed.
Print Assumptions C45_retry_one_step_schemes.

Theorem C45_retry_ab2_refuted : ~ @retry_ok Qc Qc unit nat QcS QcV AdamsBashforth2.
Proof. exact ab2_retry_fails. Qed.
Print Assumptions C45_retry_ab2_refuted.

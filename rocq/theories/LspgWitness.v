(** Counterexamples for the unsteady problems with FOM histories (C34, C35, C60, C61), and
    the FOM states manager (C36). *)
From Coq Require Import ZArith List Bool Lia QArith Qcanon.
From Verif Require Import Base QcInst Laws LawInst ExplicitModel ExplicitExtra ImplicitModel ImplicitSpec ImplicitWitness
  LspgModel LspgSpec.
Import ListNotations.
Local Open Scope Z_scope.

(** * Step 1 after a step 1 ignores the new initial condition *)
Lemma stale_start {S X Y R J W} (recon : X -> Y) (ev : evaluation (S:=S) (Y:=Y) (R:=R) (J:=J) W)
      name y st st' fs t dt r Jo p :
  fh_trk (lp_h p) = 1 ->
  lspg_policy recon ev name y st fs t 1 dt r Jo p = lspg_policy recon ev name y st' fs t 1 dt r Jo p.
Proof.
  intros H. destruct name; try reflexivity.
  - cbv [lspg_policy lspg_bdf reconstruct]. rewrite H. reflexivity.
  - cbv [lspg_policy lspg_bdf reconstruct]. rewrite H. reflexivity.
Qed.
Lemma stale_start_discrete {S X Y R J Q} (recon : X -> Y) n
      (ev : Z -> S -> S -> R -> option J -> Y -> list Y -> Q -> outcome unit * (R * option J * Q))
      t dt r Jo y st st' p :
  fh_trk (fst p) = 1 ->
  fd_system recon n ev 1 t dt r Jo y st p = fd_system recon n ev 1 t dt r Jo y st' p.
Proof. intros H. cbv [fd_system reconstruct]. rewrite H. reflexivity. Qed.

(** * A FOM y' = y with trial map x -> x + 1; the world counts right-hand sides and Jacobians;
    call [bad] of the right-hand side fails. *)
Definition wfom (bad : nat) : sfom (S:=Qc) (Y:=Qc) (R:=Qc) (J:=Qc) (B:=Qc) (W:=(nat * nat)) :=
  mk_sfom (fun y t r w => if Nat.eqb (fst w) bad then (Throw EVelocity, (r, (Datatypes.S (fst w), snd w)))
                          else (Ok tt, (y, (Datatypes.S (fst w), snd w))))
          (fun y phi t j w => (Ok tt, (phi, (fst w, Datatypes.S (snd w))))).
Definition never : nat := 99%nat.
Definition plus1 (x : Qc) : Qc := (x + q 1)%Qc.
Definition wpol bad := default_policy QcS QcV QcV plus1 (wfom bad) (q 1).
Definition wlspg bad name := implicit_step QcS (wpol bad) newton1 name.
Definition wstart (name : scheme) : outcome (@sst Qc Qc Qc (lpol (Y:=Qc) (W:=(nat * nat))) unit) :=
  lspg_create QcS name (q 0) (q 0) (q 0) (fresh_policy (0%nat, 0%nat)) (q 9) tt.
Definition wobj (name : scheme) : @sst Qc Qc Qc (lpol (Y:=Qc) (W:=(nat * nat))) unit :=
  match wstart name with Ok g => g | _ => mk_sst (q 0) [] [] (q 0) (q 0) 0 (fresh_policy (0%nat, 0%nat) []) tt end.
Lemma newton1_asks : asks newton1.
Proof. intros ws y. exact I. Qed.

(** ** C35: the second run continues from the first one's initial condition. *)
Definition w35_events : list (event Qc Qc) := [Start (q 0) (q 1); Attempt half; Start (q 0) (q 2); Attempt half].
Definition w35_res := fst (perform QcS (wlspg never BDF1) put_ode t_y w35_events (q 0) 0 (wobj BDF1)).
Lemma second_run_stale :
  wstart BDF1 = Ok (wobj BDF1) /\
  exists y1 y2, w35_res = [(Ok tt, q 1); (Ok tt, y1); (Ok tt, q 2); (Ok tt, y2)] /\
  bdf1_eq QcV (fun y => y) (plus1 (q 1)) half (plus1 y1) /\
  ~ bdf1_eq QcV (fun y => y) (plus1 (q 2)) half (plus1 y2) /\ y2 = y1.
Proof.
  split; [reflexivity|].
  exists (match w35_res with [_; (_, y1); _; _] => y1 | _ => q 0 end),
         (match w35_res with [_; _; _; (_, y2)] => y2 | _ => q 0 end).
  split; [vm_compute; reflexivity|]. split.
  - apply Qc_is_canon. vm_compute. reflexivity.
  - split.
    + intros E. apply (f_equal this) in E. revert E. vm_compute. discriminate.
    + apply Qc_is_canon. vm_compute. reflexivity.
Qed.

(** ** C34: a solver that returns without evaluating, if the world says so, leaves the FOM
    history of BDF2 behind. *)
Definition lazy_newton (n : nat) (y : Qc) : sol Qc Qc Qc nat :=
  match n with
  | 1%nat => SEnd (Ok tt) (q 5) 2%nat
  | _ =>
    SCall y (q 0) (Some (q 0)) (fun e r j =>
      match e, j with
      | Ok _, Some a => SEnd (Ok tt) (y - r / a)%Qc (Datatypes.S n)
      | _, _ => give_up e y n
      end)
  end.
Definition w34_start : outcome (@sst Qc Qc Qc (lpol (Y:=Qc) (W:=(nat * nat))) nat) :=
  lspg_create QcS BDF2 (q 0) (q 0) (q 0) (fresh_policy (0%nat, 0%nat)) (q 9) 0%nat.
Definition w34_res :=
  match w34_start with
  | Ok g => fst (perform QcS (implicit_step QcS (wpol never) lazy_newton BDF2) put_ode t_y
                         [Start (q 0) (q 1); Attempt half; Attempt half; Attempt half] (q 0) 0 g)
  | _ => []
  end.
Lemma no_evaluation_stale :
  exists y1 y3, w34_res = [(Ok tt, q 1); (Ok tt, y1); (Ok tt, q 5); (Ok tt, y3)] /\
  bdf1_eq QcV (fun y => y) (plus1 (q 1)) half (plus1 y1) /\
  ~ bdf2_eq QcS QcV (fun y => y) (plus1 (q 5)) (plus1 y1) half (plus1 y3) /\
  bdf2_eq QcS QcV (fun y => y) (plus1 (q 5)) (plus1 (q 1)) half (plus1 y3).
Proof.
  exists (match w34_res with [_; (_, y1); _; _] => y1 | _ => q 0 end),
         (match w34_res with [_; _; _; (_, y2)] => y2 | _ => q 0 end).
  split; [vm_compute; reflexivity|]. split; [apply Qc_is_canon; vm_compute; reflexivity|].
  split; [intros E; apply (f_equal this) in E; revert E; vm_compute; discriminate|].
  apply Qc_is_canon. vm_compute. reflexivity.
Qed.

(** ** C60: a velocity failure is not a time step failure. *)
Lemma lspg_velocity_failure :
  exists g1, wlspg 1%nat BDF1 (q 0) 1 half (wobj BDF1) = (Throw EVelocity, g1) /\ t_y g1 <> t_y (wobj BDF1).
Proof.
  eexists. split; [apply surjective_pairing|].
  intros E. apply (f_equal this) in E. revert E. vm_compute. discriminate.
Qed.

(** ** C61: the masked policy computes Jacobians nobody asked for. *)
Definition wmask : masker (Ru:=Qc) (Ju:=Qc) (R:=Qc) (J:=Qc) (W:=(nat * nat)) :=
  mk_masker (fun ru r w => (Ok tt, (ru, w))) (fun ju j w => (Ok tt, (ju, w))).
Lemma masked_computes_jacobian :
  let p := fresh_masked (q 0) (q 0) (0%nat, 0%nat) [q 0; q 0] in
  let '(e, (_, _, _, p')) := masked_policy (wpol never) wmask BDF1 (q 1) [q 1] [] (q 0) 1 half (q 0) None p in
  e = Ok tt /\ lp_w (mk_base p') = (1%nat, 1%nat).
Proof. vm_compute. split; reflexivity. Qed.

(** ... the others do not. *)
Section NoJacobian.
  Context {S X Y R J B W : Type} (o : sops S) (yo : vops S Y).
  Variable recon : X -> Y.
  Lemma hypred_no_jacobian (fom fom' : sfom (S:=S) (Y:=Y) (R:=R) (J:=J) (B:=B) (W:=W)) phi
        (up : updater (S:=S) (Y:=Y) (R:=R) (J:=J) (B:=B) (W:=W)) name y st fs t step dt r p :
    fo_rhs fom = fo_rhs fom' ->
    hypred_policy o yo recon fom phi up name y st fs t step dt r None p =
    hypred_policy o yo recon fom' phi up name y st fs t step dt r None p.
  Proof.
    intros H. cbv [hypred_policy lspg_policy lspg_bdf hypred_eval]. rewrite H. reflexivity.
  Qed.
End NoJacobian.
Section NoJacobianDefault.
  Context {S X Y J W : Type} (o : sops S) (yo : vops S Y) (jo : vops S J).
  Variable recon : X -> Y.
  Lemma default_no_jacobian (fom fom' : sfom (S:=S) (Y:=Y) (R:=Y) (J:=J) (B:=J) (W:=W)) phi
        name y st fs t step dt r p :
    fo_rhs fom = fo_rhs fom' ->
    default_policy o yo jo recon fom phi name y st fs t step dt r None p =
    default_policy o yo jo recon fom' phi name y st fs t step dt r None p.
  Proof.
    intros H. cbv [default_policy lspg_policy lspg_bdf default_eval]. rewrite H. reflexivity.
  Qed.
End NoJacobianDefault.
Lemma scaled_no_jacobian {S X Y R J W} (base base' : policy S X R J (lpol (Y:=Y) (W:=W)))
      (scaler : Y -> S -> R -> option J -> W -> outcome unit * (R * option J * W)) name y st fs t step dt r p :
  base name y st fs t step dt r None p = base' name y st fs t step dt r None p ->
  scaled_policy base scaler name y st fs t step dt r None p = scaled_policy base' scaler name y st fs t step dt r None p.
Proof. intros H. cbv [scaled_policy]. rewrite H. reflexivity. Qed.

(** * The manager (C36) *)
Section Manager.
  Context {X Y : Type} (recon : X -> Y).
  Lemma fom_at_ok g (data : list Y) : (asserted_size g <= length data)%nat ->
    exists y, fom_at g data = Ok y /\ nth_error data (read_index g) = Some y.
  Proof.
    intros H. cbv [fom_at]. destruct (nth_error data (read_index g)) as [y|] eqn:E.
    - exists y. split; reflexivity.
    - apply nth_error_None in E. destruct g; cbn in *; lia.
  Qed.
  Lemma recon_at_ok g x (data : list Y) : g <> NMinusTwo -> (asserted_size g <= length data)%nat ->
    exists d, recon_at recon g x data = Ok d /\ fom_at g d = Ok (recon x) /\ length d = length data /\
      forall i, i <> read_index g -> nth_error d i = nth_error data i.
  Proof.
    intros Hg H. destruct g; cbn in H; [| | |destruct Hg; reflexivity].
    - destruct data as [|a data]; [cbn in H; lia|]. cbn. eexists. repeat split.
      intros [|i] Hi; [destruct Hi; reflexivity|reflexivity].
    - destruct data as [|a [|b data]]; try (cbn in H; lia). cbn. eexists. repeat split.
      intros [|[|i]] Hi; try reflexivity. destruct Hi; reflexivity.
    - destruct data as [|a [|b [|c data]]]; try (cbn in H; lia). cbn. eexists. repeat split.
      intros [|[|[|i]]] Hi; try reflexivity. destruct Hi; reflexivity.
  Qed.
  Lemma recon_at_nm2 x (a b c d : Y) : recon_at recon NMinusTwo x [a; b; c; d] = Undef UOutOfBounds.
  Proof. reflexivity. Qed.
  Lemma recon_at_nm2_more x (a b c d e : Y) l :
    recon_at recon NMinusTwo x (a :: b :: c :: d :: e :: l) = Ok (a :: b :: c :: d :: recon x :: l) /\
    fom_at NMinusTwo (a :: b :: c :: d :: recon x :: l) = Ok d.
  Proof. split; reflexivity. Qed.
  (** Shifting keeps y_n+1, puts the new y_n in front of the older ones and forgets the oldest. *)
  Lemma recon_shift_ok x (data : list Y) : (2 <= length data <= 4)%nat ->
    exists np1 older, data = np1 :: older /\
      recon_shift recon x data = np1 :: recon x :: removelast older.
  Proof.
    intros H. destruct data as [|a [|b [|c [|d [|e data]]]]]; cbn in H; try lia; eexists _, _; split; reflexivity.
  Qed.
  Lemma recon_shift_other x (data : list Y) : (length data < 2 \/ 4 < length data)%nat -> recon_shift recon x data = data.
  Proof.
    intros H. destruct data as [|a [|b [|c [|d [|e data]]]]]; cbn in *; try lia; reflexivity.
  Qed.
End Manager.

(** The reconstructor and the ascii export. *)
From Coq Require Import ZArith List Bool Lia.
From Verif Require Import Base Laws ExplicitModel ImplicitModel ImplicitSpec ImplicitProofs LspgModel ReconModel ReconSpec.
Import ListNotations.

Section Read.
  Context {S : Type} (o : sops S).
  Lemma fill_all (v : list S) : forall cells, length cells = length v -> fill cells v = Ok (map Some v).
  Proof.
    induction v as [|a v IH]; intros [|c cells] H; try discriminate H; cbn; [reflexivity|].
    rewrite IH by (injection H as H; exact H). reflexivity.
  Qed.
  Lemma use_all_some (v : list S) : use_all (map Some v) = Ok v.
  Proof. induction v as [|a v IH]; cbn; [reflexivity|rewrite IH; reflexivity]. Qed.
  Lemma read_rows n (rows : list (S * list S)) : (forall r, In r rows -> length (snd r) = n) ->
    read_file o n (file_of rows) = Ok (map (fun r => (Some (fst r), map Some (snd r))) rows).
  Proof.
    cbn. induction rows as [|[t x] rows IH]; intros H; cbn; [reflexivity|].
    unfold read_line. cbn. rewrite fill_all by (rewrite repeat_length; symmetry; apply (H (t, x)); left; reflexivity).
    rewrite IH by (intros r Hr; apply H; right; exact Hr). reflexivity.
  Qed.
End Read.

Section Loop.
  Context {S Y R J W : Type} (o : sops S).
  Variable log : W -> list (nat * R * J).
  Variables (must : bool) (good : W -> Prop).
  Variable recon : list S -> Y.
  Variable eval : nat -> S -> S -> R -> J -> Y -> Y -> W -> outcome unit * (R * J * W).
  Variable value : nat -> S -> S -> Y -> Y -> R * J.
  Variable writer : nat -> R -> J -> W -> outcome unit * W.
  Hypothesis Heval : forall i t dt r j y yn w, good w -> computes log must good w (eval i t dt r j y yn w) (value i t dt y yn).
  Hypothesis Hwr : writes log must good writer.

  (** The pairs of the rows after the row (t, x), the first with number i *)
  Fixpoint pairs_from (rows : list (S * list S)) (i : nat) (t : S) (x : list S) : list (nat * R * J) :=
    match rows with
    | [] => []
    | (t', x') :: rows' =>
        let v := value i t' (ssub o t' t) (recon x') (recon x) in
        (i, fst v, snd v) :: pairs_from rows' (Datatypes.S i) t' x'
    end.
  Lemma loop_ok rows : forall i t x r j w, good w ->
    let res := recon_loop o recon eval writer (map (fun r => (Some (fst r), map Some (snd r))) rows) i (Some t) (recon x) r j w in
    exists k, log (snd res) = log w ++ firstn k (pairs_from rows i t x) /\
      (fst res = Ok tt -> log (snd res) = log w ++ pairs_from rows i t x) /\ (must = true -> fst res = Ok tt).
  Proof.
    induction rows as [|[t' x'] rows IH]; intros i t x r j w Hw.
    { exists 0%nat. cbn. rewrite app_nil_r. auto. }
    cbn [map recon_loop fst snd use]. rewrite use_all_some. cbn [pairs_from].
    pose proof (Heval i t' (ssub o t' t) r j (recon x') (recon x) w Hw) as (G1 & L1 & V1 & M1).
    destruct (eval i t' (ssub o t' t) r j (recon x') (recon x) w) as [e [[r' j'] w1]]. cbn [fst snd] in G1, L1, V1, M1.
    destruct e as [[]|e|u|];
      try (exists 0%nat; cbn; rewrite app_nil_r; split; [exact L1|split; [discriminate|exact M1]]).
    specialize (V1 eq_refl).
    pose proof (Hwr i r' j' w1 G1) as (G2 & L2 & M2).
    destruct (writer i r' j' w1) as [e w2]. cbn [fst snd] in G2, L2, M2.
    destruct e as [[]|e|u|];
      try (exists 0%nat; cbn; rewrite app_nil_r in *; split; [congruence|split; [discriminate|exact M2]]).
    destruct (IH (Datatypes.S i) t' x' r' j' w2 G2) as (k & L3 & O3 & M3).
    rewrite L1 in L2. rewrite <- V1. cbn [fst snd].
    exists (Datatypes.S k). cbn [firstn]. split; [|split; [|exact M3]].
    - rewrite L3, L2, <- app_assoc. reflexivity.
    - intros E. rewrite (O3 E), L2, <- app_assoc. reflexivity.
  Qed.
  Lemma pairs_from_map pre rows t x :
    map (pair_of o recon value (pre ++ (t, x) :: rows)) (seq (Datatypes.S (length pre)) (length rows))
    = pairs_from rows (Datatypes.S (length pre)) t x.
  Proof.
    revert pre t x. induction rows as [|[t' x'] rows IH]; intros pre t x; [reflexivity|].
    cbn [length seq map pairs_from]. f_equal.
    - unfold pair_of. replace (Datatypes.S (length pre) - 1)%nat with (length pre) by lia.
      rewrite nth_middle. rewrite app_nth2 by lia.
      replace (Datatypes.S (length pre) - length pre)%nat with 1%nat by lia. reflexivity.
    - specialize (IH (pre ++ [(t, x)]) t' x'). rewrite app_length in IH. cbn [length] in IH.
      rewrite <- app_assoc in IH. cbn [app] in IH.
      replace (length pre + 1)%nat with (Datatypes.S (length pre)) in IH by lia. exact IH.
  Qed.
  Lemma reconstruct_ok n rows r0 j0 w : rows <> [] -> (forall r, In r rows -> length (snd r) = n) -> good w ->
    reconstructs o log recon value must rows w (reconstruct o recon eval writer n (file_of rows) r0 j0 w).
  Proof.
    intros Hne Hn Hw. unfold reconstruct. rewrite (read_rows o n rows Hn).
    destruct rows as [|[t x] rows]; [contradiction Hne; reflexivity|].
    cbn [map fst snd]. rewrite use_all_some. unfold reconstructs, all_pairs.
    cbn [length]. rewrite Nat.sub_succ, Nat.sub_0_r.
    pose proof (pairs_from_map [] rows t x) as EP. cbn [app length] in EP. rewrite EP.
    apply loop_ok. exact Hw.
  Qed.
End Loop.

(** The two kinds of FOM *)
Section Kinds.
  Context {S Y R J B W : Type} (o : sops S).
  Variable log : W -> list (nat * Y * J).
  Variables (must : bool) (good : W -> Prop).
  Lemma semi_discrete_computes (yo : vops S Y) (jo : vops S J) : sfield o -> vspace o yo -> vspace o jo ->
    forall (fom : sfom (S:=S) (Y:=Y) (R:=Y) (J:=J) (B:=J) (W:=W)) f df,
    (forall y t r w, good w -> computes log must good w (fo_rhs fom y t r w) (f y t)) ->
    (forall y p t j w, good w -> computes log must good w (fo_jac fom y p t j w) (df y p t)) ->
    forall phi name i t dt r j y yn w, good w ->
    computes log must good w (semi_discrete_eval o yo jo fom phi name i t dt r j y yn w)
      (bdf1_R o yo yn dt (f y t) y, scheme_J o jo phi (s1 o) dt (df y phi t)).
  Proof.
    intros HF HV HJ fom f df Hf Hdf phi name i t dt r j y yn w Hw. unfold semi_discrete_eval.
    pose proof (Hf y t r w Hw) as (G1 & L1 & V1 & M1).
    destruct (fo_rhs fom y t r w) as [e1 [f1 w1]]. cbn [fst snd] in G1, L1, V1, M1.
    destruct e1 as [[]|e|u|]; try (split; [exact G1|split; [exact L1|split; [discriminate|exact M1]]]).
    pose proof (Hdf y phi t j w1 G1) as (G2 & L2 & V2 & M2).
    destruct (fo_jac fom y phi t j w1) as [e2 [a w2]]. cbn [fst snd] in G2, L2, V2, M2.
    destruct e2 as [[]|e|u|]; try (split; [exact G2|split; [cbn; congruence|split; [discriminate|exact M2]]]).
    split; [exact G2|]. split; [cbn; congruence|]. split; [|reflexivity]. intros _. cbn [fst snd].
    rewrite (V1 eq_refl), (V2 eq_refl), (res_bdf1 o yo HF HV). f_equal.
    rewrite <- (jac_bdf1_mm o jo HF HJ). unfold djac_bdf1_mm. f_equal.
    apply (Field_theory.F_R (sfield_th o HF)).
  Qed.
End Kinds.
Section Discrete.
  Context {S Y R J B W : Type}.
  Variable log : W -> list (nat * R * J).
  Variables (must : bool) (good : W -> Prop).
  Lemma discrete_computes
    (dfom : Z -> S -> S -> R -> B -> option J -> Y -> list Y -> W -> outcome unit * (R * option J * W)) phi D DJ :
    (forall step t dt r j y yn w, good w ->
       computes log must good w (dfom step t dt r phi (Some j) y [yn] w) (D step t dt y yn, Some (DJ step t dt y yn))) ->
    forall i t dt r j y yn w, good w ->
    computes log must good w (discrete_eval dfom phi i t dt r j y yn w) (D (Z.of_nat i) t dt y yn, DJ (Z.of_nat i) t dt y yn).
  Proof.
    intros H i t dt r j y yn w Hw. unfold discrete_eval.
    pose proof (H (Z.of_nat i) t dt r j y yn w Hw) as (G & L & V & M).
    destruct (dfom (Z.of_nat i) t dt r phi (Some j) y [yn] w) as [e [[r' j'] w']]. cbn [fst snd] in *.
    split; [exact G|]. split; [exact L|]. split; [|exact M].
    intros E. specialize (V E). cbn [fst snd]. injection V as -> ->. reflexivity.
  Qed.
End Discrete.

(** * Both together *)
Lemma semi_discrete_ok {S Y J W} (o : sops S) (yo : vops S Y) (jo : vops S J) : sfield o -> vspace o yo -> vspace o jo ->
  forall (log : W -> list (nat * Y * J)) must (good : W -> Prop) (recon : list S -> Y) (fom : sfom (S:=S) (Y:=Y) (R:=Y) (J:=J) (B:=J) (W:=W)) f df writer,
  (forall y t r w, good w -> computes log must good w (fo_rhs fom y t r w) (f y t)) ->
  (forall y p t j w, good w -> computes log must good w (fo_jac fom y p t j w) (df y p t)) ->
  writes log must good writer ->
  forall phi name n rows r0 j0 w, rows <> [] -> (forall r, In r rows -> length (snd r) = n) -> good w ->
  reconstructs o log recon
    (fun _ t dt y yn => (bdf1_R o yo yn dt (f y t) y, scheme_J o jo phi (s1 o) dt (df y phi t)))
    must rows w (reconstruct o recon (semi_discrete_eval o yo jo fom phi name) writer n (file_of rows) r0 j0 w).
Proof.
  intros HF HV HJ log must good recon fom f df writer Hf Hdf Hwr phi name n rows r0 j0 w Hne Hn Hw.
  apply (reconstruct_ok o log must good); try assumption.
  intros. apply semi_discrete_computes; assumption.
Qed.
Lemma discrete_ok {S Y R J B W} (o : sops S) (log : W -> list (nat * R * J)) must (good : W -> Prop) (recon : list S -> Y)
  (dfom : Z -> S -> S -> R -> B -> option J -> Y -> list Y -> W -> outcome unit * (R * option J * W)) phi D DJ writer :
  (forall step t dt r j y yn w, good w ->
     computes log must good w (dfom step t dt r phi (Some j) y [yn] w) (D step t dt y yn, Some (DJ step t dt y yn))) ->
  writes log must good writer ->
  forall n rows r0 j0 w, rows <> [] -> (forall r, In r rows -> length (snd r) = n) -> good w ->
  reconstructs o log recon (fun i t dt y yn => (D (Z.of_nat i) t dt y yn, DJ (Z.of_nat i) t dt y yn))
    must rows w (reconstruct o recon (discrete_eval dfom phi) writer n (file_of rows) r0 j0 w).
Proof.
  intros H Hwr n rows r0 j0 w Hne Hn Hw. apply (reconstruct_ok o log must good); try assumption.
  intros. apply discrete_computes; assumption.
Qed.

(** * Malformed files *)
Section Malformed.
  Context {S Y R J W : Type} (o : sops S).
  Variable recon : list S -> Y.
  Variable eval : nat -> S -> S -> R -> J -> Y -> Y -> W -> outcome unit * (R * J * W).
  Variable writer : nat -> R -> J -> W -> outcome unit * W.
  Lemma no_rows n r0 j0 w file : file = None \/ file = Some [] ->
    reconstruct o recon eval writer n file r0 j0 w = (Undef UOutOfBounds, w).
  Proof. intros [->| ->]; reflexivity. Qed.
  Lemma fill_cases (v : list S) : forall cells,
    (length v <= length cells /\ exists l, fill cells v = Ok l)%nat \/
    (length cells < length v /\ fill cells v = Undef UOutOfBounds)%nat.
  Proof.
    induction v as [|a v IH]; intros [|c cells]; cbn; try (left; split; [lia|eauto]; fail); try (right; split; [lia|reflexivity]).
    destruct (IH cells) as [[H [l E]]|[H E]]; rewrite E; [left|right]; (split; [lia|eauto]).
  Qed.
  Lemma too_long ext (ls : list (fline S)) l : In l ls -> (ext < length (line_values l))%nat ->
    read_lines o ext ls = Undef UOutOfBounds.
  Proof.
    induction ls as [|a ls IH]; intros Hin Hl; [contradiction|]. cbn. unfold read_line.
    destruct (fill_cases (line_values a) (repeat None ext)) as [[H [c E]]|[H E]]; rewrite E; [|reflexivity].
    destruct Hin as [->|Hin]; [rewrite repeat_length in H; lia|]. rewrite (IH Hin Hl). reflexivity.
  Qed.
  Lemma too_many_values n ls l r0 j0 w : In l ls -> (n < length (line_values l))%nat ->
    reconstruct o recon eval writer n (Some ls) r0 j0 w = (Undef UOutOfBounds, w).
  Proof. intros H1 H2. unfold reconstruct. cbn. rewrite (too_long n ls l H1 H2). reflexivity. Qed.

  Definition row_short (n : nat) (r : S * list S) : Prop := (length (snd r) < n)%nat.
  Lemma fill_short (v : list S) : forall ext, (length v < ext)%nat ->
    exists c, fill (repeat None ext) v = Ok c /\ use_all c = Undef UUninitialized.
  Proof.
    induction v as [|a v IH]; intros [|ext] H; cbn in *; try lia.
    - eexists. split; reflexivity.
    - destruct (IH ext ltac:(lia)) as (c & E & U). rewrite E. eexists. split; [reflexivity|]. cbn. rewrite U. reflexivity.
  Qed.
  Variable good : W -> Prop.
  Hypothesis Heval : forall i t dt r j y yn w, good w ->
    fst (eval i t dt r j y yn w) = Ok tt /\ good (snd (snd (eval i t dt r j y yn w))).
  Hypothesis Hwr : forall i r j w, good w -> fst (writer i r j w) = Ok tt /\ good (snd (writer i r j w)).
  Lemma short_loop n rows : Exists (row_short n) rows -> (forall r, In r rows -> length (snd r) <= n)%nat ->
    exists cells, read_lines o n (map (fun r => Numbers (fst r :: snd r)) rows) = Ok cells /\
    forall i t y r j w, good w -> fst (recon_loop o recon eval writer cells i (Some t) y r j w) = Undef UUninitialized.
  Proof.
    induction rows as [|[t x] rows IH]; intros HE Hle; [inversion HE|].
    assert (Hread : exists cs, read_lines o n (map (fun r => Numbers (fst r :: snd r)) rows) = Ok cs).
    { clear -Hle. assert (H : forall r, In r rows -> (length (snd r) <= n)%nat) by (intros r Hr; apply Hle; right; exact Hr).
      clear Hle. induction rows as [|[t' x'] rows IH]; [exists []; reflexivity|]. cbn. unfold read_line. cbn.
      destruct (fill_cases x' (repeat None n)) as [[_ [c E]]|[Hb _]];
        [|rewrite repeat_length in Hb; specialize (H (t', x') (or_introl eq_refl)); cbn in H; lia].
      rewrite E. destruct (IH (fun r Hr => H r (or_intror Hr))) as [cs Ec]. rewrite Ec. eauto. }
    cbn [map read_lines]. unfold read_line at 1. cbn [line_values line_time fst snd].
    destruct (Nat.lt_ge_cases (length x) n) as [Hs|Hs].
    - destruct (fill_short x n Hs) as (c & E & U). rewrite E. destruct Hread as [cs Ec]. rewrite Ec.
      eexists. split; [reflexivity|]. intros i t0 y r j w Hw. cbn [recon_loop use]. rewrite U. reflexivity.
    - assert (El : length x = n) by (specialize (Hle (t, x) (or_introl eq_refl)); cbn in Hle; lia).
      rewrite (fill_all x (repeat None n)) by (rewrite repeat_length; symmetry; exact El).
      assert (HE' : Exists (row_short n) rows).
      { inversion HE as [? ? Hh|? ? Ht]; subst; [unfold row_short in Hh; cbn in Hh; lia|exact Ht]. }
      destruct (IH HE' (fun r Hr => Hle r (or_intror Hr))) as (cs & Ec & Hc). rewrite Ec.
      eexists. split; [reflexivity|]. intros i t0 y r j w Hw. cbn [recon_loop use]. rewrite use_all_some.
      pose proof (Heval i t (ssub o t t0) r j (recon x) y w Hw) as [E1 G1].
      destruct (eval i t (ssub o t t0) r j (recon x) y w) as [e [[r' j'] w1]]. cbn [fst snd] in E1, G1. subst e.
      pose proof (Hwr i r' j' w1 G1) as [E2 G2]. destruct (writer i r' j' w1) as [e w2]. cbn [fst snd] in E2, G2. subst e.
      apply Hc. exact G2.
  Qed.
  Lemma too_few_values n rows r0 j0 w : Exists (row_short n) rows -> (forall r, In r rows -> length (snd r) <= n)%nat ->
    good w -> fst (reconstruct o recon eval writer n (file_of rows) r0 j0 w) = Undef UUninitialized.
  Proof.
    intros HE Hle Hw. unfold reconstruct, file_of, read_file.
    destruct rows as [|[t x] rows]; [inversion HE|].
    destruct (Nat.lt_ge_cases (length x) n) as [Hs|Hs].
    - destruct (short_loop n _ HE Hle) as (cells & E & _). rewrite E. cbn [map read_lines] in E. unfold read_line in E at 1.
      cbn [line_values line_time fst snd] in E. destruct (fill_short x n Hs) as (c & Ec & U). rewrite Ec in E.
      destruct (read_lines o n (map (fun r => Numbers (fst r :: snd r)) rows)) as [cs| | |]; try discriminate E.
      injection E as <-. rewrite U. reflexivity.
    - assert (El : length x = n) by (specialize (Hle (t, x) (or_introl eq_refl)); cbn in Hle; lia).
      assert (HE' : Exists (row_short n) rows).
      { inversion HE as [? ? Hh|? ? Ht]; subst; [unfold row_short in Hh; cbn in Hh; lia|exact Ht]. }
      destruct (short_loop n rows HE' (fun r Hr => Hle r (or_intror Hr))) as (cs & Ec & Hc).
      cbn [map read_lines]. unfold read_line at 1. cbn [line_values line_time fst snd].
      rewrite (fill_all x (repeat None n)) by (rewrite repeat_length; symmetry; exact El). rewrite Ec.
      rewrite use_all_some. apply Hc. exact Hw.
  Qed.
End Malformed.

(** * The ascii export *)
Local Open Scope Z_scope.
Lemma excess_nonneg f n : 0 <= excess f n.
Proof. revert n. induction f as [|f IH]; intros n; cbn [excess]; [lia|]. destruct (n <? 1000000); [lia|]. specialize (IH (n / 10)). lia. Qed.
Lemma excess_small f n : n < 1000000 -> excess f n = 0.
Proof. intros H. destruct f; cbn [excess]; [reflexivity|]. apply Z.ltb_lt in H. rewrite H. reflexivity. Qed.
Lemma excess_bound f : forall n, 100000 <= n -> 100000 * 10 ^ excess f n <= n.
Proof.
  induction f as [|f IH]; intros n H; cbn [excess]; [cbn; lia|].
  destruct (Z.ltb_spec n 1000000); [cbn; lia|].
  assert (H1 : 100000 <= n / 10) by (apply Z.div_le_lower_bound; lia).
  specialize (IH _ H1). rewrite Z.pow_succ_r by apply excess_nonneg.
  pose proof (Z.mul_div_le n 10 ltac:(lia)). lia.
Qed.
Lemma round_to_1 n : round_to 1 n = n.
Proof. unfold round_to. rewrite Z.div_1_r, Z.mod_1_r. cbn. lia. Qed.
Lemma round_to_near m n : 0 < m -> 2 * Z.abs (round_to m n - n) <= m.
Proof.
  intros Hm. unfold round_to. pose proof (Z.div_mod n m ltac:(lia)) as E. pose proof (Z.mod_pos_bound n m Hm) as B.
  set (q := n / m) in *. set (r := n mod m) in *. clearbody q r. subst n.
  destruct (Z.ltb_spec (2 * r) m); [nia|]. destruct (Z.ltb_spec m (2 * r)); [nia|].
  destruct (Z.even q); nia.
Qed.
Lemma shown_small n : Z.abs n < 1000000 -> shown n = n.
Proof. intros H. unfold shown. rewrite excess_small by exact H. change (10 ^ 0) with 1. rewrite round_to_1. rewrite Z.mul_comm. apply Z.abs_sgn. Qed.
Lemma shown_close n : 200000 * Z.abs (shown n - n) <= Z.abs n.
Proof.
  destruct (Z_lt_ge_dec (Z.abs n) 1000000) as [H|H].
  { rewrite shown_small by exact H. rewrite Z.sub_diag. cbn. lia. }
  unfold shown. set (a := Z.abs n) in *. set (m := 10 ^ excess (Z.to_nat (Z.log2 a)) a).
  assert (Hm : 0 < m) by (apply Z.pow_pos_nonneg; [lia|apply excess_nonneg]).
  assert (Hb : 100000 * m <= a) by (apply excess_bound; lia).
  pose proof (round_to_near m a Hm) as Hr.
  assert (E : Z.abs (Z.sgn n * round_to m a - n) = Z.abs (round_to m a - a)).
  { subst a. destruct (Z.sgn_spec n) as [[? ->]|[[? ->]|[? ->]]]; lia. }
  rewrite E. lia.
Qed.
Lemma write_small A : (forall r, In r A -> forall n, In n r -> Z.abs n < 1000000) -> write_matrix A = A.
Proof.
  intros H. unfold write_matrix. rewrite <- map_id. apply map_ext_in. intros r Hr.
  rewrite <- map_id. apply map_ext_in. intros n Hn. apply shown_small. exact (H r Hr n Hn).
Qed.
Lemma write_not_injective : write_matrix [[1000001]] = write_matrix [[1000000]].
Proof. vm_compute. reflexivity. Qed.

(** Model of rom/impl/lspg_unsteady_reconstructor.hpp (LspgReconstructor) and of
    write_matrix_to_ascii, rom/linear_rom.hpp 26-45. No proofs in this file.

    Assertions are not checked (as with NDEBUG). Files are modelled by what reading
    them as text yields. *)
From Coq Require Import ZArith List Bool.
From Verif Require Import Base ExplicitModel ImplicitModel LspgModel.
Import ListNotations.

(** ** Reading, 56-83 *)
(** A line: the numbers it starts with, up to its end or to something that is not a
    number; or a line that starts with something that is not a number. *)
(* 67-68: a line as the istringstream reads it *)
Inductive fline (S : Type) := Numbers (l : list S) | NotANumber.
Arguments Numbers {S}. Arguments NotANumber {S}.

Section Read.
  Context {S X : Type} (o : sops S).
  (** stm >> time, 69, 72-73. On a blank line the extraction fails before it starts, and
      time keeps its indeterminate value ([None]); on a word it is set to zero. *)
  Definition line_time (l : fline S) : option S :=
    match l with
    | Numbers (t :: _) => Some t
    | Numbers [] => None
    | NotANumber => Some (s0 o)
    end.
  (** reduced_state(ext), 70, is not initialised *)
  (* 70-71, 75-76 *)
  Definition line_values (l : fline S) : list S := match l with Numbers (_ :: v) => v | _ => [] end.
  (** reduced_state[c++] = reduced_state_i, 75-78; Eigen and Kokkos do not check the index *)
  Fixpoint fill (cells : list (option S)) (v : list S) : outcome (list (option S)) :=
    match v, cells with
    | [], _ => Ok cells
    | _ :: _, [] => Undef UOutOfBounds
    | a :: v', _ :: cells' => match fill cells' v' with Ok l => Ok (Some a :: l) | r => r end
    end.
  (* 68-79 *)
  Definition read_line (ext : nat) (l : fline S) : outcome (option S * list (option S)) :=
    match fill (repeat None ext) (line_values l) with
    | Ok cells => Ok (line_time l, cells)
    | Throw e => Throw e | Undef u => Undef u | NoFuel => NoFuel
    end.
  (* 67-80 *)
  Fixpoint read_lines (ext : nat) (ls : list (fline S)) : outcome (list (option S * list (option S))) :=
    match ls with
    | [] => Ok []
    | l :: ls' =>
        match read_line ext l with
        | Ok r => match read_lines ext ls' with
                  | Ok rs => Ok (r :: rs)
                  | Throw e => Throw e | Undef u => Undef u | NoFuel => NoFuel
                  end
        | Throw e => Throw e | Undef u => Undef u | NoFuel => NoFuel
        end
    end.
  (** A file that cannot be opened ([None]) yields no lines: 61-62 only asserts *)
  Definition read_file (ext : nat) (file : option (list (fline S))) : outcome (list (option S * list (option S))) :=
    match file with Some ls => read_lines ext ls | None => Ok [] end.
  (** Using a value that was never set *)
  (* 302-304, 346-348 *)
  Definition use (x : option S) : outcome S := match x with Some a => Ok a | None => Undef UUninitialized end.
  (* 300, 306, 344, 350 *)
  Fixpoint use_all (l : list (option S)) : outcome (list S) :=
    match l with
    | [] => Ok []
    | Some a :: l' => match use_all l' with Ok v => Ok (a :: v) | r => r end
    | None :: _ => Undef UUninitialized
    end.
End Read.

(** ** Reconstruction *)
Section Recon.
  Context {S Y R J W : Type} (o : sops S).
  Variable recon : list S -> Y.      (* mapFromReducedState *)
  (** One evaluation: step number, t_n+1, dt, R, JTimesPhi, state_np1, state_n *)
  Variable eval : nat -> S -> S -> R -> J -> Y -> Y -> W -> outcome unit * (R * J * W).
  Variable writer : nat -> R -> J -> W -> outcome unit * W.
  (** The loop of 301-311 and 345-360; [told]: times[i-1], an element of the vector that
      is read only here *)
  Fixpoint recon_loop (rows : list (option S * list (option S))) (i : nat) (told : option S) (y_n : Y) (r : R) (j : J) (w : W)
    : outcome unit * W :=
    match rows with
    | [] => (Ok tt, w)
    | (tn, x) :: rows' =>
        match use told, use tn, use_all x with
        | Ok t_n, Ok t_np1, Ok xs =>
            let dt := ssub o t_np1 t_n in
            let y := recon xs in
            let '(e, (r', j', w1)) := eval i t_np1 dt r j y y_n w in
            match e with
            | Ok _ =>
                let '(e2, w2) := writer i r' j' w1 in
                match e2 with
                | Ok _ => recon_loop rows' (Datatypes.S i) tn y r' j' w2
                | _ => (e2, w2)
                end
            | _ => (e, w1)
            end
        | _, _, _ => (Undef UUninitialized, w)
        end
    end.
  (** execute..., 283-312, 323-361; [r0], [j0]: what the FOM's create functions returned.
      Writing row_map.txt (294, 336) is not modelled. *)
  Definition reconstruct (ext : nat) (file : option (list (fline S))) (r0 : R) (j0 : J) (w : W) : outcome unit * W :=
    match read_file o ext file with
    | Ok [] => (Undef UOutOfBounds, w)          (* reducedStates[0] *)
    | Ok ((t, x) :: rows) =>
        match use_all x with
        | Ok xs => recon_loop rows 1 t (recon xs) r0 j0 w
        | _ => (Undef UUninitialized, w)
        end
    | Throw e => (Throw e, w) | Undef u => (Undef u, w) | NoFuel => (NoFuel, w)
    end.
End Recon.

(** Semi-discrete FOM, 350-356: rhs, applyJacobian, discrete_residual for BDF1, and
    update(JTimesPhi, dt c_f, phi, 1). The scheme that was asked for is only asserted to
    be BDF1 (321). *)
Definition semi_discrete_eval {S Y J W} (o : sops S) (yo : vops S Y) (jo : vops S J)
  (fom : sfom (S:=S) (Y:=Y) (R:=Y) (J:=J) (B:=J) (W:=W)) (phi : J) (name : scheme)
  (i : nat) (t dt : S) (r : Y) (j : J) (y y_n : Y) (w : W) : outcome unit * (Y * J * W) :=
  let '(e1, (f, w1)) := fo_rhs fom y t r w in
  match e1 with
  | Ok _ =>
      let '(e2, (a, w2)) := fo_jac fom y phi t j w1 in
      match e2 with
      | Ok _ => (Ok tt, (dres_bdf1 o yo y f y_n dt, upd1 jo a (smul o dt (bdf1_c_f o)) phi (s1 o), w2))
      | _ => (e2, (f, a, w2))
      end
  | _ => (e1, (f, j, w1))
  end.
(** Fully discrete FOM with two states, 306-308 *)
Definition discrete_eval {S Y R J B W}
  (dfom : Z -> S -> S -> R -> B -> option J -> Y -> list Y -> W -> outcome unit * (R * option J * W)) (phi : B)
  (i : nat) (t dt : S) (r : R) (j : J) (y y_n : Y) (w : W) : outcome unit * (R * J * W) :=
  let '(e, (r', j', w')) := dfom (Z.of_nat i) t dt r phi (Some j) y [y_n] w in
  (e, (r', match mask (Some j) j' with Some a => a | None => j end, w')).

(** ** write_matrix_to_ascii, rom/linear_rom.hpp 26-45, and vectors, which are one
    column. file << A(i,j) prints with the stream's default precision of six significant
    digits. Modelled for entries that are whole numbers: [shown n] is the number that
    the text denotes (round to nearest, ties to even, as printf does). *)
(* model only: by how many digits a number has more than six *)
Fixpoint excess (fuel : nat) (n : Z) : Z :=
  match fuel with
  | O => 0
  | Datatypes.S f => if Z.ltb n 1000000 then 0 else Z.succ (excess f (Z.div n 10))
  end.
(* model only: a number rounded to a multiple *)
Definition round_to (m n : Z) : Z :=
  let q := Z.div n m in
  let r := Z.modulo n m in
  let q' := if Z.ltb (2 * r) m then q else if Z.ltb m (2 * r) then Z.succ q
            else if Z.even q then q else Z.succ q in
  Z.mul q' m.
(* rom/linear_rom.hpp 40 *)
Definition shown (n : Z) : Z :=
  let a := Z.abs n in
  Z.mul (Z.sgn n) (round_to (Z.pow 10 (excess (Z.to_nat (Z.log2 a)) a)) a).
(* rom/linear_rom.hpp 26-45 *)
Definition write_matrix (A : list (list Z)) : list (list Z) := map (map shown) A.

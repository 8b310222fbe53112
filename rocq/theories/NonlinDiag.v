(** Model of the enumerations, diagnostics container and logger of the nonlinear
    solvers. Paths are relative to include/pressio/solvers_nonlinear. *)
From Coq Require Import ZArith List Bool.
From Verif Require Import Base.
Import ListNotations.
Local Open Scope Z_scope.

(** solvers_nonlinear_enums_and_tags.hpp 54-64 *)
Inductive stop :=
| WhenAbsCorrection | WhenRelCorrection
| WhenAbsResidual | WhenRelResidual
| WhenAbsGradient | WhenRelGradient
| WhenAbsObjective | WhenRelObjective
| AfterMaxIters.

(** solvers_nonlinear_enums_and_tags.hpp 66-73 *)
Inductive update :=
| UStandard | UArmijo | UBacktrack | ULMSchedule1 | ULMSchedule2 | UCustom.

(** solvers_nonlinear_enums_and_tags.hpp 75-85 *)
Inductive diag :=
| CorrectionAbs | CorrectionRel | ResidualAbs | ResidualRel
| GradientAbs | GradientRel | ObjectiveAbs | ObjectiveRel
| InvalidDiag.
(** == of the enumeration, as used by std::find and std::unique (impl/diagnostics.hpp 115, 146) *)
Definition diag_eq_dec : forall a b : diag, {a = b} + {a <> b}.
Proof. decide equality. Defined.
(** the same as a bool: impl/diagnostics.hpp 115, 146 *)
Definition diag_eqb (a b : diag) : bool := if diag_eq_dec a b then true else false.

(** impl/diagnostics.hpp 12-18 *)
Inductive idiag := ICorrection | IResidual | IGradient | IObjective | IInvalid.
(** == of the enumeration: impl/diagnostics.hpp 124, 169 *)
Definition idiag_eq_dec : forall a b : idiag, {a = b} + {a <> b}.
Proof. decide equality. Defined.
(** the same as a bool: impl/diagnostics.hpp 124, 169 *)
Definition idiag_eqb (a b : idiag) : bool := if idiag_eq_dec a b then true else false.

(** solvers_nonlinear_enums_and_tags.hpp 103-117 *)
Definition is_absolute (d : diag) : bool :=
  match d with
  | CorrectionRel => false | CorrectionAbs => true
  | ResidualRel => false | ResidualAbs => true
  | GradientRel => false | GradientAbs => true
  | ObjectiveAbs => true | ObjectiveRel => false
  | InvalidDiag => true
  end.

(** solvers_nonlinear_enums_and_tags.hpp 154-169 *)
Definition stop_diag (s : stop) : diag :=
  match s with
  | WhenAbsCorrection => CorrectionAbs
  | WhenRelCorrection => CorrectionRel
  | WhenAbsResidual => ResidualAbs
  | WhenRelResidual => ResidualRel
  | WhenAbsGradient => GradientAbs
  | WhenRelGradient => GradientRel
  | WhenAbsObjective => ObjectiveAbs
  | WhenRelObjective => ObjectiveRel
  | AfterMaxIters => InvalidDiag
  end.

(** impl/diagnostics.hpp 37-60 *)
Definition to_internal (d : diag) : idiag :=
  match d with
  | CorrectionRel | CorrectionAbs => ICorrection
  | ResidualRel | ResidualAbs => IResidual
  | GradientRel | GradientAbs => IGradient
  | ObjectiveRel | ObjectiveAbs => IObjective
  | InvalidDiag => IInvalid
  end.

(** impl/diagnostics.hpp 65-94: one tracked quantity *)
Record ddata (S : Type) := mk_ddata { d_name : idiag; d_abs : S; d_rel : S; d_ref : S }.
Arguments mk_ddata {S}. Arguments d_name {S}. Arguments d_abs {S}. Arguments d_rel {S}. Arguments d_ref {S}.

(** impl/diagnostics.hpp 96-102. The unordered_map is an association list. *)
Record dcont (S : Type) := mk_dcont {
  dc_data : list (ddata S); dc_pub : list diag; dc_int : list idiag; dc_map : list (diag * nat) }.
Arguments mk_dcont {S}. Arguments dc_data {S}. Arguments dc_pub {S}. Arguments dc_int {S}. Arguments dc_map {S}.

Section Container.
  Context {S : Type} (o : sops S).

  (** impl/diagnostics.hpp 65-78: values are zero-initialised *)
  Definition d_new (i : idiag) : ddata S := mk_ddata i (s0 o) (s0 o) (s0 o).
  (** impl/diagnostics.hpp 84-93 *)
  Definition d_update (d : ddata S) (v : S) (first : bool) : ddata S :=
    if first then mk_ddata (d_name d) v (sdiv o v v) v
    else mk_ddata (d_name d) v (sdiv o v (d_ref d)) (d_ref d).
  (** getAbsolute or getRelative, as chosen at impl/diagnostics.hpp 260-262 and in
      the mustStop lambdas of both solving loops *)
  Definition d_value (p : diag) (d : ddata S) : S := if is_absolute p then d_abs d else d_rel d.

  (** std::unique and erase, impl/diagnostics.hpp 115-116: drops elements equal to their predecessor *)
  Fixpoint unique (l : list diag) : list diag :=
    match l with
    | a :: ((b :: _) as t) => if diag_eqb a b then unique t else a :: unique t
    | _ => l
    end.
  (** std::find, impl/diagnostics.hpp 124, 169, as the index found *)
  Fixpoint find_idx (i : idiag) (l : list idiag) : option nat :=
    match l with
    | [] => None
    | a :: t => if idiag_eqb a i then Some O
                else match find_idx i t with Some n => Some (Datatypes.S n) | None => None end
    end.
  (** the lookup of the unordered_map, impl/diagnostics.hpp 165 *)
  Fixpoint assoc (d : diag) (m : list (diag * nat)) : option nat :=
    match m with
    | [] => None
    | (a, n) :: t => if diag_eqb a d then Some n else assoc d t
    end.
  (** unordered_map::insert, impl/diagnostics.hpp 126, 131: an existing key keeps its value *)
  Definition map_insert (d : diag) (n : nat) (m : list (diag * nat)) : list (diag * nat) :=
    match assoc d m with Some _ => m | None => m ++ [(d, n)] end.

  (** impl/diagnostics.hpp 118-133: the loop body; [length (dc_int c)] is count *)
  Definition prepare_one (c : dcont S) (p : diag) : dcont S :=
    let i := to_internal p in
    match find_idx i (dc_int c) with
    | Some n => mk_dcont (dc_data c) (dc_pub c) (dc_int c) (map_insert p n (dc_map c))
    | None => mk_dcont (dc_data c ++ [d_new i]) (dc_pub c) (dc_int c ++ [i])
                       (map_insert p (length (dc_int c)) (dc_map c))
    end.
  (** impl/diagnostics.hpp 108-135 *)
  Definition prepare (pub : list diag) : dcont S :=
    let pub' := unique pub in
    fold_left prepare_one pub' (mk_dcont [] pub' [] []).

  (** impl/diagnostics.hpp 145-148 *)
  Definition dc_contains (c : dcont S) (d : diag) : bool := existsb (diag_eqb d) (dc_pub c).
  (** impl/diagnostics.hpp 155-160 *)
  Definition add_if_unsupported (c : dcont S) (d : diag) : dcont S :=
    if dc_contains c d then c else prepare (dc_pub c ++ [d]).

  (** impl/diagnostics.hpp 164-166: unordered_map::at throws std::out_of_range *)
  Definition dc_at (c : dcont S) (d : diag) : outcome (ddata S) :=
    match assoc d (dc_map c) with
    | None => Throw EOutOfRange
    | Some n => match nth_error (dc_data c) n with Some x => Ok x | None => Undef UOutOfBounds end
    end.
  (** impl/diagnostics.hpp 168-172: index = data_.size() if absent *)
  Definition dc_iat (c : dcont S) (i : idiag) : outcome (ddata S) :=
    match find_idx i (dc_int c) with
    | None => Undef UOutOfBounds
    | Some n => match nth_error (dc_data c) n with Some x => Ok x | None => Undef UOutOfBounds end
    end.
  (** a write through the reference into data_ returned at impl/diagnostics.hpp 171 *)
  Fixpoint set_nth {A} (n : nat) (a : A) (l : list A) : list A :=
    match n, l with
    | O, _ :: t => a :: t
    | Datatypes.S m, b :: t => b :: set_nth m a t
    | _, [] => []
    end.
  (** impl/diagnostics.hpp 168-172, as the target of .update(v, first), 84-93 *)
  Definition dc_iupdate (c : dcont S) (i : idiag) (v : S) (first : bool) : outcome (dcont S) :=
    match find_idx i (dc_int c) with
    | None => Undef UOutOfBounds
    | Some n => match nth_error (dc_data c) n with
                | Some x => Ok (mk_dcont (set_nth n (d_update x v first) (dc_data c))
                                         (dc_pub c) (dc_int c) (dc_map c))
                | None => Undef UOutOfBounds
                end
    end.

  (** The constructors of both solvers add the metric of the default stop
      criterion. impl/nonlinear_least_squares.hpp 125-152, impl/root_finder.cpp
      303-326 (whose asserts are not modelled; they hold of the container made by
      create_newton_solver) *)
  Definition make_container (diags : list diag) : dcont S :=
    add_if_unsupported (prepare diags) (stop_diag WhenAbsCorrection).
  (** solvers_create_gauss_newton.hpp, solvers_create_levenberg_marquardt.hpp:
      defaultDiagnostics *)
  Definition ls_diags : list diag :=
    [ObjectiveAbs; ObjectiveRel; ResidualAbs; ResidualRel;
     CorrectionAbs; CorrectionRel; GradientAbs; GradientRel].
  (** solvers_create_newton.hpp 116-120, 140-144 *)
  Definition root_diags : list diag := [ResidualAbs; ResidualRel; CorrectionAbs; CorrectionRel].

  (** impl/diagnostics.hpp 252-289: the values one logger call prints, in order *)
  Fixpoint logged (c : dcont S) (l : list diag) : outcome (list (diag * S)) :=
    match l with
    | [] => Ok []
    | d :: t =>
        match dc_at c d with
        | Ok x => match logged c t with Ok r => Ok ((d, d_value d x) :: r) | e => e end
        | Throw e => Throw e
        | Undef b => Undef b
        | NoFuel => NoFuel
        end
    end.
  (** impl/diagnostics.hpp 228-250. With a number of diagnostics that is not 1..11
      nothing is printed (the runtime_error of 248 is constructed but not thrown). *)
  Definition log_line (c : dcont S) : outcome (list (diag * S)) :=
    let n := length (dc_pub c) in
    if (Nat.leb 1 n && Nat.leb n 11)%bool then logged c (dc_pub c) else Ok [].
End Container.

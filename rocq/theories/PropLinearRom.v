(** C39: linear reduced operators. [dot] is the inner product of the FOM, linear in its second argument;
    [lb], [rb]: the columns of L and R; [AR0], [As0]: what the FOM's create functions returned. *)
From Coq Require Import ZArith List Bool QArith Qcanon.
From Verif Require Import Base QcInst Laws LawInst LinearRomModel LinearRomSpec LinearRomProofs LinearRomWitness.
Import ListNotations.

(** C39. A_r x + s_r + b_r = L^T apply(R x + shift). The three parts are L^T A R, L^T A shift and L^T b. *)
Theorem C39_linear_operator :
  forall (S V W : Type) (o : sops S) (vo : vops S V), sfield o -> vspace o vo ->
  forall dot : V -> V -> S,
  (forall l u v, dot l (vadd vo u v) = sadd o (dot l u) (dot l v)) ->
  (forall l a v, dot l (vscale vo a v) = smul o a (dot l v)) ->
  forall apply (good : W -> Prop) A b, applies vo good apply A b -> linear vo vo A ->
  forall lb rb shift AR0 As0 w, length AR0 = length rb -> good w ->
  exists m M, create_reduced_linear_operator o vo dot apply lb rb shift AR0 As0 w = (Ok tt, m) /\
    operators m = (Some M, Some (tested dot lb (A shift)), Some (tested dot lb b)) /\ good (m_w m) /\
    (forall x, length x = length rb -> mat_times o M x = tested dot lb (A (combine_cols vo rb x))) /\
    (forall x, length x = length rb ->
       plus o (plus o (mat_times o M x) (tested dot lb (A shift))) (tested dot lb b) =
       tested dot lb (vadd vo (A (vadd vo (combine_cols vo rb x) shift)) b)).
Proof. exact @linear_operator_ok. Qed.
Print Assumptions C39_linear_operator.

(** For apply(v) = A v the matrix operator gives A_r and s_r with A_r x + s_r = L^T apply(R x + shift). Missing: the
    third vector it returns, which should be zero, was never written ([None]). *)
Theorem C39_matrix_operator_partial :
  forall (S V W : Type) (o : sops S) (vo : vops S V), sfield o -> vspace o vo ->
  forall dot : V -> V -> S,
  (forall l u v, dot l (vadd vo u v) = sadd o (dot l u) (dot l v)) ->
  (forall l a v, dot l (vscale vo a v) = smul o a (dot l v)) ->
  forall apply (good : W -> Prop) A b, applies vo good apply A b -> linear vo vo A ->
  forall lb rb shift AR0 As0 w, b = vzero vo -> length AR0 = length rb -> good w ->
  exists m M, create_reduced_matrix_operator o vo dot apply lb rb shift AR0 As0 w = (Ok tt, m) /\
    operators m = (Some M, Some (tested dot lb (A shift)), None) /\ good (m_w m) /\
    (forall x, length x = length rb -> mat_times o M x = tested dot lb (A (combine_cols vo rb x))) /\
    (forall x, length x = length rb ->
       plus o (mat_times o M x) (tested dot lb (A shift)) = tested dot lb (A (vadd vo (combine_cols vo rb x) shift))).
Proof. exact @matrix_operator_ok. Qed.
Print Assumptions C39_matrix_operator_partial.

(** The full statement is false of the matrix operator: there need not be a forcing to add. *)
Theorem C39_matrix_forcing_refuted :
  ~ (forall (A : Qc * Qc -> Qc * Qc), linear lw_v lw_v A ->
     forall apply, applies lw_v (fun _ : unit => True) apply A (vzero lw_v) ->
     forall lb rb shift AR0 As0, length AR0 = length rb ->
     exists m M s f, create_reduced_matrix_operator QcS lw_v lw_dot apply lb rb shift AR0 As0 tt = (Ok tt, m) /\
       operators m = (Some M, Some s, Some f) /\
       (forall x, length x = length rb ->
          plus QcS (plus QcS (mat_times QcS M x) s) f =
          tested lw_dot lb (A (vadd lw_v (combine_cols lw_v rb x) shift)))).
Proof. exact matrix_forcing_refuted. Qed.
Print Assumptions C39_matrix_forcing_refuted.

(** If the FOM's apply fails, so does the creation, in the same way; there are no other failures. *)
Theorem C39_failure :
  forall (S V W : Type) (o : sops S) (vo : vops S V) (dot : V -> V -> S)
    (apply : V -> V -> W -> outcome unit * (V * W)) solve lb rb shift AR0 As0 w e m,
  length AR0 = length rb -> create_linear o vo dot apply solve lb rb shift AR0 As0 w = (e, m) -> e <> Ok tt ->
  fails_with apply e.
Proof. exact @create_fails. Qed.
Print Assumptions C39_failure.

(** The vector operator is L^T evaluate(), or the failure of evaluate(). *)
Theorem C39_vector_operator :
  forall (S V W : Type) (dot : V -> V -> S) (evaluate : W -> outcome V * W) lb w,
  create_reduced_vector_operator dot evaluate lb w =
  (match fst (evaluate w) with Ok v => Ok (tested dot lb v) | Throw x => Throw x | Undef u => Undef u | NoFuel => NoFuel end,
   snd (evaluate w)).
Proof. exact @vector_operator_ok. Qed.
Print Assumptions C39_vector_operator.

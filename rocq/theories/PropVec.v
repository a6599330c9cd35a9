(** Property C07, continued: what histories of a sparse vector show.

    [do_vops]: the calls of the program (Spec.v).  [win_vops]: a vector that reads zero beyond the number of its non-zero
    entries, and does not take a zero there (VecHist.v).  [orderly]: a non-zero value is written beyond that number only if
    everything from there on is zero.  [made os i v]: [v] is zero, or written at [i], or made at [i] by the functions of Updates.
    [ascending_vector]: see C08. *)
From Verif Require Import GoBase Num SparseVec Csr Csc DenseVec DenseMat Mat Spec VecHist VecHistProofs Witness VecHistWitness.
Import ListNotations.

(** writing in order, gaps allowed: exactly what is shown.  ([C07_sparse_vector_is_map_partial] is the case without gaps.) *)

Theorem C07_orderly_exact_partial : forall N L,
  zero_ok N -> 0 <= L ->
  exists s : svec N, NewSparseVector L = Ok s /\
  forall os, orderly L (fun _ => n0) os ->
    let '(m, outs) := do_vops (MSV s) os in
    let '(g, outs') := win_vops L (fun _ => n0) os in
    outs = outs' /\ ascending_vector m L g.
Proof. exact @sv_orderly. Qed.
Print Assumptions C07_orderly_exact_partial.

Example C07_orderly_case : orderly 6 (fun _ => n0) in_order_ops /\
  snd (win_vops 6 (fun _ => n0) in_order_ops) =
    [Done; Done; Value (gi 0); Done; Done; Value (gi 5); Done; Done; Value (gi 7); Done; Value (gi 9); Done; Flag false; Flag false].
Proof. exact in_order_case. Qed.

(** any history: a position shows only values made at that position *)

Theorem C07_values_stay_at_their_position : forall N L (os : list (@vop N)) (s : svec N) m outs i v,
  NewSparseVector L = Ok s -> do_vops (MSV s) os = (m, outs) ->
  (mat_AtVec m i = Ok v -> made os i v) /\
  (forall fuel l, loop_Next fuel m (mat_iterator m) = Ok l -> In (i, 0, v) l -> made os i v).
Proof. exact @sv_made. Qed.
Print Assumptions C07_values_stay_at_their_position.

(** but not the last of them: a value written over with zero comes back *)

Theorem C07_zero_written_is_read_refuted :
  exists (s : svec num_goint), NewSparseVector 5 = Ok s /\
  snd (do_vops (MSV s) [VSetVec 3 (gi 7); VSetVec 3 (gi 0); VAtVec 3; VSetVec 0 (gi 1); VSetVec 1 (gi 1); VAtVec 3])
  = [Done; Done; Value (gi 0); Done; Done; Value (gi 7)].
Proof. exact sv_stale. Qed.
Print Assumptions C07_zero_written_is_read_refuted.

(** and a position can show twice in the enumeration, with an old and a new value *)

Theorem C07_enumerated_once_refuted :
  exists (s : svec num_goint), NewSparseVector 5 = Ok s /\
  let m := fst (do_vops (MSV s) [VSetVec 3 (gi 7); VSetVec 3 (gi 8); VSetVec 0 (gi 1)]) in
  loop_Next 5 m (mat_iterator m) = Ok [(0, 0, gi 1); (3, 0, gi 7); (3, 0, gi 8)] /\ mat_AtVec m 3 = Ok (gi 7).
Proof. exact sv_twice. Qed.
Print Assumptions C07_enumerated_once_refuted.

(** out of order, a position within the number of entries can be missed *)

Theorem C07_window_refuted :
  exists (s : svec num_goint), NewSparseVector 6 = Ok s /\
  snd (do_vops (MSV s) [VSetVec 5 (gi 1); VSetVec 3 (gi 7); VSetVec 4 (gi 1); VSetVec 2 (gi 1); VSetVec 0 (gi 1); VAtVec 3])
  = [Done; Done; Done; Done; Done; Value (gi 0)].
Proof. exact sv_missed. Qed.
Print Assumptions C07_window_refuted.

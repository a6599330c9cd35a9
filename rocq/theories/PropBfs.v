(** Properties of breadth-first search (breadthfirst): C43, C44, C65.

    [Search E a s c] returns the result together with the vectors the callback [c]
    was shown.  [finds n right c tr res]: at most [n] vectors are shown, the d-th
    is [right d], the search stops at the first accepted vector and returns it, and
    if none is accepted, [n] vectors are shown and the result is zero.
    [is_level f n s d v]: [v] is positive at the vertices at distance [d] from [s]
    in the graph with an edge from [j] to [i] for every positive cell (i,j), and
    zero elsewhere.  [counting N]: exact arithmetic.  [is_level_until E w f n s d v]:
    the same where the entry was written before the context of [E] was cancelled
    ([asked n d i] questions after the start), zero where not.  *)
From Coq Require Import String.
From Verif Require Import GoBase Num SparseVec Csr Csc DenseVec DenseMat Mat World Ops Spec Api Bfs.
From Verif Require Import OpsProps Witness StoreWitness OpsWitness MathThms NumProofs BfsProofs BfsThms BfsCut.
Import ListNotations.

(** ** C43: the levels are the distances *)

Theorem C43_levels : forall N E (w : world N) (a : ptr) S n f s c,
  sane N -> counting N -> e_ctx E = None -> n <= Z.of_nat (e_fuel E) ->
  reachable w -> obj w a S -> is_dense S -> denotes S n n f -> 0 <= s < n ->
  (forall i j, 0 <= i < n -> 0 <= j < n -> weight (f i j)) ->
  exists w' q res tr, Search E a s c w = (w', Ok (q, tr)) /\ extends w w' /\ (forall x, ~ obj w q x) /\ obj w' q res /\
    finds n (is_level f n s) c tr res.
Proof. exact @bfs_dense. Qed.
Print Assumptions C43_levels.

Theorem C43_bad_arguments_panic : forall N E (w : world N) (a : ptr) S s c,
  sane N -> reachable w -> obj w a S ->
  ~ (0 <= s < mat_Rows S) \/ mat_Rows S <> mat_Columns S -> snd (Search E a s c w) = Panic.
Proof. exact @bfs_panics. Qed.
Print Assumptions C43_bad_arguments_panic.

Theorem C43_exact_types : counting num_Z /\ counting num_Qc.
Proof. exact (conj counting_Z counting_Qc). Qed.
Print Assumptions C43_exact_types.

Example C43_case : reachable zw /\ obj zw 0 zoG /\ denotes zoG 7 7 (cell_of zdG) /\
  (forall i j, 0 <= i < 7 -> 0 <= j < 7 -> weight (cell_of zdG i j)) /\
  vectors (snd (Search E0 0 3 (fun d _ => Nat.eqb d 3) zw)) =
    Ok [[1; 0; 1; 0; 0; 0; 0]; [0; 1; 0; 0; 0; 1; 0]; [0; 0; 0; 0; 1; 0; 1]] /\
  vectors (snd (Search E0 0 3 never zw)) =
    Ok [[1; 0; 1; 0; 0; 0; 0]; [0; 1; 0; 0; 0; 1; 0]; [0; 0; 0; 0; 1; 0; 1];
        [0; 0; 0; 0; 0; 0; 0]; [0; 0; 0; 0; 0; 0; 0]; [0; 0; 0; 0; 0; 0; 0]; [0; 0; 0; 0; 0; 0; 0]].
Proof.
  split; [exact zw_reachable|]. split; [exact zb|]. split; [exact zg|]. split; [exact zg_weight|].
  split; vm_compute; reflexivity.
Qed.

(** ** C44: false of the code.  A search on sparse storage follows the edges that the
    rows show ([seen_graph]); it is right if every row is packed.  Fixed-width
    integers are right as long as every count of walks fits. *)

Theorem C44_seen_graph_partial : forall N E (w : world N) (a : ptr) S n f s c,
  sane N -> counting N -> e_ctx E = None -> n <= Z.of_nat (e_fuel E) ->
  reachable w -> obj w a S -> denotes S n n f -> 0 <= s < n ->
  (forall i j, 0 <= i < n -> 0 <= j < n -> weight (seen_graph S n f i j)) ->
  exists w' q res tr, Search E a s c w = (w', Ok (q, tr)) /\ extends w w' /\ (forall x, ~ obj w q x) /\ obj w' q res /\
    finds n (is_level (seen_graph S n f) n s) c tr res.
Proof. exact @bfs_seen. Qed.
Print Assumptions C44_seen_graph_partial.

Theorem C44_packed_rows_partial : forall N E (w : world N) (a : ptr) S n f s c,
  sane N -> counting N -> e_ctx E = None -> n <= Z.of_nat (e_fuel E) ->
  reachable w -> obj w a S -> is_sparse_matrix S -> denotes S n n f -> 0 <= s < n ->
  (forall i j, 0 <= i < n -> 0 <= j < n -> weight (f i j)) -> (forall i, 0 <= i < n -> packed n (f i)) ->
  exists w' q res tr, Search E a s c w = (w', Ok (q, tr)) /\ extends w w' /\ (forall x, ~ obj w q x) /\ obj w' q res /\
    finds n (is_level f n s) c tr res.
Proof. exact @bfs_packed. Qed.
Print Assumptions C44_packed_rows_partial.

Theorem C44_fixed_width_partial : forall name sg bits E (w : world (num_int name sg bits) ) (a : ptr) S n A f s c,
  In (num_int name sg bits) go_ints -> 0 < bits -> 1 <= A -> room sg bits ((n * A) ^ n) ->
  e_ctx E = None -> n <= Z.of_nat (e_fuel E) ->
  reachable w -> obj w a S -> is_dense S -> denotes S n n f -> 0 <= s < n ->
  (forall i j, 0 <= i < n -> 0 <= j < n -> 0 <= wval (f i j) <= A) ->
  exists w' q res tr, Search E a s c w = (w', Ok (q, tr)) /\ extends w w' /\ (forall x, ~ obj w q x) /\ obj w' q res /\
    finds n (fun d v => is_level (N := num_int name sg bits) f n s d v /\ forall i, 0 <= i < n -> wval (v i) = exact_level f n s d i) c tr res.
Proof. exact @bfs_fixed. Qed.
Print Assumptions C44_fixed_width_partial.

Theorem C44_sparse_refuted :
  ~ levels_always (fun N S => is_sparse_matrix S) (fun N => In N go_ints).
Proof. exact bfs_sparse_no. Qed.
Print Assumptions C44_sparse_refuted.

Theorem C44_fixed_width_refuted :
  ~ levels_always (fun N S => is_dense S) (fun N => In N go_ints).
Proof. exact bfs_uint8_no. Qed.
Print Assumptions C44_fixed_width_refuted.

Example C44_case : reachable bfsw /\ obj bfsw 0 oG /\ denotes oG 7 7 (cell_of dG) /\ room true 64 ((7 * 1) ^ 7) /\
  obj bfsw 3 oPack /\ denotes oPack 3 3 (cell_of dPack) /\
  vectors (snd (Search E0 3 2 never bfsw)) = Ok (map (map gi) [[0; 1; 0]; [1; 0; 0]; [0; 0; 0]]) /\
  vectors (snd (Search E0 1 2 never bfsw)) = Ok (map (map gi) [[0; 0; 0]; [0; 0; 0]; [0; 0; 0]]) /\
  vectors (snd (Search E0 2 2 never bfsw)) = Ok (map (map gi) [[1; 0; 0]; [0; 0; 0]; [0; 0; 0]]).
Proof.
  split; [exact bfsw_reachable|]. split; [exact b0|]. split; [exact g0|]. split; [vm_compute; reflexivity|].
  split; [exact b3|]. split; [exact g3|]. repeat split; vm_compute; reflexivity.
Qed.
Example C44_packed_case : forall i, 0 <= i < 3 -> packed 3 (cell_of dPack i).
Proof.
  intros i Hi l Hl Hn. assert (i = 0 \/ i = 1 \/ i = 2) as [-> |[-> | ->]] by lia; assert (l = 0 \/ l = 1 \/ l = 2) as [-> |[-> | ->]] by lia;
    try discriminate Hn; vm_compute; discriminate.
Qed.

(** ** C65: a search whose context is cancelled *)

Theorem C65_cancelled_search : forall N E (w : world N) (a : ptr) S n f s c,
  sane N -> counting N -> n <= Z.of_nat (e_fuel E) ->
  reachable w -> obj w a S -> is_dense S -> denotes S n n f -> 0 <= s < n ->
  (forall i j, 0 <= i < n -> 0 <= j < n -> weight (f i j)) ->
  exists w' q res tr, Search E a s c w = (w', Ok (q, tr)) /\ extends w w' /\ (forall x, ~ obj w q x) /\ obj w' q res /\
    finds n (is_level_until E w f n s) c tr res.
Proof. exact @cut_dense. Qed.
Print Assumptions C65_cancelled_search.

Theorem C65_cancelled_search_seen : forall N E (w : world N) (a : ptr) S n f s c,
  sane N -> counting N -> n <= Z.of_nat (e_fuel E) ->
  reachable w -> obj w a S -> denotes S n n f -> 0 <= s < n ->
  (forall i j, 0 <= i < n -> 0 <= j < n -> weight (seen_graph S n f i j)) ->
  exists w' q res tr, Search E a s c w = (w', Ok (q, tr)) /\ extends w w' /\ (forall x, ~ obj w q x) /\ obj w' q res /\
    finds n (is_level_until E w (seen_graph S n f) n s) c tr res.
Proof. exact @cut_seen. Qed.
Print Assumptions C65_cancelled_search_seen.

Example C65_case : reachable zw /\ obj zw 0 zoG /\ denotes zoG 7 7 (cell_of zdG) /\
  (forall i j, 0 <= i < 7 -> 0 <= j < 7 -> weight (cell_of zdG i j)) /\
  vectors (snd (Search (Ecancel 83) 0 3 never zw)) =
    Ok [[1; 0; 1; 0; 0; 0; 0]; [0; 1; 0; 0; 0; 0; 0]; [0; 0; 0; 0; 0; 0; 0];
        [0; 0; 0; 0; 0; 0; 0]; [0; 0; 0; 0; 0; 0; 0]; [0; 0; 0; 0; 0; 0; 0]; [0; 0; 0; 0; 0; 0; 0]] /\
  asked 7 2 1 = 70%nat /\ asked 7 2 5 = 98%nat /\ in_time (Ecancel 83) zw 70 = true /\ in_time (Ecancel 83) zw 98 = false.
Proof.
  split; [exact zw_reachable|]. split; [exact zb|]. split; [exact zg|]. split; [exact zg_weight|].
  repeat split; vm_compute; reflexivity.
Qed.

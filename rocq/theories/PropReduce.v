(** Properties of the reductions (operators.go:573-646, binaryop/monoID.go):
    C32-C34, C59.

    [steps s mo k can n (start w) y] says that [n] atomic steps of the three
    goroutines lead from the start of the call
    [ReduceMatrixToScalarWithMonoID(ctx, s, mo, k)] in heap [w] to the state [y];
    with [can = true] the context may be cancelled at any moment.  [enumerates m L]:
    iterating over [m] yields [L].  [uncovered cov L]: the values in [L] the mask
    leaves.  [fold_res op u l] is the left fold of an operator that may panic.  *)
From Coq Require Import String.
From Verif Require Import GoBase Num SparseVec Csr Csc DenseVec DenseMat Mat World Ops Spec Api ReduceConc.
From Verif Require Import OpsProps MaskThms Witness StoreWitness OpsWitness ReduceProofs ReduceVec ReduceSv ReduceWitness MapZeroWitness.
Import ListNotations.

(** ** C32: whatever the interleaving, the call ends after a bounded number of steps with the left fold *)

Theorem C32_every_schedule : forall N (w : world N) (s : ptr) m mo k L,
  sane N -> reachable w -> obj w s m ->
  mask_dims w k (mat_Rows m) (mat_Columns m) -> enumerates m L -> (forall a b, mo_op mo a b <> Diverge) ->
  forall n y, steps s mo k false n (start w) y ->
    (n <= 6 * length L + 15)%nat /\ st_world y = w /\
    (forall v, st_caller y = CReturned v -> fold_res (mo_op mo) (mo_unit mo) (uncovered (covers w k) L) = Ok v) /\
    ((exists z, step s mo k false y z) \/
     (exists v, fold_res (mo_op mo) (mo_unit mo) (uncovered (covers w k) L) = Ok v /\ finished y v) \/
     (fold_res (mo_op mo) (mo_unit mo) (uncovered (covers w k) L) = Panic /\ st_crashed y = true)).
Proof. exact @reduce_all_schedules. Qed.
Print Assumptions C32_every_schedule.

Theorem C32_sequential_value : forall N E (w : world N) (s : ptr) m mo k L,
  sane N -> reachable w -> obj w s m ->
  mask_dims w k (mat_Rows m) (mat_Columns m) -> enumerates m L -> e_ctx E = None -> mat_Values m <= Z.of_nat (e_fuel E) ->
  ReduceMatrixToScalarWithMonoID E s mo k w = (w, fold_res (mo_op mo) (mo_unit mo) (uncovered (covers w k) L)).
Proof. exact @reduce_value. Qed.
Print Assumptions C32_sequential_value.

Example C32_case : reachable negw /\ obj negw 0 oNeg /\ mask_dims negw MNil 2 2 /\
  enumerates oNeg [(0, 0, gi (-3)); (0, 1, gi 2); (1, 0, gi (-1)); (1, 1, gi (-5))] /\
  fold_res (mo_op (DefaultMonoIDAddition)) (mo_unit DefaultMonoIDAddition)
    (uncovered (covers negw MNil) [(0, 0, gi (-3)); (0, 1, gi 2); (1, 0, gi (-1)); (1, 1, gi (-5))]) = Ok (gi (-7)) /\
  snd (ReduceMatrixToScalar E0 0 MNil negw) = Ok (gi (-7)).
Proof. split; [exact negw_reachable|]. split; [exact hNeg|]. split; [exact I|]. split; [exact neg_entries|]. split; vm_compute; reflexivity. Qed.

(** ** C33: false of the code: a cancelled reduction may block for ever.  If it
    returns, it returns the complete fold. *)

Theorem C33_never_a_partial_result_partial : forall N (w : world N) (s : ptr) m mo k L,
  sane N -> reachable w -> obj w s m ->
  mask_dims w k (mat_Rows m) (mat_Columns m) -> enumerates m L -> (forall a b, mo_op mo a b <> Diverge) ->
  forall n y, steps s mo k true n (start w) y ->
    (n <= 6 * length L + 16)%nat /\ st_world y = w /\
    (forall v, st_caller y = CReturned v -> fold_res (mo_op mo) (mo_unit mo) (uncovered (covers w k) L) = Ok v) /\
    ((exists z, step s mo k true y z) \/
     (exists v, fold_res (mo_op mo) (mo_unit mo) (uncovered (covers w k) L) = Ok v /\ finished y v) \/
     (fold_res (mo_op mo) (mo_unit mo) (uncovered (covers w k) L) = Panic /\ st_crashed y = true) \/
     blocked y).
Proof. exact @reduce_cancellable. Qed.
Print Assumptions C33_never_a_partial_result_partial.

Theorem C33_returns_refuted : forall N (w : world N) (s : ptr) m mo k L,
  sane N -> reachable w -> obj w s m ->
  mask_dims w k (mat_Rows m) (mat_Columns m) -> enumerates m L -> L <> [] ->
  exists n y, steps s mo k true n (start w) y /\ blocked y /\
    forall n' z, steps s mo k true n' y z -> st_caller z = CRecv.
Proof. exact @reduce_lost. Qed.
Print Assumptions C33_returns_refuted.

Example C33_case : exists n y, steps 0%nat DefaultMonoIDAddition MNil true n (start negw) y /\ blocked y /\
  forall n' z, steps 0%nat DefaultMonoIDAddition MNil true n' y z -> st_caller z = CRecv.
Proof. exact (reduce_lost negw 0%nat oNeg DefaultMonoIDAddition MNil _ goint_sane negw_reachable hNeg I neg_entries ltac:(discriminate)). Qed.

(** ** C34: false of the code for columns without a non-negative entry: the fold
    starts at zero. *)

Theorem C34_columns_fold_partial : forall N E (w : world N) (s : ptr) m mo g k R C f,
  sane N -> reachable w -> obj w s m -> not_sparse_vector m ->
  denotes m R C f -> mask_dims w k R 1 -> (forall a b, mo_op mo a b = Ok (g a b)) ->
  e_ctx E = None -> R <= Z.of_nat (e_fuel E) ->
  exists w' q v, ReduceMatrixToVectorWithMonoID E s mo k w = (w', Ok q) /\ extends w w' /\ ~ (exists x, obj w q x) /\ obj w' q v /\
    is_dense v /\ vdenotes v C (fun c => fold_left g (uncovered (covers w k) (column_elements m R (fun r => f r c))) (mo_unit mo)).
Proof. exact @reduce_columns. Qed.
Print Assumptions C34_columns_fold_partial.

Theorem C34_maximum_of_column_and_zero_partial : forall N E (w : world N) (s : ptr) m R C f,
  sane N -> eq_ok N -> order_ok N -> reachable w -> obj w s m -> not_sparse_vector m ->
  denotes m R C f -> e_ctx E = None -> R <= Z.of_nat (e_fuel E) ->
  exists w' q v g, ReduceMatrixToVector E s w = (w', Ok q) /\ extends w w' /\ ~ (exists x, obj w q x) /\ obj w' q v /\ vdenotes v C g /\
    forall c, 0 <= c < C ->
      (forall r, 0 <= r < R -> nltb (g c) (f r c) = false) /\ nltb (g c) n0 = false /\
      (g c = n0 \/ exists r, 0 <= r < R /\ g c = f r c) /\
      ((exists r, 0 <= r < R /\ nltb (f r c) n0 = false) -> exists r, 0 <= r < R /\ g c = f r c).
Proof. exact @reduce_maximum. Qed.
Print Assumptions C34_maximum_of_column_and_zero_partial.

Theorem C34_integer_types_partial : forall N E (w : world N) (s : ptr) (m : mat N) R C f,
  In N go_ints -> reachable w -> obj w s m -> not_sparse_vector m ->
  denotes m R C f -> e_ctx E = None -> R <= Z.of_nat (e_fuel E) ->
  exists w' q v g, ReduceMatrixToVector E s w = (w', Ok q) /\ extends w w' /\ ~ (exists x, obj w q x) /\ obj w' q v /\ vdenotes v C g /\
    forall c, 0 <= c < C ->
      (forall r, 0 <= r < R -> nltb (g c) (f r c) = false) /\ nltb (g c) n0 = false /\
      (g c = n0 \/ exists r, 0 <= r < R /\ g c = f r c) /\
      ((exists r, 0 <= r < R /\ nltb (f r c) n0 = false) -> exists r, 0 <= r < R /\ g c = f r c).
Proof. exact @reduce_maximum_ints. Qed.
Print Assumptions C34_integer_types_partial.

Theorem C34_sparse_vector_fold_partial : forall N E (w : world N) (s : ptr) a mo g k L,
  sane N -> reachable w -> obj w s (MSV a) -> enumerates (MSV a) L ->
  mask_dims w k (mat_Rows (MSV a)) 1 -> (forall x y, mo_op mo x y = Ok (g x y)) ->
  e_ctx E = None -> mat_Values (MSV a) <= Z.of_nat (e_fuel E) ->
  exists w' q v, ReduceMatrixToVectorWithMonoID E s mo k w = (w', Ok q) /\ extends w w' /\ ~ (exists x, obj w q x) /\ obj w' q v /\
    is_dense v /\ vdenotes v 1 (fun _ => fold_left g (uncovered (covers w k) L) (mo_unit mo)).
Proof. exact @reduce_sparse_vector. Qed.
Print Assumptions C34_sparse_vector_fold_partial.

Theorem C34_sparse_vector_maximum_partial : forall N E (w : world N) (s : ptr) a L,
  sane N -> order_ok N -> reachable w -> obj w s (MSV a) -> enumerates (MSV a) L ->
  e_ctx E = None -> mat_Values (MSV a) <= Z.of_nat (e_fuel E) ->
  exists w' q v g, ReduceMatrixToVector E s w = (w', Ok q) /\ extends w w' /\ ~ (exists x, obj w q x) /\ obj w' q v /\ vdenotes v 1 (fun _ => g) /\
    (forall r c x, In (r, c, x) L -> nltb g x = false) /\ nltb g n0 = false /\ (g = n0 \/ exists r c, In (r, c, g) L).
Proof. exact @reduce_sparse_vector_maximum. Qed.
Print Assumptions C34_sparse_vector_maximum_partial.

Example C34_sparse_vector_case : reachable demo /\ obj demo 4 (MSV demo4) /\ enumerates (MSV demo4) [(0, 0, gi 4); (1, 0, gi 6)] /\
  snd (ReduceMatrixToVector E0 4 demo) = Ok (length (w_heap demo)) /\
  cells (fst (ReduceMatrixToVector E0 4 demo)) (length (w_heap demo)) 1 1 = [Ok (gi 6)].
Proof. split; [exact demo_reachable|]. split; [exact demo_obj4|]. split; [exact enum_demo4|]. split; vm_compute; reflexivity. Qed.

Example C34_case : reachable negw /\ obj negw 0 oNeg /\ denotes oNeg 2 2 (cell_of dNeg) /\
  snd (ReduceMatrixToVector E0 0 negw) = Ok 2%nat /\
  cells (fst (ReduceMatrixToVector E0 0 negw)) 2 2 1 = [Ok (gi 0); Ok (gi 2)].
Proof. split; [exact negw_reachable|]. split; [exact hNeg|]. split; [exact tNeg|]. split; vm_compute; reflexivity. Qed.

Theorem C34_maximum_refuted :
  ~ (forall N E (w : world N) (s : ptr) m R C f,
      sane N -> eq_ok N -> order_ok N -> reachable w -> obj w s m -> is_dense m -> denotes m R C f ->
      e_ctx E = None -> R <= Z.of_nat (e_fuel E) -> 0 < R ->
      exists w' q v g, ReduceMatrixToVector E s w = (w', Ok q) /\ obj w' q v /\ vdenotes v C g /\
        forall c, 0 <= c < C -> exists r, 0 <= r < R /\ g c = f r c).
Proof. exact maximum_no. Qed.
Print Assumptions C34_maximum_refuted.

(** ** C59: false of the code: when the mask does not fit, the caller panics after the
    reducer was started, and the reducer never ends.  With a fitting mask, cancelled or
    not, the goroutines end once the call has returned. *)

Theorem C59_after_return_partial : forall N (w : world N) (s : ptr) m mo k L,
  sane N -> reachable w -> obj w s m ->
  mask_dims w k (mat_Rows m) (mat_Columns m) -> enumerates m L -> (forall a b, mo_op mo a b <> Diverge) ->
  forall can n y v, steps s mo k can n (start w) y -> st_caller y = CReturned v ->
  forall n' z, steps s mo k can n' y z ->
    (n + n' <= 6 * length L + 16)%nat /\ st_caller z = CReturned v /\ st_crashed z = false /\
    ((exists z', step s mo k can z z') \/ finished z v).
Proof. exact @reduce_after_return. Qed.
Print Assumptions C59_after_return_partial.

Theorem C59_mask_mismatch_leaks_refuted : forall N (w : world N) (s : ptr) m mo k,
  sane N -> reachable w -> obj w s m ->
  ~ mask_dims w k (mat_Rows m) (mat_Columns m) -> (forall a b, exists c, mo_op mo a b = Ok c) ->
  (exists n y, steps s mo k false n (start w) y /\ st_caller y = CPanicked) /\
  forall can n y, steps s mo k can n (start w) y -> (forall v, st_caller y <> CReturned v) /\ st_crashed y = false /\
    (st_caller y = CPanicked -> (exists a, st_reducer y = RSelect a) \/ (exists a v, st_reducer y = RApply a v) \/ (exists a, st_reducer y = ROut a)).
Proof. exact @reduce_mask_leak. Qed.
Print Assumptions C59_mask_mismatch_leaks_refuted.

Example C59_case : reachable negw /\ obj negw 0 oNeg /\ ~ mask_dims negw (MEmpty 2 3) (mat_Rows oNeg) (mat_Columns oNeg) /\
  (forall a b, exists c, mo_op (@DefaultMonoIDAddition num_goint) a b = Ok c).
Proof. split; [exact negw_reachable|]. split; [exact hNeg|]. split; [intros [_ H]; discriminate H|]. intros a b. eexists. reflexivity. Qed.
Example C59_return_case : exists n y v, steps 0%nat DefaultMonoIDAddition MNil false n (start negw) y /\ st_caller y = CReturned v.
Proof.
  destruct (reduce_returns negw 0%nat oNeg DefaultMonoIDAddition MNil _ (gi (-7)) goint_sane negw_reachable hNeg I neg_entries ltac:(discriminate) ltac:(vm_compute; reflexivity))
    as (n & y & H & F). exists n, y, (gi (-7)). split; [exact H|apply F].
Qed.

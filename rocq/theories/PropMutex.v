(** Properties of MutexMatrix: C49, C50, C60.

    [run (begin m progs) h x]: goroutines with programs [progs] start on a MutexMatrix
    wrapping [m]; [x] is a state they reach in some interleaving; [h] lists the calls in
    the order in which they got their locks.  [inside x i k]: in [x] goroutine [i] is in
    call [k], between getting and releasing its lock.  [sequential h m]: the object left
    and the results given by making the calls [h] on [m] one after the other ([None]: the
    call panicked).  [of_goroutine i l]: the entries of [l] that belong to goroutine [i].
    [guarded]: every method except Clear, Values and the iterators of Enumerate and Map. *)
From Coq Require Import Permutation.
From Verif Require Import GoBase Num SparseVec Csr Csc DenseVec DenseMat Mat World Ops Spec Api Mutex MutexNest.
From Verif Require Import StoreWitness NumProofs MutexProofs MutexThms MutexWitness MutexNestProofs Witness.
Import ListNotations.

(** ** C49: writers are alone, and every execution is a sequential one *)

Theorem C49_mutual_exclusion : forall N (m : mat N) k k',
  may_overlap m k k' <-> ~ kept_apart k k'.
Proof. exact @overlap_exact. Qed.
Print Assumptions C49_mutual_exclusion.

Theorem C49_sequential : forall N (w : world N) p (m : mat N) progs h x,
  sane N -> reachable w -> obj w p m -> all_calls guarded progs ->
  run (begin m progs) h x -> idle x ->
  fst (sequential h m) = s_mat x /\
  (forall i, outcomes x i = of_goroutine i (snd (sequential h m))) /\
  (forall i g, nth_error (s_gs x) i = Some g -> nth i progs [] = of_goroutine i h ++ g_todo g).
Proof. exact @linearizable. Qed.
Print Assumptions C49_sequential.

Theorem C49_results_so_far : forall N (w : world N) p (m : mat N) progs h x,
  sane N -> reachable w -> obj w p m -> all_calls guarded progs ->
  run (begin m progs) h x -> forall i, exists rest, of_goroutine i (snd (sequential h m)) = outcomes x i ++ rest /\ (length rest <= 1)%nat.
Proof. exact @linearizable_prefix. Qed.
Print Assumptions C49_results_so_far.

Theorem C49_whole_programs : forall N (w : world N) p (m : mat N) progs h x,
  sane N -> reachable w -> obj w p m -> all_calls guarded progs ->
  run (begin m progs) h x -> all_done x -> interleaves h progs.
Proof. exact @complete. Qed.
Print Assumptions C49_whole_programs.

Theorem C49_lock_released : forall {N} (m : mat N) progs h x,
  run (begin m progs) h x -> idle x -> s_rw x = MkRW 0 false.
Proof. exact @idle_lock_free. Qed.
Print Assumptions C49_lock_released.

Theorem C49_no_deadlock : forall N (w : world N) p (m : mat N) progs h x,
  sane N -> reachable w -> obj w p m -> all_calls guarded progs -> all_calls ends progs ->
  run (begin m progs) h x -> all_done x \/ exists lb y, step x lb y.
Proof. exact @no_deadlock. Qed.
Print Assumptions C49_no_deadlock.

Theorem C49_finite : forall N (m : mat N) progs n x,
  steps n (begin m progs) x -> (n <= 5 * length (concat progs))%nat.
Proof. exact @finite_execution. Qed.
Print Assumptions C49_finite.

(** no update is lost: concurrent additions to one cell add up *)

Theorem C49_no_lost_update : forall N (w : world N) p (m : mat N) R C f r c ds h x,
  sane N -> eq_ok N -> ring_ok N -> reachable w -> obj w p m -> not_sparse_vector m ->
  denotes m R C f -> 0 <= r < R -> 0 <= c < C ->
  run (begin m (map (map (add_to r c)) ds)) h x -> all_done x ->
  denotes (s_mat x) R C (fun i j => if (i =? r) && (j =? c) then sum_all (f r c) (concat ds) else f i j).
Proof. exact @no_lost_update. Qed.
Print Assumptions C49_no_lost_update.

Example C49_case : reachable demo /\ obj demo 0 (MCSR demo0) /\ all_calls guarded progs49 /\ all_calls ends progs49 /\
  exists h x, run (begin (MCSR demo0) progs49) h x /\
  summary x [(2, 1); (2, 3)] = (true, [Ok (gi 41); Ok (gi (-1))], [[inr true; inl (gi 41)]; [inl (gi 7); inr false]; [inr false; inr true]]).
Proof. split; [exact demo_reachable|]. split; [exact demo_obj0|]. split; [apply progs49_ok|]. split; [apply progs49_ok|]. exact run49. Qed.

(** ** C50: false of the code.  Clear takes the read lock; Values, Enumerate and Map take none. *)

Theorem C50_clear_refuted :
  ~ (forall N (m : mat N) (k : mcall N), ~ may_overlap m MClear k).
Proof. exact clear_not_exclusive. Qed.
Print Assumptions C50_clear_refuted.

Theorem C50_map_outcome_refuted :
  ~ (forall N (w : world N) p m progs h x, sane N -> reachable w -> obj w p m -> run (begin m progs) h x -> all_done x ->
       exists h', interleaves h' progs /\ fst (sequential h' m) = s_mat x).
Proof. exact map_not_sequential. Qed.
Print Assumptions C50_map_outcome_refuted.

Theorem C50_iteration_never_excluded_refuted : forall N (m : mat N) (k k' : mcall N),
  unlocked k -> may_overlap m k k'.
Proof. exact @iteration_never_exclusive. Qed.
Print Assumptions C50_iteration_never_excluded_refuted.

Theorem C50_clear_excludes_writers_partial : forall N (m : mat N) (k : mcall N),
  may_overlap m MClear k <-> ~ is_write k.
Proof. exact @clear_excludes_writers. Qed.
Print Assumptions C50_clear_excludes_writers_partial.

Example C50_case : reachable mapw /\ obj mapw 0 mapm /\ exists h x, run (begin mapm progs50) h x /\ summary x [(0, 0)] = (true, [Ok (gi 2)], [[inr true]; [inr true]]).
Proof. split; [exact mapw_reachable|]. split; [exact mapw_obj|]. exact run50. Qed.

(** ** C60: false of the code.  Update holds the write lock while the caller's function runs:
    if this function calls a locking method of the same matrix, the call never ends, whatever
    else happens; two matrices updated by functions that read each other can wait for each
    other.  It holds if calls made in the meantime are on matrices that come later in some
    order, in particular if there are none. *)

Theorem C60_update_uses_itself_refuted : forall progs i p l w inner more x,
  nth_error progs i = Some (NCall true l (NCall w l inner :: more) :: p) -> nrun (nbegin progs) x ->
  exists g, nth_error (n_gs x) i = Some g /\ n_acts g <> [].
Proof. exact @update_uses_itself. Qed.
Print Assumptions C60_update_uses_itself_refuted.

Theorem C60_two_matrices_refuted :
  exists x, nrun (nbegin [[NCall true 0 [NCall false 1 []]]; [NCall true 1 [NCall false 0 []]]]) x /\ deadlocked x.
Proof. exact cross_deadlock. Qed.
Print Assumptions C60_two_matrices_refuted.

Theorem C60_read_in_read_refuted :
  exists x, nrun (nbegin [[NCall false 0 [NCall false 0 []]]; [NCall true 0 []]]) x /\ deadlocked x.
Proof. exact self_deadlock. Qed.
Print Assumptions C60_read_in_read_refuted.

Theorem C60_ordered_partial : forall progs x,
  Forall (Forall ordered_call) progs -> nrun (nbegin progs) x -> ~ deadlocked x.
Proof. exact @ordered_no_deadlock. Qed.
Print Assumptions C60_ordered_partial.

Theorem C60_ordered_ends_partial : forall progs x,
  Forall (Forall ordered_call) progs -> nrun (nbegin progs) x -> exists y, nrun x y /\ n_done y.
Proof. exact @ordered_ends. Qed.
Print Assumptions C60_ordered_ends_partial.

Theorem C60_steps_bounded : forall progs n x,
  nrun_in (nbegin progs) n x -> (n <= 2 * tot (fun g => length (n_acts g)) (n_gs (nbegin progs)))%nat.
Proof. exact @steps_bounded. Qed.
Print Assumptions C60_steps_bounded.

Theorem C60_no_calls_inside_partial : forall progs x,
  Forall (Forall flat_call) progs -> nrun (nbegin progs) x -> ~ deadlocked x.
Proof. exact @flat_no_deadlock. Qed.
Print Assumptions C60_no_calls_inside_partial.

Example C60_case : Forall (Forall ordered_call) [[NCall true 0 [NCall false 1 []; NCall true 2 [NCall false 3 []]]; NCall true 0 []]; [NCall true 1 []]; [NCall false 1 [NCall true 2 []]]].
Proof. repeat (constructor; cbn; auto with arith). Qed.

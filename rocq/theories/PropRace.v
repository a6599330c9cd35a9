(** Properties of MutexMatrix, memory access by memory access: C68, C69.

    [arun (abegin m progs) tr y]: goroutines with programs [progs] start on a MutexMatrix
    wrapping [m]; [y] is a state they reach in some interleaving of their reads and writes of
    the wrapped struct and its slices; [tr] lists these, and the lock operations, in order.
    [race tr a b]: the events [a] and [b] of [tr] are accesses of two goroutines to one
    location, one of them a write, that are not ordered by the Go memory model (program order
    and the RWMutex).  [can_race m k1 k2]: some execution of two goroutines calling [k1] and
    [k2] on [m] has a race.  [order tr]: the calls in the order in which they got their locks.
    [one_by_one h m]: the object left and the results given by making the calls [h] on [m] one
    after the other ([None]: the call panicked).  [flat m]: the fields and slices of [m].
    [race_safe]: on dense storage every method but Clear; on sparse storage every method but
    Clear, Values, At and (CSR, CSC) Element.  [locked_call]: every method but Clear and Values. *)
From Verif Require Import GoBase Num SparseVec Csr Csc DenseVec DenseMat Mat World Ops Api Mutex.
From Verif Require Import MatProofs Spec StoreThms Witness NumProofs StoreWitness MutexProofs MutexThms Access AccessProofs AccessConc AccessRace AccessClash AccessSim AccessThms AccessWitness.
Import ListNotations.

(** ** C68: false of the code.  At and Element of the sparse types write the value they find back
    into its place, under the read lock: two readers of one stored cell race.  Clear writes under
    the read lock, and a reader that meets a half-cleared matrix panics; Values reads the length
    of a slice without a lock.  Everything else is free of races. *)

Theorem C68_readers_only_refuted :
  ~ (forall N (w : world N) p (m : mat N) progs tr x a b, sane N -> reachable w -> obj w p m ->
  (forall q k, List.In q progs -> List.In k q -> exists r c, k = WAt r c) -> arun (abegin m progs) tr x -> ~ race tr a b).
Proof. exact not_race_free. Qed.
Print Assumptions C68_readers_only_refuted.

Theorem C68_readers_race_refuted : forall N (w : world N) p (m : mat N) r c v m' k1 k2,
  sane N -> reachable w -> obj w p m -> sparse m -> mat_At m r c = Ok (v, m') -> isz v = false ->
  reader_of m k1 r c -> reader_of m k2 r c -> can_race m k1 k2.
Proof. exact @readers_race_at. Qed.
Print Assumptions C68_readers_race_refuted.

Theorem C68_values_race_refuted : forall N (w : world N) p (m : mat N) r c v m',
  sane N -> reachable w -> obj w p m -> sparse m -> mat_Set m r c v = Ok m' -> mat_Values m' <> mat_Values m ->
  can_race m (WSet r c v) WValues.
Proof. exact @values_race_at. Qed.
Print Assumptions C68_values_race_refuted.

Theorem C68_clears_race_refuted : forall N (w : world N) p (m : mat N),
  sane N -> reachable w -> obj w p m -> can_race m WClear WClear.
Proof. exact @clears_race_at. Qed.
Print Assumptions C68_clears_race_refuted.

Theorem C68_clear_breaks_readers_refuted : forall N (w : world N) p (m : mat N) r c v m',
  sane N -> reachable w -> obj w p m -> mat_At m r c = Ok (v, m') ->
  match m with MDM _ => True | MDV _ => False | _ => isz v = false end ->
  exists tr y, arun (abegin m [[WClear]; [WAt r c]]) tr y /\ a_results y 1 = [(WAt r c, None)].
Proof. exact @clear_breaks_at. Qed.
Print Assumptions C68_clear_breaks_readers_refuted.

Theorem C68_no_other_race_partial : forall N (m : mat N) progs tr x a b i k (w : bool) l j k' w' l',
  arun (abegin m progs) tr x -> race tr a b ->
  nth_error tr a = Some (EAcc i k w l) -> nth_error tr b = Some (EAcc j k' w' l') ->
  ~ (race_safe (storage_of m) k /\ race_safe (storage_of m) k').
Proof. exact @race_blame. Qed.
Print Assumptions C68_no_other_race_partial.

Theorem C68_race_free_partial : forall N (m : mat N) progs tr x a b,
  arun (abegin m progs) tr x -> all_wcalls (race_safe (storage_of m)) progs -> ~ race tr a b.
Proof. exact @no_race. Qed.
Print Assumptions C68_race_free_partial.

Theorem C68_dense_partial : forall N (m : mat N) progs tr x a b,
  match m with MDM _ | MDV _ => True | _ => False end ->
  arun (abegin m progs) tr x -> all_wcalls (fun k => k <> WClear /\ match k with WReads p => nowrite p | _ => True end) progs -> ~ race tr a b.
Proof. exact @dense_no_race. Qed.
Print Assumptions C68_dense_partial.

Example C68_case : reachable demo /\ obj demo 0 (MCSR demo0) /\
  can_race (MCSR demo0) (WAt 2 1) (WElement 2 1) /\ can_race (MCSR demo0) (WSet 2 1 (gi 0)) WValues /\ can_race (MCSR demo0) WClear WClear.
Proof. split; [exact demo_reachable|]. split; [exact demo_obj0|exact case68]. Qed.
Example C68_safe_case : all_wcalls (race_safe (storage_of (MCSR demo0))) [[WSet 2 1 (gi 4); WRowsAt 2]; [WUpdate 2 1 (fun v => Some (nadd v v)); WColumns]; [WColumnsAt 1; WCopy]].
Proof. intros q k Hq Hk. cbn in Hq. repeat (destruct Hq as [<- |Hq]; [cbn in Hk; repeat (destruct Hk as [<- |Hk]; [exact I|]); destruct Hk|]). destruct Hq. Qed.

(** ** C69: with every memory access a step of its own, executions still have sequential outcomes *)

Theorem C69_method_alone : forall N (m : mat N) room k,
  zero_ok N -> wf m -> reads_only k ->
  prun (method (storage_of m) room k) (flat m) = (flat (next (plain_call k) m), outcome (plain_call k) m).
Proof. exact @method_does. Qed.
Print Assumptions C69_method_alone.

Theorem C69_sequential : forall N (w : world N) p (m : mat N) progs tr y,
  sane N -> reachable w -> obj w p m -> all_wcalls locked_call progs ->
  arun (abegin m progs) tr y -> a_idle y ->
  a_mem y = flat (fst (one_by_one (order tr) m)) /\
  (forall i, a_results y i = of_goroutine i (snd (one_by_one (order tr) m))) /\
  (forall i g, nth_error (a_gs y) i = Some g -> nth i progs [] = of_goroutine i (order tr) ++ ag_todo g).
Proof. exact @access_sequential. Qed.
Print Assumptions C69_sequential.

Theorem C69_results_so_far : forall N (w : world N) p (m : mat N) progs tr y,
  sane N -> reachable w -> obj w p m -> all_wcalls locked_call progs ->
  arun (abegin m progs) tr y ->
  forall i, exists rest, of_goroutine i (snd (one_by_one (order tr) m)) = a_results y i ++ rest /\ (length rest <= 1)%nat.
Proof. exact @access_prefix. Qed.
Print Assumptions C69_results_so_far.

Theorem C69_whole_programs : forall N (m : mat N) progs tr y,
  arun (abegin m progs) tr y -> a_done y -> interleaves (order tr) progs.
Proof. exact @access_complete. Qed.
Print Assumptions C69_whole_programs.

Theorem C69_lock_released : forall N (m : mat N) progs tr y,
  arun (abegin m progs) tr y -> a_idle y -> a_rw y = MkRW 0 false.
Proof. exact @access_lock_free. Qed.
Print Assumptions C69_lock_released.

Theorem C69_no_deadlock : forall N (w : world N) p (m : mat N) progs tr y,
  sane N -> reachable w -> obj w p m -> all_wcalls locked_call progs -> all_wcalls comes_to_end progs ->
  arun (abegin m progs) tr y -> a_done y \/ exists e z, astep y e z.
Proof. exact @access_no_deadlock. Qed.
Print Assumptions C69_no_deadlock.

Theorem C69_finite : forall N (s : nat -> astate N),
  ~ (forall n, exists e, astep (s n) e (s (Datatypes.S n))).
Proof. exact @access_finite. Qed.
Print Assumptions C69_finite.

Example C69_case : reachable demo /\ obj demo 0 (MCSR demo0) /\ all_wcalls locked_call progs69 /\ all_wcalls comes_to_end progs69 /\
  exists tr y, arun (abegin (MCSR demo0) progs69) tr y /\
  asummary (tr, y) = (true, [gi 5; gi 40; gi (-1)], 106%nat, [1; 0; 2; 1; 0; 2; 0; 2]%nat, [[inr true; inl (gi 8); inr true]; [inl (gi 7); inr false]; [inr false; inr true; inl (gi (-1))]]).
Proof. split; [exact demo_reachable|]. split; [exact demo_obj0|]. split; [apply progs69_ok|]. split; [apply progs69_ok|exact run69]. Qed.

(** Property C75: functions given to [Update] and [Map] that call the API themselves, or panic.

    [p_UpdateM], [p_MapM]: the methods with such a function (Callbacks.v).  [later P w w1]: [w1] comes from [w] by allowed
    calls.  [same_slot m l l1 q]: as many elements before position [q] as there were, and [q] is stored if it was.
    [put_at m l n z x]: the elements [l] after element number [n], which is [z], has been given the value [x].
    [follows], [shown], [number]: as in C74 (Iters.v). *)
From Coq Require Import String.
From Verif Require Import GoBase Num SparseVec Csr Csc DenseVec DenseMat Mat World Ops Spec Api.
From Verif Require Import StoreProofs StoreThms OpsProps Witness StoreWitness OpsWitness Iters IterThms IterWitness Callbacks CallbackProofs CallbackThms CallbackWitness.
Import ListNotations.

(** ** [Update].  A function that only computes: the [Update] of the other properties *)

Theorem C75_update_pure : forall N p r c (f : T N -> T N) (w : world N),
  p_UpdateM p r c (fun v => mret (f v)) w = p_Update p r c f w.
Proof. exact @update_pure. Qed.
Print Assumptions C75_update_pure.

(** out of range: the function is not called *)

Theorem C75_update_out_of_range : forall N p r c (f : T N -> M N (T N)) (w : world N) m,
  sane N -> reachable w -> obj w p m ->
  ~ (0 <= r < mat_Rows m /\ 0 <= c < mat_Columns m) -> p_UpdateM p r c f w = (w, Panic).
Proof. exact @update_outside. Qed.
Print Assumptions C75_update_out_of_range.

(** the function panics: what it has done stays, [Update] writes nothing *)

Theorem C75_update_function_panics : forall N p r c (f : T N -> M N (T N)) (w : world N) m v w1,
  sane N -> reachable w -> obj w p m ->
  0 <= r < mat_Rows m -> 0 <= c < mat_Columns m -> mat_At m r c = Ok (v, m) ->
  f v w = (w1, Panic) -> p_UpdateM p r c f w = (w1, Panic).
Proof. exact @update_panics. Qed.
Print Assumptions C75_update_function_panics.

Example C75_panics_case : exists (w w1 : world num_goint) (f : T num_goint -> M num_goint (T num_goint)) m v, reachable w /\ obj w 0 m /\ mat_At m 2 1 = Ok (v, m) /\ f v w = (w1, Panic) /\ p_At 0 2 3 w1 = (w1, Ok (gi 8)).
Proof. exact panics_case. Qed.

(** the function leaves the place alone: it gets the value [At] returns, then its result is [Set] *)

Theorem C75_update_then_set : forall N (P : world N -> Prop) p r c (f : T N -> M N (T N)) (w : world N) m l v w1 x m1 l1,
  sane N -> reachable w -> obj w p m -> enumerates m l ->
  0 <= r < mat_Rows m -> 0 <= c < mat_Columns m -> mat_At m r c = Ok (v, m) ->
  f v w = (w1, Ok x) -> later P w w1 -> obj w1 p m1 -> enumerates m1 l1 -> same_slot m l l1 (r, c) ->
  p_UpdateM p r c f w = p_Set p r c x w1.
Proof. exact @update_undisturbed. Qed.
Print Assumptions C75_update_then_set.

Example C75_undisturbed_case : exists (w w1 : world num_goint) f m l v x m1 l1, reachable w /\ obj w 0 m /\ enumerates m l /\ mat_At m 2 1 = Ok (v, m) /\
  f v w = (w1, Ok x) /\ later always w w1 /\ obj w1 0 m1 /\ enumerates m1 l1 /\ same_slot m l l1 (2, 1) /\ v = gi 7 /\ x = gi 8 /\
  l = [(0, 0, gi 5); (2, 1, gi 7); (2, 3, gi (-1))] /\ l1 = [(0, 0, gi 5); (2, 1, gi 7); (2, 3, gi 8)].
Proof. exact undisturbed_case. Qed.

(** otherwise, on CSR and CSC matrices, the element that has now the number of the one found is written *)

Theorem C75_update_shifted : forall N (P : world N -> Prop) p r c (f : T N -> M N (T N)) (w : world N) m l v w1 x m1 l1,
  sane N -> reachable w -> obj w p m -> enumerates m l ->
  0 <= r < mat_Rows m -> 0 <= c < mat_Columns m -> mat_At m r c = Ok (v, m) ->
  f v w = (w1, Ok x) -> later P w w1 -> obj w1 p m1 -> enumerates m1 l1 -> lined m = true ->
  (In (r, c) (map fst l) ->
    let n := length (filter (precedes m (r, c)) l) in
    match nth_error l1 n with
    | Some z => neqb x n0 = false \/ line_of m (fst z) = line_of m (r, c) ->
        exists m2, p_UpdateM p r c f w = (fst (store p m2 w1), Ok tt) /\ enumerates m2 (put_at m l1 n z x)
    | None => p_UpdateM p r c f w = (w1, Panic)
    end) /\
  (~ In (r, c) (map fst l) -> neqb x n0 = true -> exists w2, p_UpdateM p r c f w = (w2, Ok tt) /\ forall q mq, obj w2 q mq <-> obj w1 q mq).
Proof. exact @update_shifted. Qed.
Print Assumptions C75_update_shifted.

Example C75_shifted_case : exists (w w1 : world num_goint) f m l v x m1 l1, reachable w /\ obj w 0 m /\ enumerates m l /\ mat_At m 0 2 = Ok (v, m) /\
  f v w = (w1, Ok x) /\ later always w w1 /\ obj w1 0 m1 /\ enumerates m1 l1 /\ lined m = true /\ In (0, 2) (map fst l) /\
  nth_error l1 (length (filter (precedes m (0, 2)) l)) = Some (0, 0, gi 9) /\ x = gi 2.
Proof. exact shifted_case. Qed.

(** ** [Map], whatever has happened before, and whatever the function does *)

Theorem C75_map_exact : forall N (P : world N -> Prop) (w : world N) hs cs k p it cu m l (f : Z -> Z -> T N -> M N (T N)),
  sane N -> follows P w hs cs ->
  nth_error hs k = Some (p, it) -> nth_error cs k = Some (p, cu) -> obj w p m -> enumerates m l ->
  match shown m (cu_place cu) l with
  | Panic => p_MapM p it f w = (w, it, Panic)
  | Diverge => p_MapM p it f w = (w, it, Diverge)
  | Ok e => exists it', forall w1 out, f (fst (fst e)) (snd (fst e)) (snd e) w = (w1, out) -> later P w w1 ->
      follows P w1 (set_nth k (p, it') hs) (set_nth k (p, advance m cu l e) cs) /\
      match out with
      | Panic => p_MapM p it f w = (w1, it', Panic)
      | Diverge => p_MapM p it f w = (w1, it', Diverge)
      | Ok x => forall m1 l1, obj w1 p m1 -> enumerates m1 l1 ->
          match nth_error l1 (number m (cu_place cu) l e) with
          | None => p_MapM p it f w = (w1, it', Panic)
          | Some z => neqb x n0 = false \/ lined m = false \/ line_of m (fst z) = line_of m (fst e) ->
              exists m2, p_MapM p it f w = (fst (store p m2 w1), it', Ok tt) /\
                enumerates m2 (put_at m l1 (number m (cu_place cu) l e) z x) /\
                (P (fst (store p m2 w1)) -> follows P (fst (store p m2 w1)) (set_nth k (p, it') hs) (set_nth k (p, advance m cu l e) cs))
          end
      end
  end.
Proof. exact @map_calls. Qed.
Print Assumptions C75_map_exact.

Example C75_map_case : exists (w w1 : world num_goint) hs cs it cu m l (f : Z -> Z -> T num_goint -> M num_goint (T num_goint)) x e m1 l1,
  follows always w hs cs /\ nth_error hs 0 = Some (0%nat, it) /\ nth_error cs 0 = Some (0%nat, cu) /\ obj w 0 m /\ enumerates m l /\
  shown m (cu_place cu) l = Ok e /\ f (fst (fst e)) (snd (fst e)) (snd e) w = (w1, Ok x) /\ later always w w1 /\ obj w1 0 m1 /\ enumerates m1 l1 /\
  e = (0, 2, gi 1) /\ nth_error l1 (number m (cu_place cu) l e) = Some (0, 0, gi 9) /\ neqb x n0 = false.
Proof. exact calls_case. Qed.

(** ... with other iterators too *)

Theorem C75_map_write_exact : forall N (P : world N -> Prop) (w : world N) hs cs k p it cu m l seen e x,
  sane N -> follows P w hs cs ->
  nth_error hs k = Some (p, it) -> nth_error cs k = Some (p, cu) -> obj w p m -> enumerates m l -> cu_seen cu = seen ++ [e] ->
  match nth_error l (cu_spot cu) with
  | None => mat_map_put m it x = Panic
  | Some z => neqb x n0 = false \/ lined m = false \/ line_of m (fst z) = line_of m (fst e) ->
      exists m', mat_map_put m it x = Ok m' /\ enumerates m' (put_at m l (cu_spot cu) z x) /\
        (P (fst (store p m' w)) -> follows P (fst (store p m' w)) hs cs)
  end.
Proof. exact @write_back. Qed.
Print Assumptions C75_map_write_exact.

Example C75_write_case : exists (w : world num_goint) hs cs it cu m l seen e, follows always w hs cs /\ nth_error hs 0 = Some (0%nat, it) /\ nth_error cs 0 = Some (0%nat, cu) /\ obj w 0 m /\ enumerates m l /\
  cu_seen cu = seen ++ [e] /\ nth_error l (cu_spot cu) = Some (0, 0, gi 9) /\ e = (0, 2, gi 1) /\ length hs = 2%nat.
Proof. exact back_case. Qed.

(** the function changes values only: [Map] writes the element it has shown *)

Theorem C75_map_writes_what_it_showed : forall N p ps (w : world N) hs cs k it cu m l (f : Z -> Z -> T N -> M N (T N)) w1 x e m1 l1,
  sane N -> follows (keeps p ps) w hs cs ->
  nth_error hs k = Some (p, it) -> nth_error cs k = Some (p, cu) -> obj w p m -> enumerates m l -> zlen (cu_seen cu) < zlen ps ->
  nth_error l (length (cu_seen cu)) = Some e ->
  f (fst (fst e)) (snd (fst e)) (snd e) w = (w1, Ok x) -> later (keeps p ps) w w1 -> obj w1 p m1 -> enumerates m1 l1 ->
  exists v1 m2 it', nth_error l1 (length (cu_seen cu)) = Some (fst e, v1) /\ p_MapM p it f w = (fst (store p m2 w1), it', Ok tt) /\
    enumerates m2 (put_at m l1 (length (cu_seen cu)) (fst e, v1) x).
Proof. exact @map_changes_values. Qed.
Print Assumptions C75_map_writes_what_it_showed.

Example C75_values_case : exists (w w1 : world num_goint) hs cs it cu m l (f : Z -> Z -> T num_goint -> M num_goint (T num_goint)) x e m1 l1,
  follows (keeps 0 ps0) w hs cs /\ nth_error hs 0 = Some (0%nat, it) /\ nth_error cs 0 = Some (0%nat, cu) /\ obj w 0 m /\ enumerates m l /\
  zlen (cu_seen cu) < zlen ps0 /\ nth_error l (length (cu_seen cu)) = Some e /\ f (fst (fst e)) (snd (fst e)) (snd e) w = (w1, Ok x) /\
  later (keeps 0 ps0) w w1 /\ obj w1 0 m1 /\ enumerates m1 l1 /\ e = (2, 1, gi 7) /\ x = gi 8.
Proof. exact values_case. Qed.

(** ** A loop [for it.HasNext() { it.Map(f) }] whose function panics: the elements before are changed, that one and those after it are not *)

Theorem C75_loop_until_panic : forall N p g (f : Z -> Z -> T N -> M N (T N)) (w : world N) m l fuel,
  sane N -> reachable w -> obj w p m -> enumerates m l ->
  (forall i j v w, f i j v w = (w, g i j v)) ->
  (forall e x, In e l -> g (fst (fst e)) (snd (fst e)) (snd e) = Ok x -> sparse_obj m = false \/ neqb x n0 = false) ->
  (length l <= fuel)%nat ->
  exists w' m', p_MapAllM fuel p (mat_iterator m) f w = (w', snd (mapped_until g l)) /\ obj w' p m' /\ enumerates m' (fst (mapped_until g l)) /\ extends_but p w w'.
Proof. exact @map_loop_until. Qed.
Print Assumptions C75_loop_until_panic.

Example C75_loop_case : exists (w : world num_goint) m l (f : Z -> Z -> T num_goint -> M num_goint (T num_goint)) g, reachable w /\ obj w 0 m /\ enumerates m l /\ (forall i j v w, f i j v w = (w, g i j v)) /\
  (forall e x, In e l -> g (fst (fst e)) (snd (fst e)) (snd e) = Ok x -> sparse_obj m = false \/ neqb x n0 = false) /\
  mapped_until g l = ([(0, 0, gi 6); (2, 1, gi 7); (2, 3, gi 8)], Panic).
Proof. exact loop_case. Qed.

(** ** Hence [Update] is not [At], the function, [Set] (the function sets an element before) ... *)

Theorem C75_update_is_set_refuted :
  ~ (forall N (P : world N -> Prop) p r c (f : T N -> M N (T N)) (w : world N) m v w1 x, sane N -> reachable w -> obj w p m ->
  0 <= r < mat_Rows m -> 0 <= c < mat_Columns m -> mat_At m r c = Ok (v, m) -> f v w = (w1, Ok x) -> later P w w1 ->
  p_UpdateM p r c f w = p_Set p r c x w1).
Proof. exact update_is_set_no. Qed.
Print Assumptions C75_update_is_set_refuted.

(** ... the value may not be there afterwards (nothing was stored there) ... *)

Theorem C75_update_reads_back_refuted :
  ~ (forall N (P : world N -> Prop) p r c (f : T N -> M N (T N)) (w : world N) m v w1 x w2, sane N -> reachable w -> obj w p m ->
  0 <= r < mat_Rows m -> 0 <= c < mat_Columns m -> mat_At m r c = Ok (v, m) -> f v w = (w1, Ok x) -> later P w w1 ->
  p_UpdateM p r c f w = (w2, Ok tt) -> snd (p_At p r c w2) = Ok x).
Proof. exact update_reads_back_no. Qed.
Print Assumptions C75_update_reads_back_refuted.

(** ... [Map] may write another element ... *)

Theorem C75_map_writes_shown_refuted :
  ~ (forall N (P : world N -> Prop) p (f : Z -> Z -> T N -> M N (T N)) (w : world N) m it1 i j v w1 x w2 it2, sane N -> reachable w -> obj w p m ->
  mat_Next m (mat_iterator m) = Ok (i, j, v, it1) -> f i j v w = (w1, Ok x) -> later P w w1 -> neqb x n0 = false ->
  p_MapM p (mat_iterator m) f w = (w2, it2, Ok tt) -> snd (p_At p i j w2) = Ok x).
Proof. exact map_writes_shown_no. Qed.
Print Assumptions C75_map_writes_shown_refuted.

(** ... may make an element appear where none was set ... *)

Theorem C75_map_elsewhere_refuted :
  ~ (forall N (P : world N -> Prop) p (f : Z -> Z -> T N -> M N (T N)) (w : world N) m it1 i j v w1 x w2 it2 i' j', sane N -> reachable w -> obj w p m ->
  mat_Next m (mat_iterator m) = Ok (i, j, v, it1) -> f i j v w = (w1, Ok x) -> later P w w1 ->
  p_MapM p (mat_iterator m) f w = (w2, it2, Ok tt) -> snd (p_At p i' j' w1) = Ok n0 -> snd (p_At p i' j' w2) = Ok n0).
Proof. exact map_elsewhere_no. Qed.
Print Assumptions C75_map_elsewhere_refuted.

(** ... and may panic though its function does not (it removes the element) *)

Theorem C75_map_does_not_panic_refuted :
  ~ (forall N (P : world N -> Prop) p (f : Z -> Z -> T N -> M N (T N)) (w : world N) m it1 i j v w1 x, sane N -> reachable w -> obj w p m ->
  mat_Next m (mat_iterator m) = Ok (i, j, v, it1) -> f i j v w = (w1, Ok x) -> later P w w1 ->
  snd (p_MapM p (mat_iterator m) f w) = Ok tt).
Proof. exact map_panics_no. Qed.
Print Assumptions C75_map_does_not_panic_refuted.

(** Property C76: breadth-first search with a callback that acts.

    [SearchM E a s c st]: the search on graph [a] from [s] with a callback [c] that has captured variables (first [st]),
    and may call the API, change the vector it is given and the graph, and panic (BfsCall.v).  It returns the result, the
    variables at the end, and what happened in each round: the graph, the vector shown, the vector left, the answer.
    [confined]: the callback changes only objects it knows.  [goes_on]: each vector shown comes from what was left before.
    [called]: the rounds are calls of [c], one after the other.  [answered]: only the last answer is yes, and the result is
    what was left then, otherwise zero after [n] rounds.  [fails_as]: the search ends as the callback does.
    [finds], [is_level]: as in C43. *)
From Verif Require Import GoBase Num SparseVec Csr Csc DenseVec DenseMat Mat World Ops Spec Api Bfs.
From Verif Require Import OpsProps Witness StoreWitness OpsWitness BfsProofs BfsThms BfsCall BfsCallProofs BfsCallThms BfsCallWitness.
Import ListNotations.

(** ** Any callback *)

Theorem C76_search : forall N St E (w : world N) (a : ptr) (G : mat N) n s (knows : St -> ptr -> Prop) inv (c : St -> ptr -> M N (bool * St)) st,
  sane N -> e_ctx E = None -> reachable w ->
  obj w a G -> graph_of n G -> n <= Z.of_nat (e_fuel E) -> 0 <= s < n -> confined a n knows inv c ->
  (forall p, knows st p -> exists x, obj w p x) ->
  (forall q w1, (forall x, ~ obj w q x) -> extends w w1 -> inv q st w1) ->
  exists q, (forall x, ~ obj w q x) /\
  ((exists w' st' tr res, SearchM E a s c st w = (w', Ok (q, st', tr)) /\ reachable w' /\
      (forall p x, obj w p x -> ~ knows st p -> obj w' p x) /\ inv q st' w' /\ obj w' q res /\
      goes_on n (source s) (source s) tr /\ called a n q inv c st tr st' /\ answered n tr res) \/
   fails_as a n inv c (SearchM E a s c st w) q).
Proof. exact @searchM_run. Qed.
Print Assumptions C76_search.

Example C76_search_case : reachable zw /\ obj zw 0 zoG /\ graph_of 7 zoG /\ confined 0 7 (cut_knows 0) (cut_inv 0 7) (cut (N:=num_Z) 0 1 0 0) /\
  (forall q w1, (forall x, ~ obj zw q x) -> extends zw w1 -> cut_inv 0 7 q 0 w1) /\
  shown_in (snd (SearchM E0 0 3 (cut 0 1 0 0) 0%nat zw)) =
    Ok [[1; 0; 1; 0; 0; 0; 0]; [0; 0; 0; 0; 0; 1; 0]; [0; 0; 0; 0; 0; 0; 0]; [0; 0; 0; 0; 0; 0; 0];
        [0; 0; 0; 0; 0; 0; 0]; [0; 0; 0; 0; 0; 0; 0]; [0; 0; 0; 0; 0; 0; 0]].
Proof. exact cut_case. Qed.

Example C76_panic_case : snd (SearchM E0 0 3 (fun (st : nat) q => if Nat.eqb st 1 then mlift Panic else mret (false, S st)) 0%nat zw) = Panic.
Proof. exact panic_case. Qed.

(** ** A callback that copies each vector: the copies keep the levels *)

Theorem C76_copies_keep_levels : forall N E (w : world N) a G n f s stop,
  sane N -> counting N -> e_ctx E = None -> n <= Z.of_nat (e_fuel E) ->
  reachable w -> obj w a G -> is_dense G -> denotes G n n f -> 0 <= s < n ->
  (forall i j, 0 <= i < n -> 0 <= j < n -> weight (f i j)) ->
  exists w' q res st' tr, SearchM E a s (keep_copies stop) [] w = (w', Ok (q, st', tr)) /\ extends w w' /\ (forall x, ~ obj w q x) /\ obj w' q res /\
    finds n (is_level f n s) (fun d x => stop (Nat.pred d) x) (map snd st') res /\
    (forall p x, In (p, x) st' -> p <> q /\ obj w' p x).
Proof. exact @copies_search. Qed.
Print Assumptions C76_copies_keep_levels.

Example C76_copies_case : kept_in (SearchM E0 0 3 (keep_copies on) [] zw) =
    Ok [[1; 0; 1; 0; 0; 0; 0]; [0; 1; 0; 0; 0; 1; 0]; [0; 0; 0; 0; 1; 0; 1];
        [0; 0; 0; 0; 0; 0; 0]; [0; 0; 0; 0; 0; 0; 0]; [0; 0; 0; 0; 0; 0; 0]; [0; 0; 0; 0; 0; 0; 0]] /\
  kept_in (SearchM E0 0 3 (keep_copies (fun d _ => Nat.eqb d 1)) [] zw) = Ok [[1; 0; 1; 0; 0; 0; 0]; [0; 1; 0; 0; 0; 1; 0]].
Proof. exact copies_case. Qed.

(** ** A callback that sets the vertices [P] to zero: a search in the graph without the edges into [P] *)

Theorem C76_search_around : forall N E (w : world N) a G n f s P stop,
  sane N -> counting N -> e_ctx E = None -> n <= Z.of_nat (e_fuel E) ->
  reachable w -> obj w a G -> is_dense G -> denotes G n n f -> 0 <= s < n ->
  (forall i j, 0 <= i < n -> 0 <= j < n -> weight (f i j)) -> (forall i, In i P -> 0 <= i < n) ->
  exists w' q res k tr, SearchM E a s (prune P stop) 0%nat w = (w', Ok (q, k, tr)) /\ extends w w' /\ (forall x, ~ obj w q x) /\ obj w' q res /\
    k = length tr /\ answered n tr res /\
    forall e r, nth_error tr e = Some r -> r_answer r = stop e (r_shown r) /\
      (exists x, vdenotes (r_shown r) n x /\ shows_around (listed P) f n s e x) /\
      (exists y, vdenotes (r_left r) n y /\ is_level (without (listed P) f) n s (S e) y).
Proof. exact @prune_search. Qed.
Print Assumptions C76_search_around.

Example C76_around_case : (forall i, In i [2] -> 0 <= i < 7) /\
  shown_in (snd (SearchM E0 0 3 (prune [2] on) 0%nat zw)) =
    Ok [[1; 0; 1; 0; 0; 0; 0]; [0; 1; 0; 0; 0; 0; 0]; [0; 0; 0; 0; 1; 0; 1]; [0; 0; 1; 0; 0; 1; 0];
        [0; 0; 1; 0; 0; 0; 0]; [0; 0; 0; 0; 0; 0; 0]; [0; 0; 0; 0; 0; 0; 0]] /\
  left_in (snd (SearchM E0 0 3 (prune [2] on) 0%nat zw)) =
    Ok [[1; 0; 0; 0; 0; 0; 0]; [0; 1; 0; 0; 0; 0; 0]; [0; 0; 0; 0; 1; 0; 1]; [0; 0; 0; 0; 0; 1; 0];
        [0; 0; 0; 0; 0; 0; 0]; [0; 0; 0; 0; 0; 0; 0]; [0; 0; 0; 0; 0; 0; 0]].
Proof. exact prune_case. Qed.

(** ** A callback that keeps the vectors: they are one and the same object, the result *)

Theorem C76_kept_vectors_are_one : forall N E (w : world N) a G n f s stop,
  sane N -> e_ctx E = None -> n <= Z.of_nat (e_fuel E) ->
  reachable w -> obj w a G -> denotes G n n f -> 0 <= s < n ->
  exists w' q res st' tr, SearchM E a s (keep_vectors stop) [] w = (w', Ok (q, st', tr)) /\ (forall x, ~ obj w q x) /\ obj w' q res /\
    map snd st' = map r_shown tr /\ answered n tr res /\
    (forall p x, In (p, x) st' -> p = q /\ obj w' p res).
Proof. exact @vectors_search. Qed.
Print Assumptions C76_kept_vectors_are_one.

Example C76_kept_case : kept_in (SearchM E0 0 3 (keep_vectors (fun d _ => Nat.eqb d 1)) [] zw) = Ok [[0; 1; 0; 0; 0; 1; 0]; [0; 1; 0; 0; 0; 1; 0]] /\
  kept_in (SearchM E0 0 3 (keep_vectors on) [] zw) = Ok (repeat [0; 0; 0; 0; 0; 0; 0] 7).
Proof. exact vectors_case. Qed.

(** hence they do not stay as they were shown *)

Theorem C76_kept_vectors_stay_refuted :
  ~ kept_stay.
Proof. exact kept_stay_no. Qed.
Print Assumptions C76_kept_vectors_stay_refuted.

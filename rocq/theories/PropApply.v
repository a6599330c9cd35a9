(** Property C78: Apply (operators.go:323-366) with a function that keeps memory and may panic (ApplyMem.v).

    [reached E w L]: the elements of [L] the loop gets to before the context is done; all of them without cancellation.
    [chosen cov b L]: the elements at places where [cov] is [b].  [calls u st L]: the calls of [u], one after the other, until
    one panics or does not return: the memory afterwards, the results with their places, and how the last call ended.
    [answer xs r c]: the (last) result for a place.  *)
From Coq Require Import String.
From Verif Require Import GoBase Num SparseVec Csr Csc DenseVec DenseMat Mat World Ops Spec Api ApplyMem.
From Verif Require Import OpsProps Witness StoreWitness OpsWitness MapZeroThms MapZeroWitness ApplyMemThms ApplyMemWitness.
Import ListNotations.

Theorem C78_another_matrix : forall N A E (w : world N) (s : ptr) k t S O R C f h (u : unary N A) (st : A) L,
  sane N -> reachable w -> obj w s S -> obj w t O -> not_sparse_vector O ->
  denotes S R C f -> denotes O C R h -> mask_dims w k C R -> s <> t -> mask_not k t -> (R = C \/ forall p, k <> MObj p) ->
  mat_Values S <= Z.of_nat (e_fuel E) -> enumerates S L ->
  let '(st', xs, o) := calls u st (chosen (covers w k) false (reached E w L)) in
  exists w' O', ApplyS E s k u t st w = (st', w', o) /\ extends_but t w w' /\ obj w' t O' /\ same_storage O O' /\
    denotes O' C R (fun i j => match answer xs j i with Some x => Spec.kept O x | None => h i j end).
Proof. exact @apply_memory. Qed.
Print Assumptions C78_another_matrix.

Theorem C78_in_place : forall N A E (w : world N) (t : ptr) k O R C h (u : unary N A) (st : A) L,
  sane N -> reachable w -> obj w t O -> not_sparse_vector O -> denotes O R C h ->
  mask_dims w k R C -> (sparse_obj O = true -> makes_no_zero u) -> mat_Values O <= Z.of_nat (e_fuel E) -> enumerates O L ->
  let '(st', xs, o) := calls u st (chosen (covers w k) true (reached E w L)) in
  exists w' O', ApplyS E t k u t st w = (st', w', o) /\ extends_but t w w' /\ obj w' t O' /\ same_storage O O' /\
    denotes O' R C (fun i j => match answer xs i j with Some x => x | None => h i j end).
Proof. exact @apply_memory_in_place. Qed.
Print Assumptions C78_in_place.

Theorem C78_in_place_zeros_at_line_ends : forall N A E (w : world N) (t : ptr) k O R C h (u : unary N A) (st : A) L,
  sane N -> reachable w -> obj w t O -> not_sparse_vector O -> denotes O R C h ->
  mask_dims w k R C -> mat_Values O <= Z.of_nat (e_fuel E) -> enumerates O L ->
  let '(st', xs, o) := calls u st (chosen (covers w k) true (reached E w L)) in
  (sparse_obj O = true -> zeros_end_lines O (fun i j v => match answer xs i j with Some x => x | None => v end) L []) ->
  exists w' O', ApplyS E t k u t st w = (st', w', o) /\ extends_but t w w' /\ obj w' t O' /\ same_storage O O' /\
    denotes O' R C (fun i j => match answer xs i j with Some x => Spec.kept O x | None => h i j end).
Proof. exact @apply_memory_zeros_in_place. Qed.
Print Assumptions C78_in_place_zeros_at_line_ends.

Theorem C78_called_once_in_order : forall N E (w : world N) (s : ptr) k t S O R C f h (g : T N -> T N) L,
  sane N -> reachable w -> obj w s S -> obj w t O -> not_sparse_vector O ->
  denotes S R C f -> denotes O C R h -> mask_dims w k C R -> s <> t -> mask_not k t -> (R = C \/ forall p, k <> MObj p) ->
  mat_Values S <= Z.of_nat (e_fuel E) -> e_ctx E = None -> enumerates S L ->
  exists w', ApplyS E s k (logging g) t [] w = (uncovered (covers w k) L, w', Ok tt).
Proof. exact @apply_log. Qed.
Print Assumptions C78_called_once_in_order.

Theorem C78_called_once_in_order_in_place : forall N E (w : world N) (t : ptr) k O R C h (g : T N -> T N) L,
  sane N -> reachable w -> obj w t O -> not_sparse_vector O ->
  denotes O R C h -> mask_dims w k R C -> (sparse_obj O = true -> keeps_nz g) -> mat_Values O <= Z.of_nat (e_fuel E) -> e_ctx E = None -> enumerates O L ->
  exists w', ApplyS E t k (logging g) t [] w = (map snd (filter (fun e => covers w k (fst (fst e)) (snd (fst e))) L), w', Ok tt).
Proof. exact @apply_log_in_place. Qed.
Print Assumptions C78_called_once_in_order_in_place.

Theorem C78_pure_functions : forall N A E in_ k (u : T N -> T N) t (st : A) (w : world N),
  ApplyS E in_ k (plainly u) t st w = (st, fst (Apply E in_ k u t w), snd (Apply E in_ k u t w)).
Proof. exact @apply_plain. Qed.
Print Assumptions C78_pure_functions.

Theorem C78_calls_depend_on_format :
  ~ (forall N A E (w : world N) (s s' t : ptr) S S' O R C f h (u : unary N A) st,
      sane N -> reachable w -> obj w s S -> obj w s' S' -> obj w t O -> not_sparse_vector S -> not_sparse_vector S' -> not_sparse_vector O ->
      denotes S R C f -> denotes S' R C f -> denotes O C R h -> s <> t -> s' <> t ->
      mat_Values S <= Z.of_nat (e_fuel E) -> mat_Values S' <= Z.of_nat (e_fuel E) -> e_ctx E = None ->
      fst (fst (ApplyS E s MNil u t st w)) = fst (fst (ApplyS E s' MNil u t st w))).
Proof. exact format_calls_no. Qed.
Print Assumptions C78_calls_depend_on_format.

Example C78_case : reachable ops /\ obj ops 12 oQ /\ obj ops 10 o10 /\ denotes oQ 2 2 (cell_of dQ) /\ denotes o10 2 2 zeroes /\
  enumerates oQ [(0, 0, gi 1); (0, 1, gi 2); (1, 0, gi 3); (1, 1, gi 4)] /\
  let '(n, w', o) := ApplyS E0 12 MNil third 10 0 ops in
  n = 3 /\ o = Panic /\ cells w' 10 2 2 = map (fun z => Ok (gi z)) [10; 0; 21; 0] /\
  calls third 0 (chosen (covers ops MNil) false (reached E0 ops [(0, 0, gi 1); (0, 1, gi 2); (1, 0, gi 3); (1, 1, gi 4)]))
    = (3, [(0, 0, gi 10); (0, 1, gi 21)], Panic).
Proof. split; [exact ops_reachable|]. split; [exact h12|]. split; [exact h10|]. split; [exact t12|]. split; [exact t10|]. split; [exact enum_oQ|]. exact third_case. Qed.
Example C78_in_place_case : 
  let '(n, w', o) := ApplyS E0 12 (MUser 2 2 (fun r c => 0 <? r + c)) third 12 0 ops in
  n = 3 /\ o = Panic /\ cells w' 12 2 2 = map (fun z => Ok (gi z)) [1; 20; 31; 4].
Proof. exact third_in_place_case. Qed.

(** ** C26: a pure function in place, with zeros at the ends of lines (PropOps.v has the other statements) *)

Theorem C26_in_place_zeros_at_line_ends_partial : forall N E (w : world N) (t : ptr) k O R C h (u : T N -> T N) L,
  sane N -> reachable w -> obj w t O -> not_sparse_vector O ->
  denotes O R C h -> mask_dims w k R C -> mat_Values O <= Z.of_nat (e_fuel E) -> e_ctx E = None -> enumerates O L ->
  (sparse_obj O = true -> zeros_end_lines O (fun i j v => if covers w k i j then u v else v) L []) ->
  exists w' O', Apply E t k u t w = (w', Ok tt) /\ extends_but t w w' /\ obj w' t O' /\ same_storage O O' /\
    denotes O' R C (fun i j => if stored O (h i j) && covers w k i j then Spec.kept O (u (h i j)) else h i j).
Proof. exact @apply_zeros_in_place. Qed.
Print Assumptions C26_in_place_zeros_at_line_ends_partial.

Example C26_zeros_case : reachable demo /\ obj demo 0 (MCSR demo0) /\ enumerates (MCSR demo0) [(0, 0, gi 5); (2, 1, gi 7); (2, 3, gi (-1))] /\
  mask_dims demo all34 3 4 /\
  zeros_end_lines (MCSR demo0) (fun i j v => if covers demo all34 i j then zeroing v else v) [(0, 0, gi 5); (2, 1, gi 7); (2, 3, gi (-1))] [] /\
  obj (fst (Apply E0 0 all34 zeroing 0 demo)) 0 (MCSR (MkCSR 3 4 [gi 14] [1] [0; 0; 0; 1])).
Proof. exact apply_zeros_case. Qed.

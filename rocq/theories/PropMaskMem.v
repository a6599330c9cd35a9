(** Property C79: the operators with a mask written by the caller whose Element keeps memory or panics (MaskMem.v).

    [noting q]: the mask [q], writing down the questions and what came of them.  [follows x y z]: writing down changes nothing
    ([x] with [noting q], [y] with [q]), and every predicate that gives the answers that were given has the same effect ([z]).
    [ask q st ps]: asking about the places [ps] one after the other until a call panics or does not return: the memory
    afterwards and the answers.  [ending l x]: [x] if all were answered, otherwise how the last call ended.  [recorded l]: the
    predicate of the recorded answers, which covers every other place.  [replied l i j]: the answer for a place, if there is one.
    [granted es l]: the elements whose questions were answered with false.  [reached E w L]: the part of [L] before the context
    is done (ApplyMem.v).  [answer xs i j]: the last value for a place in the list [xs] (ApplyMem.v).  *)
From Coq Require Import String.
From Verif Require Import GoBase Num SparseVec Csr Csc DenseVec DenseMat Mat World Ops Spec Api ApplyMem MaskMem.
From Verif Require Import OpsProps MapZeroThms Witness StoreWitness OpsWitness ApplyMemWitness MaskMemSim MaskMemOps MaskMemMore MaskMemWitness.
Import ListNotations.

Theorem C79_same_answers : forall N A (q : smask A) E s m (u : T N -> T N) t,
  follows (N := N) (multiplyS E s m (noting q) t) (multiplyS E s m q t) (fun f => multiply E s m (MUser (sm_Rows q) (sm_Columns q) f) t) /\
  follows (N := N) (ElementWiseMatrixMultiplyS E s m (noting q) t) (ElementWiseMatrixMultiplyS E s m q t) (fun f => ElementWiseMatrixMultiply E s m (MUser (sm_Rows q) (sm_Columns q) f) t) /\
  follows (N := N) (ElementWiseVectorMultiplyS E s m (noting q) t) (ElementWiseVectorMultiplyS E s m q t) (fun f => ElementWiseVectorMultiply E s m (MUser (sm_Rows q) (sm_Columns q) f) t) /\
  follows (N := N) (AddS E s m (noting q) t) (AddS E s m q t) (fun f => Add E s m (MUser (sm_Rows q) (sm_Columns q) f) t) /\
  follows (N := N) (ElementWiseMatrixAddS E s m (noting q) t) (ElementWiseMatrixAddS E s m q t) (fun f => ElementWiseMatrixAdd E s m (MUser (sm_Rows q) (sm_Columns q) f) t) /\
  follows (N := N) (ElementWiseVectorAddS E s m (noting q) t) (ElementWiseVectorAddS E s m q t) (fun f => ElementWiseVectorAdd E s m (MUser (sm_Rows q) (sm_Columns q) f) t) /\
  follows (N := N) (SubtractS E s m (noting q) t) (SubtractS E s m q t) (fun f => Subtract E s m (MUser (sm_Rows q) (sm_Columns q) f) t) /\
  follows (N := N) (ApplyQ E s (noting q) u t) (ApplyQ E s q u t) (fun f => Apply E s (MUser (sm_Rows q) (sm_Columns q) f) u t) /\
  follows (N := N) (NegativeS E s (noting q) t) (NegativeS E s q t) (fun f => Negative E s (MUser (sm_Rows q) (sm_Columns q) f) t) /\
  follows (N := N) (TransposeS E s (noting q) t) (TransposeS E s q t) (fun f => Transpose E s (MUser (sm_Rows q) (sm_Columns q) f) t).
Proof. exact @same_answers. Qed.
Print Assumptions C79_same_answers.

Theorem C79_transpose : forall N A (q : smask A) E (w : world N) (s t : ptr) S O L (st : A),
  sane N -> reachable w -> obj w s S -> obj w t O -> not_sparse_vector S -> not_sparse_vector O ->
  mat_Rows O = mat_Columns S -> mat_Columns O = mat_Rows S -> sm_Rows q = mat_Rows O -> sm_Columns q = mat_Columns O ->
  s <> t -> mat_Values S <= Z.of_nat (e_fuel E) -> e_ctx E = None -> enumerates S L ->
  let '(st', l) := ask q st (map fst L) in
  exists w', TransposeS E s q t st w = (st', w', ending l tt) /\ Transpose E s (MUser (sm_Rows q) (sm_Columns q) (recorded l)) t w = (w', Ok tt).
Proof. exact @transpose_asks. Qed.
Print Assumptions C79_transpose.

Theorem C79_apply : forall N A (q : smask A) E (w : world N) (s t : ptr) u S O L (st : A),
  sane N -> reachable w -> obj w s S -> obj w t O -> not_sparse_vector S -> not_sparse_vector O ->
  mat_Rows O = mat_Columns S -> mat_Columns O = mat_Rows S -> sm_Rows q = mat_Rows O -> sm_Columns q = mat_Columns O ->
  s <> t -> mat_Values S <= Z.of_nat (e_fuel E) -> e_ctx E = None -> enumerates S L ->
  let '(st', l) := ask q st (map fst L) in
  exists w', ApplyQ E s q u t st w = (st', w', ending l tt) /\ Apply E s (MUser (sm_Rows q) (sm_Columns q) (recorded l)) u t w = (w', Ok tt).
Proof. exact @apply_asks. Qed.
Print Assumptions C79_apply.

Theorem C79_subtract : forall N A (q : smask A) E (w : world N) (s m t : ptr) S Mo O L (st : A),
  sane N -> reachable w -> obj w s S -> obj w m Mo -> obj w t O -> not_sparse_vector S -> not_sparse_vector O ->
  mat_Rows Mo = mat_Rows S -> mat_Columns Mo = mat_Columns S -> mat_Rows O = mat_Rows S -> mat_Columns O = mat_Columns S -> sm_Rows q = mat_Rows O -> sm_Columns q = mat_Columns O ->
  s <> t -> mat_Values S <= Z.of_nat (e_fuel E) -> e_ctx E = None -> enumerates S L ->
  let '(st', l) := ask q st (map fst L) in
  exists w', SubtractS E s m q t st w = (st', w', ending l tt) /\ Subtract E s m (MUser (sm_Rows q) (sm_Columns q) (recorded l)) t w = (w', Ok tt).
Proof. exact @subtract_asks. Qed.
Print Assumptions C79_subtract.

Theorem C79_add : forall N A (q : smask A) E (w : world N) (s m t : ptr) S Mo O L (st : A),
  sane N -> reachable w -> obj w s S -> obj w m Mo -> obj w t O -> not_sparse_vector O ->
  mat_Rows Mo = mat_Rows S -> mat_Columns Mo = mat_Columns S -> mat_Rows O = mat_Rows S -> mat_Columns O = mat_Columns S -> sm_Rows q = mat_Rows O -> sm_Columns q = mat_Columns O ->
  let Src := if IsSparseMatrix (e_reg E) S then S else Mo in
  not_sparse_vector Src -> (if IsSparseMatrix (e_reg E) S then s else m) <> t -> mat_Values Src <= Z.of_nat (e_fuel E) -> e_ctx E = None -> enumerates Src L ->
  let '(st', l) := ask q st (map fst L) in
  exists w', AddS E s m q t st w = (st', w', ending l tt) /\ Add E s m (MUser (sm_Rows q) (sm_Columns q) (recorded l)) t w = (w', Ok tt).
Proof. exact @add_asks. Qed.
Print Assumptions C79_add.

Theorem C79_element_wise_multiply : forall N A (q : smask A) E (w : world N) (s m t : ptr) S Mo O g L (st : A),
  sane N -> reachable w -> obj w s S -> obj w m Mo -> obj w t O -> not_sparse_vector O ->
  mat_Rows Mo = mat_Rows S -> mat_Columns Mo = mat_Columns S -> mat_Rows O = mat_Rows S -> mat_Columns O = mat_Columns S -> sm_Rows q = mat_Rows O -> sm_Columns q = mat_Columns O ->
  let Src := if IsSparseMatrix (e_reg E) S then S else Mo in
  let Other := if IsSparseMatrix (e_reg E) S then Mo else S in
  not_sparse_vector Src -> denotes Other (mat_Rows S) (mat_Columns S) g ->
  s <> t -> m <> t -> mat_Values Src <= Z.of_nat (e_fuel E) -> e_ctx E = None -> enumerates Src L ->
  let '(st', l) := ask q st (map fst (filter (fun '(r, c, v) => neqb v (g r c)) L)) in
  exists w', elementWiseMultiplyS E s m q t st w = (st', w', ending l tt) /\ elementWiseMultiply E s m (MUser (sm_Rows q) (sm_Columns q) (recorded l)) t w = (w', Ok tt).
Proof. exact @ewm_asks. Qed.
Print Assumptions C79_element_wise_multiply.

Theorem C79_multiply : forall N A (q : smask A) E (w : world N) (s m t : ptr) S Mo O R K C f g h (st : A),
  sane N -> reachable w -> obj w s S -> obj w m Mo -> obj w t O -> not_sparse_vector O ->
  denotes S R K f -> denotes Mo K C g -> denotes O R C h -> sm_Rows q = R -> sm_Columns q = C -> s <> t -> m <> t -> e_ctx E = None ->
  let '(st', l) := ask q st (positions R C) in
  exists w', multiplyS E s m q t st w = (st', w', ending l tt) /\ multiply E s m (MUser (sm_Rows q) (sm_Columns q) (recorded l)) t w = (w', Ok tt).
Proof. exact @multiply_asks. Qed.
Print Assumptions C79_multiply.

Theorem C79_element_wise_add : forall N A (q : smask A) E (w : world N) (s m t : ptr) S Mo O R C h Ls Lm (st : A),
  sane N -> reachable w -> obj w s S -> obj w m Mo -> obj w t O -> not_sparse_vector O ->
  mat_Rows S = R -> mat_Columns S = C -> mat_Rows Mo = R -> mat_Columns Mo = C -> denotes O R C h -> sm_Rows q = R -> sm_Columns q = C ->
  mat_Values S <= Z.of_nat (e_fuel E) -> mat_Values Mo <= Z.of_nat (e_fuel E) -> enumerates S Ls -> enumerates Mo Lm ->
  let es := filter (fun e => negb (neqb (snd e) n0)) (reached E w ((if Nat.eqb s t then [] else Ls) ++ (if Nat.eqb m t then [] else Lm))) in
  let '(st', l) := ask q st (map fst es) in
  exists w' O', elementWiseAddS E s m q t st w = (st', w', ending l tt) /\ extends_but t w w' /\ obj w' t O' /\ same_storage O O' /\
    denotes O' R C (fun i j => match answer (granted es l) i j with Some x => x | None => h i j end).
Proof. exact @ewa_asks. Qed.
Print Assumptions C79_element_wise_add.

Theorem C79_element_wise_multiply_in_place : forall N A (q : smask A) E (w : world N) (s m t : ptr) a S O Mo L (st : A),
  sane N -> reachable w -> obj w s S -> obj w t O -> obj w a Mo -> not_sparse_vector Mo -> not_sparse_vector O ->
  (m = t /\ a = s) \/ (s = t /\ a = m) -> a <> t ->
  mat_Rows Mo = mat_Rows O -> mat_Columns Mo = mat_Columns O -> sm_Rows q = mat_Rows O -> sm_Columns q = mat_Columns O ->
  mat_Values Mo <= Z.of_nat (e_fuel E) -> e_ctx E = None -> enumerates Mo L ->
  let '(st', l) := ask q st (map fst L) in
  exists w', elementWiseMultiplyS E s m q t st w = (st', w', ending l tt) /\ elementWiseMultiply E s m (MUser (sm_Rows q) (sm_Columns q) (recorded l)) t w = (w', Ok tt).
Proof. exact @ewm_in_place_asks. Qed.
Print Assumptions C79_element_wise_multiply_in_place.

Theorem C79_negative : forall N A (q : smask A) E (w : world N) (s t : ptr) O R C h (st : A) L,
  sane N -> reachable w -> obj w t O -> not_sparse_vector O -> denotes O R C h -> sm_Rows q = R -> sm_Columns q = C ->
  mat_Values O <= Z.of_nat (e_fuel E) -> enumerates O L ->
  let '(st', l) := ask q st (map fst (reached E w L)) in
  exists w' O', NegativeS E s q t st w = (st', w', ending l tt) /\ extends_but t w w' /\ obj w' t O' /\ same_storage O O' /\
    denotes O' R C (fun i j => match replied l i j with Some false => nneg (h i j) | _ => h i j end).
Proof. exact @negative_asks. Qed.
Print Assumptions C79_negative.

Theorem C79_apply_in_place : forall N A (q : smask A) E (w : world N) (t : ptr) u O R C h (st : A) L,
  sane N -> reachable w -> obj w t O -> not_sparse_vector O -> denotes O R C h -> sm_Rows q = R -> sm_Columns q = C ->
  mat_Values O <= Z.of_nat (e_fuel E) -> enumerates O L ->
  let '(st', l) := ask q st (map fst (reached E w L)) in
  (sparse_obj O = true -> zeros_end_lines O (fun i j v => match replied l i j with Some true => u v | _ => v end) L []) ->
  exists w' O', ApplyQ E t q u t st w = (st', w', ending l tt) /\ extends_but t w w' /\ obj w' t O' /\ same_storage O O' /\
    denotes O' R C (fun i j => match replied l i j with Some true => Spec.kept O (u (h i j)) | _ => h i j end).
Proof. exact @apply_in_place_asks. Qed.
Print Assumptions C79_apply_in_place.

Theorem C79_not_every_mask_is_a_predicate :
  ~ (forall N St (q : smask St) E (w : world N) s m t st, sane N -> reachable w -> e_ctx E = None -> s <> t -> m <> t ->
      exists f, snd (fst (ElementWiseMatrixAddS E s m q t st w)) = fst (ElementWiseMatrixAdd E s m (MUser (sm_Rows q) (sm_Columns q) f) t w)).
Proof. exact no_predicate. Qed.
Print Assumptions C79_not_every_mask_is_a_predicate.

Example C79_case : reachable ops /\ obj ops 12 oQ /\ obj ops 10 o10 /\ enumerates oQ [(0, 0, gi 1); (0, 1, gi 2); (1, 0, gi 3); (1, 1, gi 4)] /\
  let '(n, w', o) := TransposeS E0 12 alternating 10 0 ops in
  n = 4 /\ o = Panic /\ cells w' 10 2 2 = map (fun z => Ok (gi z)) [1; 3; 0; 0] /\
  ask alternating 0 [(0, 0); (0, 1); (1, 0); (1, 1)] = (4, [(0, 0, Ok false); (0, 1, Ok true); (1, 0, Ok false); (1, 1, Panic)]).
Proof. split; [exact ops_reachable|]. split; [exact h12|]. split; [exact h10|]. split; [exact enum_oQ|]. exact transpose_asks_case. Qed.

Example C79_more_cases : reachable twice /\ reachable ops /\ obj ops 12 oQ /\ denotes oQ 2 2 (cell_of dQ) /\
  (let '(b, w', o) := elementWiseAddS E0 0 1 second 2 false twice in
   b = true /\ o = Ok tt /\ cells w' 2 1 1 = [Ok (gi 1)] /\ ask second false [(0, 0); (0, 0)] = (true, [(0, 0, Ok false); (0, 0, Ok true)])) /\
  (let '(n, w', o) := NegativeS E0 10 alternating 12 0 ops in
   n = 4 /\ o = Panic /\ cells w' 12 2 2 = map (fun z => Ok (gi z)) [-1; 2; -3; 4]) /\
  (let '(n, w', o) := ApplyQ E0 12 alternating (fun v => nmul v (gi 10)) 12 0 ops in
   n = 4 /\ o = Panic /\ cells w' 12 2 2 = map (fun z => Ok (gi z)) [1; 20; 3; 4]).
Proof. split; [exact twice_reachable|]. split; [exact ops_reachable|]. split; [exact h12|]. split; [exact t12|]. split; [exact twice_case|]. exact in_place_case. Qed.

(** Properties C16, C23 and C55 where the function maps stored elements of a sparse object to zero.

    [zeros_end_lines m f l more]: whenever [f] sends an element of [l] to zero, no later element of [l] and none of
    [more] is in its line (row of a CSR matrix, column of a CSC matrix, vector).  [mapped m f l]: what [f] makes of
    the elements [l], without the zeros if [m] is sparse.  [enumerates m l]: [l] are the stored elements of [m] in
    the order of the iterator. *)
From Coq Require Import String.
From Verif Require Import GoBase Num SparseVec Csr Csc DenseVec DenseMat Mat World Ops Spec Api.
From Verif Require Import StoreProofs StoreThms OpsProps Witness StoreWitness OpsWitness MapZeroThms MapZeroWitness.
Import ListNotations.

(** ** C16: an element may be mapped to zero if it is the last stored one of its line ... *)

Theorem C16_map_zeros_at_line_ends_partial : forall N E (w : world N) p m f l,
  sane N -> reachable w -> obj w p m -> enumerates m l -> mat_Values m <= Z.of_nat (e_fuel E) ->
  (sparse_obj m = true -> zeros_end_lines m f l []) ->
  exists w' m', user_Map E p f w = (w', Ok tt) /\ extends_but p w w' /\ obj w' p m' /\ same_storage m m' /\
    mat_Rows m' = mat_Rows m /\ mat_Columns m' = mat_Columns m /\ enumerates m' (mapped m f l) /\
    (forall R C h, (is_dense m \/ is_sparse_matrix m) -> denotes m R C h ->
       denotes m' R C (fun i j => if sparse_obj m && (neqb (h i j) n0 || neqb (f i j (h i j)) n0) then n0 else f i j (h i j))).
Proof. exact @map_zeros. Qed.
Print Assumptions C16_map_zeros_at_line_ends_partial.

Example C16_zeros_case : reachable demo /\ obj demo 0 (MCSR demo0) /\ enumerates (MCSR demo0) [(0, 0, gi 5); (2, 1, gi 7); (2, 3, gi (-1))] /\
  zeros_end_lines (MCSR demo0) end_zeros [(0, 0, gi 5); (2, 1, gi 7); (2, 3, gi (-1))] [] /\
  mapped (MCSR demo0) end_zeros [(0, 0, gi 5); (2, 1, gi 7); (2, 3, gi (-1))] = [(2, 1, gi 14)] /\
  obj (fst (user_Map E0 0 end_zeros demo)) 0 (MCSR (MkCSR 3 4 [gi 14] [1] [0; 0; 0; 1])).
Proof. exact map_zeros_case. Qed.

(** ... but if other elements follow it in its line and none in later lines, the loop panics *)

Theorem C16_map_zero_inside_last_line_panics_refuted : forall N E (w : world N) p m f l1 i j v l2,
  sane N -> reachable w -> obj w p m -> sparse_obj m = true -> enumerates m (l1 ++ (i, j, v) :: l2) ->
  mat_Values m <= Z.of_nat (e_fuel E) -> zeros_end_lines m f l1 ((i, j, v) :: l2) ->
  neqb (f i j v) n0 = true -> l2 <> [] -> (forall e, In e l2 -> same_line m (i, j) (fst e)) ->
  snd (user_Map E p f w) = Panic.
Proof. exact @map_panics. Qed.
Print Assumptions C16_map_zero_inside_last_line_panics_refuted.

Example C16_panics_case : reachable demo /\ obj demo 0 (MCSR demo0) /\ enumerates (MCSR demo0) ([(0, 0, gi 5)] ++ (2, 1, gi 7) :: [(2, 3, gi (-1))]) /\
  zeros_end_lines (MCSR demo0) mid_zero [(0, 0, gi 5)] [(2, 1, gi 7); (2, 3, gi (-1))] /\ neqb (mid_zero 2 1 (gi 7)) n0 = true /\
  (forall e : Z * Z * T num_goint, In e [(2, 3, gi (-1))] -> same_line (MCSR demo0) (2, 1) (fst e)).
Proof. exact map_panics_case. Qed.

Theorem C16_map_zero_inside_vector_panics_refuted : forall N E (w : world N) p (s : svec N) f l1 i j v l2,
  sane N -> reachable w -> obj w p (MSV s) -> enumerates (MSV s) (l1 ++ (i, j, v) :: l2) ->
  mat_Values (MSV s) <= Z.of_nat (e_fuel E) -> neqb (f i j v) n0 = true -> l2 <> [] -> snd (user_Map E p f w) = Panic.
Proof. exact @map_vector_panics. Qed.
Print Assumptions C16_map_zero_inside_vector_panics_refuted.

Example C16_vector_case : reachable demo /\ obj demo 4 (MSV demo4) /\ enumerates (MSV demo4) ([] ++ (0, 0, gi 4) :: [(1, 0, gi 6)]).
Proof. exact map_vector_case. Qed.

(** ... and if both is the case, it may come to its end with a wrong result: one element has been passed over, another mapped twice *)

Theorem C16_map_that_returns_may_be_wrong_refuted :
  ~ (forall N E (w : world N) p m f R C h w' m', sane N -> reachable w -> obj w p m -> is_sparse_matrix m -> denotes m R C h ->
      mat_Values m <= Z.of_nat (e_fuel E) -> user_Map E p f w = (w', Ok tt) -> obj w' p m' ->
      denotes m' R C (fun i j => if neqb (h i j) n0 || neqb (f i j (h i j)) n0 then n0 else f i j (h i j))).
Proof. exact map_returns_no. Qed.
Print Assumptions C16_map_that_returns_may_be_wrong_refuted.

(** ** C23: the same for [Scalar] *)

Theorem C23_scalar_zeros_at_line_ends_partial : forall N E (w : world N) (s : ptr) S a l R C f,
  sane N -> reachable w -> obj w s S -> (is_dense S \/ is_sparse_matrix S) -> denotes S R C f -> e_ctx E = None -> enumerates S l ->
  mat_Values S <= Z.of_nat (e_fuel E) -> (sparse_obj S = true -> zeros_end_lines S (fun _ _ => nmul a) l []) ->
  exists w' t O', Scalar E s a w = (w', Ok t) /\ m_Scalar E s a w = (w', Ok t) /\
    (forall x, ~ obj w t x) /\ extends w w' /\ obj w' t O' /\ same_storage S O' /\ enumerates O' (mapped S (fun _ _ => nmul a) l) /\
    denotes O' R C (fun i j => if sparse_obj S && (neqb (f i j) n0 || neqb (nmul a (f i j)) n0) then n0 else nmul a (f i j)).
Proof. exact @scalar_zeros. Qed.
Print Assumptions C23_scalar_zeros_at_line_ends_partial.

Example C23_zeros_case : reachable diag3 /\ obj diag3 0 diag3m /\ enumerates diag3m [(0, 0, gi 1); (1, 1, gi 2); (2, 2, gi 3)] /\
  zeros_end_lines diag3m (fun _ _ => nmul (gi 0)) [(0, 0, gi 1); (1, 1, gi 2); (2, 2, gi 3)] [] /\
  cells (fst (m_Scalar E0 0 (gi 0) diag3)) 1 3 3 = map (fun z => Ok (gi z)) [0; 0; 0; 0; 0; 0; 0; 0; 0].
Proof. exact scalar_zeros_case. Qed.

Theorem C23_scalar_zero_inside_last_line_panics_refuted : forall N E (w : world N) (s : ptr) S a l1 i j v l2,
  sane N -> reachable w -> obj w s S -> sparse_obj S = true -> e_ctx E = None -> enumerates S (l1 ++ (i, j, v) :: l2) ->
  mat_Values S <= Z.of_nat (e_fuel E) -> zeros_end_lines S (fun _ _ => nmul a) l1 ((i, j, v) :: l2) ->
  neqb (nmul a v) n0 = true -> l2 <> [] -> (forall e, In e l2 -> same_line S (i, j) (fst e)) ->
  snd (Scalar E s a w) = Panic /\ snd (m_Scalar E s a w) = Panic.
Proof. exact @scalar_panics. Qed.
Print Assumptions C23_scalar_zero_inside_last_line_panics_refuted.

Example C23_panics_case : reachable row12 /\ exists s, obj row12 0 (MCSR s) /\ enumerates (MCSR s) ([] ++ (0, 0, gi 1) :: [(0, 1, gi 1)]) /\
  neqb (nmul (gi 0) (gi 1)) n0 = true.
Proof. exact scalar_panics_case. Qed.

(** ** C55: such loops in a history, one that panics half way too *)

Example C55_zeros_case : reachable (after (KMap E0 0 end_zeros) demo) /\ reachable (after (KMap E0 0 mid_zero) demo) /\
  snd (user_Map E0 0 mid_zero demo) = Panic /\ obj (after (KMap E0 0 mid_zero) demo) 0 (MCSR (MkCSR 3 4 [gi (-1)] [3] [0; 0; 0; 1])).
Proof. exact zero_histories. Qed.

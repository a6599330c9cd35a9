(** Properties of the operators and of the arithmetic methods (operators.go and the
    methods of the five storage types): C17-C31, C35, C36, C56-C58.

    Vocabulary: [reachable w] is any heap some sequence of API calls can produce;
    [obj w p m] says that pointer [p] refers to object [m]; [denotes m R C f] that [m]
    is an [R] x [C] matrix with cells [f i j] as read by [At]; [extends w w'] that all
    objects of [w] are unchanged in [w'], [extends_but t] all but [t];
    [covers w k i j] is the mask's flag; [kept O v] is what object [O] remembers of a
    written value ([v] itself, or for sparse storage zero if [v] compares equal to
    zero); [shown] is what [AtVec] shows of a row or column: everything for dense
    storage, for sparse storage only positions up to the number of non-zero entries. *)
From Coq Require Import String.
From Verif Require Import GoBase Num SparseVec Csr Csc DenseVec DenseMat Mat World Ops Spec Api.
From Verif Require Import OpsProps MaskThms Witness StoreWitness OpsWitness.
Import ListNotations.

(** ** C17: dense multiplication *)

Theorem C17_dense_product : forall N E (w : world N) (s m : ptr) k t S Mo O R K C f g h,
  sane N -> reachable w -> obj w s S -> obj w m Mo -> obj w t O -> is_dense S -> is_dense Mo -> not_sparse_vector O ->
  denotes S R K f -> denotes Mo K C g -> denotes O R C h -> mask_dims w k R C -> s <> t -> m <> t -> e_ctx E = None ->
  exists w' O', MatrixMatrixMultiply E s m k t w = (w', Ok tt) /\ MatrixVectorMultiply E s m k t w = (w', Ok tt) /\
    extends_but t w w' /\ obj w' t O' /\ same_storage O O' /\
    denotes O' R C (fun i j => if covers w k i j then h i j else kept O (sum_from n0 (fun l => nmul (f i l) (g l j)) 0 K)).
Proof. exact @mul_dense. Qed.
Print Assumptions C17_dense_product.

Theorem C17_dense_method : forall N E (w : world N) (s m : ptr) S Mo R K C f g,
  sane N -> reachable w -> obj w s S -> obj w m Mo -> is_dense S -> ~ is_vector S -> is_dense Mo ->
  denotes S R K f -> denotes Mo K C g -> R * C < 2 ^ 63 ->
  exists w' t O', m_Multiply E s m w = (w', Ok t) /\ (forall x, ~ obj w t x) /\ extends w w' /\ obj w' t O' /\ same_storage S O' /\
    denotes O' R C (fun i j => sum_from n0 (fun l => nmul (f i l) (g l j)) 0 K).
Proof. exact @mul_dense_method. Qed.
Print Assumptions C17_dense_method.

Theorem C17_inner_dimensions : forall N E (w : world N) (s m : ptr) k t S Mo,
  obj w s S -> obj w m Mo -> mat_Columns S <> mat_Rows Mo ->
  MatrixMatrixMultiply E s m k t w = (w, Panic) /\ MatrixVectorMultiply E s m k t w = (w, Panic).
Proof. exact @mul_mismatch. Qed.
Print Assumptions C17_inner_dimensions.

Example C17_case :
  reachable ops /\ obj ops 0 oA /\ denotes oA 2 3 (cell_of dA) /\ obj ops 1 oB /\ denotes oB 3 2 (cell_of dB) /\ obj ops 2 oH /\ denotes oH 2 2 (cell_of dH) /\ mask_dims ops (MObj 3) 2 2 /\ snd (MatrixMatrixMultiply E0 0 1 (MObj 3) 2 ops) = Ok tt /\ cells (fst (MatrixMatrixMultiply E0 0 1 (MObj 3) 2 ops)) 2 2 2 = map (fun z => Ok (gi z)) [5; 99; 14; 23].
Proof. the_case. Qed.

Example C17_method_case :
  reachable ops /\ obj ops 0 oA /\ denotes oA 2 3 (cell_of dA) /\ obj ops 1 oB /\ denotes oB 3 2 (cell_of dB) /\ snd (m_Multiply E0 0 1 ops) = Ok 21%nat /\ cells (fst (m_Multiply E0 0 1 ops)) 21 2 2 = map (fun z => Ok (gi z)) [5; 11; 14; 23].
Proof. the_case. Qed.

Example C17_vector_case :
  reachable ops /\ obj ops 0 oA /\ denotes oA 2 3 (cell_of dA) /\ obj ops 13 o13 /\ denotes o13 3 1 (cell_of [[gi 1]; [gi 2]; [gi 3]]) /\ obj ops 16 o16 /\ denotes o16 2 1 zeroes /\ cells (fst (MatrixVectorMultiply E0 0 13 MNil 16 ops)) 16 2 1 = map (fun z => Ok (gi z)) [14; 32].
Proof. the_case. Qed.

(** ** C18: false of the code.  Rows and columns of sparse operands are copied into
    sparse vectors whose [AtVec] misses entries at positions beyond the number of
    non-zero entries; the theorems say exactly what is computed. *)

Theorem C18_sparse_product_exact_partial : forall N E (w : world N) (s m : ptr) k t S Mo O R K C f g h,
  sane N -> reachable w -> obj w s S -> obj w m Mo -> obj w t O -> not_sparse_vector O ->
  denotes S R K f -> denotes Mo K C g -> denotes O R C h -> mask_dims w k R C -> s <> t -> m <> t -> e_ctx E = None ->
  exists w' O', MatrixMatrixMultiply E s m k t w = (w', Ok tt) /\ MatrixVectorMultiply E s m k t w = (w', Ok tt) /\
    extends_but t w w' /\ obj w' t O' /\ same_storage O O' /\
    denotes O' R C (fun i j => if covers w k i j then h i j else
      kept O (sum_from n0 (fun l => nmul (shown S K (f i) l) (shown Mo K (fun r => g r j) l)) 0 K)).
Proof. exact @mul_exact. Qed.
Print Assumptions C18_sparse_product_exact_partial.

Theorem C18_sparse_method_exact_partial : forall N E (w : world N) (s m : ptr) S Mo R K C f g,
  sane N -> reachable w -> obj w s S -> obj w m Mo -> ~ is_vector S ->
  denotes S R K f -> denotes Mo K C g -> (is_dense S -> R * C < 2 ^ 63) ->
  exists w' t O', m_Multiply E s m w = (w', Ok t) /\ (forall x, ~ obj w t x) /\ extends w w' /\ obj w' t O' /\ same_storage S O' /\
    denotes O' R C (fun i j =>
      kept S (sum_from n0 (fun l => nmul (shown S K (f i) l) (shown Mo K (fun r => g r j) l)) 0 K)).
Proof. exact @mul_method. Qed.
Print Assumptions C18_sparse_method_exact_partial.

Theorem C18_packed_product_partial : forall N E (w : world N) (s m : ptr) k t S Mo O R K C f g h,
  sane N -> reachable w -> obj w s S -> obj w m Mo -> obj w t O -> is_sparse_matrix S -> is_sparse_matrix Mo -> not_sparse_vector O ->
  denotes S R K f -> denotes Mo K C g -> denotes O R C h -> mask_dims w k R C -> s <> t -> m <> t -> e_ctx E = None ->
  (forall i, 0 <= i < R -> packed K (f i)) -> (forall j, 0 <= j < C -> packed K (fun l => g l j)) ->
  exists w' O', MatrixMatrixMultiply E s m k t w = (w', Ok tt) /\
    extends_but t w w' /\ obj w' t O' /\ same_storage O O' /\
    denotes O' R C (fun i j => if covers w k i j then h i j else kept O (sum_from n0 (fun l => nmul (f i l) (g l j)) 0 K)).
Proof. exact @mul_sparse_packed. Qed.
Print Assumptions C18_packed_product_partial.

Example C18_case :
  reachable ops /\ obj ops 8 oP /\ denotes oP 2 3 (cell_of dP) /\ obj ops 9 o9 /\ denotes o9 3 2 (cell_of dB) /\ obj ops 10 o10 /\ denotes o10 2 2 zeroes /\ cells (fst (MatrixMatrixMultiply E0 8 9 MNil 10 ops)) 10 2 2 = map (fun z => Ok (gi z)) [5; 2; 3; 12].
Proof. the_case. Qed.

Theorem C18_sparse_product_refuted :
  ~ (forall N E (w : world N) (s m : ptr) k t S Mo O R K C f g h,
      sane N -> reachable w -> obj w s S -> obj w m Mo -> obj w t O ->
      is_sparse_matrix S -> is_sparse_matrix Mo -> not_sparse_vector O ->
      denotes S R K f -> denotes Mo K C g -> denotes O R C h -> mask_dims w k R C -> s <> t -> m <> t -> e_ctx E = None ->
      exists w' O', MatrixMatrixMultiply E s m k t w = (w', Ok tt) /\ obj w' t O' /\
        denotes O' R C (fun i j => if covers w k i j then h i j else kept O (sum_from n0 (fun l => nmul (f i l) (g l j)) 0 K))).
Proof. exact mul_sparse_no. Qed.
Print Assumptions C18_sparse_product_refuted.

(** ** C19: dense addition and subtraction *)

Theorem C19_dense_addition : forall N E (w : world N) (s m : ptr) S Mo R C f g,
  sane N -> reachable w -> obj w s S -> obj w m Mo -> is_dense S -> is_dense Mo -> denotes S R C f -> denotes Mo R C g ->
  IsSparseMatrix (e_reg E) S = false -> R * C <= Z.of_nat (e_fuel E) ->
  exists w' t O', m_Add E s m w = (w', Ok t) /\ (forall x, ~ obj w t x) /\ extends w w' /\ obj w' t O' /\ same_storage S O' /\
    denotes O' R C (fun i j => nadd (f i j) (g i j)).
Proof. exact @add_dense. Qed.
Print Assumptions C19_dense_addition.

Theorem C19_dense_subtraction : forall N E (w : world N) (s m : ptr) S Mo R C f g,
  sane N -> reachable w -> obj w s S -> obj w m Mo -> is_dense S -> is_dense Mo -> denotes S R C f -> denotes Mo R C g ->
  R * C <= Z.of_nat (e_fuel E) ->
  exists w' t O', m_Subtract E s m w = (w', Ok t) /\ (forall x, ~ obj w t x) /\ extends w w' /\ obj w' t O' /\ same_storage Mo O' /\
    denotes O' R C (fun i j => nsub (f i j) (g i j)).
Proof. exact @sub_dense. Qed.
Print Assumptions C19_dense_subtraction.

Theorem C19_shape_mismatch : forall N E (w : world N) (s m : ptr) S Mo,
  sane N -> reachable w -> obj w s S -> obj w m Mo -> is_dense S -> is_dense Mo ->
  ~ (mat_Rows S = mat_Rows Mo /\ mat_Columns S = mat_Columns Mo) ->
  snd (m_Add E s m w) = Panic /\ snd (m_Subtract E s m w) = Panic /\
  (forall k t, Add E s m k t w = (w, Panic) /\ Subtract E s m k t w = (w, Panic)).
Proof. exact @add_sub_mismatch. Qed.
Print Assumptions C19_shape_mismatch.

Example C19_case :
  reachable ops /\ obj ops 0 oA /\ denotes oA 2 3 (cell_of dA) /\ obj ops 4 oC /\ denotes oC 2 3 (cell_of dC) /\ cells (fst (m_Add E0 0 4 ops)) 21 2 3 = map (fun z => Ok (gi z)) [11; 2; 2; 6; 7; 8] /\ cells (fst (m_Subtract E0 0 4 ops)) 21 2 3 = map (fun z => Ok (gi z)) [(-9); 2; 4; 2; 3; 4].
Proof. the_case. Qed.

(** ** C20: false of the code for float64 (the only element type in the sparse
    registry: there only the cells stored in the receiver are added); true for all
    integer element types. *)

Theorem C20_exact_partial : forall N E (w : world N) (s m : ptr) S Mo R C f g,
  sane N -> reachable w -> obj w s S -> obj w m Mo -> not_sparse_vector S -> not_sparse_vector Mo ->
  denotes S R C f -> denotes Mo R C g ->
  mat_Values S <= Z.of_nat (e_fuel E) -> mat_Values Mo <= Z.of_nat (e_fuel E) ->
  exists w' t O', m_Add E s m w = (w', Ok t) /\ (forall x, ~ obj w t x) /\ extends w w' /\ obj w' t O' /\ same_storage S O' /\
    denotes O' R C (fun i j =>
      if IsSparseMatrix (e_reg E) S
      then if stored S (f i j) then kept S (nadd (g i j) (f i j)) else f i j
      else if stored Mo (g i j) then kept S (nadd (f i j) (g i j)) else f i j).
Proof. exact @add_exact. Qed.
Print Assumptions C20_exact_partial.

Theorem C20_integer_types_partial : forall N E (w : world N) (s m : ptr) S Mo R C f g,
  In N go_ints -> e_reg E = reg0 -> reachable w -> obj w s S -> obj w m Mo -> is_sparse_matrix S -> not_sparse_vector Mo ->
  denotes S R C f -> denotes Mo R C g ->
  mat_Values S <= Z.of_nat (e_fuel E) -> mat_Values Mo <= Z.of_nat (e_fuel E) ->
  exists w' t O', m_Add E s m w = (w', Ok t) /\ (forall x, ~ obj w t x) /\ extends w w' /\ obj w' t O' /\ same_storage S O' /\
    denotes O' R C (fun i j => nadd (f i j) (g i j)).
Proof. exact @add_ints. Qed.
Print Assumptions C20_integer_types_partial.

Example C20_case :
  e_reg E0 = reg0 /\ reachable ops /\ obj ops 11 oS /\ denotes oS 2 3 (cell_of dS) /\ obj ops 8 oP /\ denotes oP 2 3 (cell_of dP) /\ cells (fst (m_Add E0 11 8 ops)) 21 2 3 = map (fun z => Ok (gi z)) [6; 2; 0; 3; 7; 4].
Proof. the_case. Qed.

Theorem C20_sparse_addition_refuted :
  ~ (forall N E (w : world N) (s m : ptr) S Mo R C f g,
      sane N -> reachable w -> obj w s S -> obj w m Mo -> is_sparse_matrix S -> not_sparse_vector Mo ->
      denotes S R C f -> denotes Mo R C g -> mat_Values S <= Z.of_nat (e_fuel E) -> mat_Values Mo <= Z.of_nat (e_fuel E) ->
      exists w' t O', m_Add E s m w = (w', Ok t) /\ obj w' t O' /\ denotes O' R C (fun i j => nadd (f i j) (g i j))).
Proof. exact add_sparse_no. Qed.
Print Assumptions C20_sparse_addition_refuted.

(** ** C21: false of the code: where a sparse receiver has no entry the cell of the
    argument itself is returned, and the sparse vector method subtracts the receiver
    from itself. *)

Theorem C21_exact_partial : forall N E (w : world N) (s m : ptr) S Mo R C f g,
  sane N -> reachable w -> obj w s S -> obj w m Mo -> not_sparse_vector S -> not_sparse_vector Mo ->
  denotes S R C f -> denotes Mo R C g -> mat_Values S <= Z.of_nat (e_fuel E) ->
  exists w' t O', m_Subtract E s m w = (w', Ok t) /\ (forall x, ~ obj w t x) /\ extends w w' /\ obj w' t O' /\ same_storage Mo O' /\
    denotes O' R C (fun i j => if stored S (f i j) then kept Mo (nsub (f i j) (g i j)) else g i j).
Proof. exact @sub_exact. Qed.
Print Assumptions C21_exact_partial.

Example C21_case :
  reachable ops /\ obj ops 11 oS /\ denotes oS 2 3 (cell_of dS) /\ obj ops 8 oP /\ denotes oP 2 3 (cell_of dP) /\ cells (fst (m_Subtract E0 11 8 ops)) 21 2 3 = map (fun z => Ok (gi z)) [4; 2; 0; 3; 7; 4].
Proof. the_case. Qed.

Theorem C21_sparse_subtraction_refuted :
  ~ (forall N E (w : world N) (s m : ptr) S Mo R C f g,
      sane N -> reachable w -> obj w s S -> obj w m Mo -> is_sparse_matrix S -> not_sparse_vector Mo ->
      denotes S R C f -> denotes Mo R C g -> mat_Values S <= Z.of_nat (e_fuel E) -> mat_Values Mo <= Z.of_nat (e_fuel E) ->
      exists w' t O', m_Subtract E s m w = (w', Ok t) /\ obj w' t O' /\ denotes O' R C (fun i j => nsub (f i j) (g i j))).
Proof. exact sub_sparse_no. Qed.
Print Assumptions C21_sparse_subtraction_refuted.

Theorem C21_sparse_vector_refuted :
  ~ (forall N E (w : world N) (s m : ptr) S Mo L f g,
      sane N -> reachable w -> obj w s (MSV S) -> obj w m Mo ->
      denotes (MSV S) L 1 f -> denotes Mo L 1 g -> mat_Values (MSV S) <= Z.of_nat (e_fuel E) ->
      exists w' t O', m_Subtract E s m w = (w', Ok t) /\ obj w' t O' /\ denotes O' L 1 (fun i j => nsub (f i j) (g i j))).
Proof. exact sub_sv_no. Qed.
Print Assumptions C21_sparse_vector_refuted.

(** ** C22: the method is right; the operator negates the cells of its output in place
    and ignores its input. *)

Theorem C22_negative_method : forall N E (w : world N) (s : ptr) S R C f,
  sane N -> reachable w -> obj w s S -> denotes S R C f -> mat_Values S <= Z.of_nat (e_fuel E) ->
  exists w' t O', m_Negative E s w = (w', Ok t) /\ (forall x, ~ obj w t x) /\ extends w w' /\ obj w' t O' /\ same_storage S O' /\
    denotes O' R C (fun i j => if sparse_obj S && neqb (f i j) n0 then n0 else nneg (f i j)).
Proof. exact @neg_method. Qed.
Print Assumptions C22_negative_method.

Theorem C22_negative_operator_exact_partial : forall N E (w : world N) (s t : ptr) k O R C h,
  sane N -> reachable w -> obj w t O -> not_sparse_vector O -> denotes O R C h -> mask_dims w k R C ->
  mat_Values O <= Z.of_nat (e_fuel E) -> e_ctx E = None ->
  exists w' O', Negative E s k t w = (w', Ok tt) /\ extends_but t w w' /\ obj w' t O' /\ same_storage O O' /\
    denotes O' R C (fun i j => if stored O (h i j) && negb (covers w k i j) then nneg (h i j) else h i j).
Proof. exact @neg_operator. Qed.
Print Assumptions C22_negative_operator_exact_partial.

Example C22_case :
  reachable ops /\ obj ops 4 oC /\ denotes oC 2 3 (cell_of dC) /\ obj ops 11 oS /\ denotes oS 2 3 (cell_of dS) /\ obj ops 12 oQ /\ denotes oQ 2 2 (cell_of dQ) /\ cells (fst (m_Negative E0 4 ops)) 21 2 3 = map (fun z => Ok (gi z)) [(-10); 0; 1; (-2); (-2); (-2)] /\ cells (fst (m_Negative E0 11 ops)) 21 2 3 = map (fun z => Ok (gi z)) [(-5); 0; 0; 0; (-7); 0] /\ cells (fst (Negative E0 10 (MObj 3) 12 ops)) 12 2 2 = map (fun z => Ok (gi z)) [(-1); 2; (-3); (-4)].
Proof. the_case. Qed.

Theorem C22_negative_operator_refuted :
  ~ (forall N E (w : world N) (s t : ptr) k S O R C f h,
      sane N -> reachable w -> obj w s S -> obj w t O -> not_sparse_vector S -> not_sparse_vector O ->
      denotes S R C f -> denotes O R C h -> mask_dims w k R C -> mat_Values O <= Z.of_nat (e_fuel E) -> e_ctx E = None ->
      exists w' O', Negative E s k t w = (w', Ok tt) /\ obj w' t O' /\
        denotes O' R C (fun i j => if covers w k i j then h i j else nneg (f i j))).
Proof. exact neg_operator_no. Qed.
Print Assumptions C22_negative_operator_refuted.

(** ** C23: false of the code when a sparse matrix is scaled so that a stored value
    becomes zero; proved in all other cases. *)

Theorem C23_scalar_partial : forall N E (w : world N) (s : ptr) S a R C f,
  sane N -> reachable w -> obj w s S -> denotes S R C f -> e_ctx E = None -> mat_Values S <= Z.of_nat (e_fuel E) ->
  (sparse_obj S = true -> keeps_nz (nmul a)) ->
  exists w' t O', Scalar E s a w = (w', Ok t) /\ m_Scalar E s a w = (w', Ok t) /\
    (forall x, ~ obj w t x) /\ extends w w' /\ obj w' t O' /\ same_storage S O' /\
    denotes O' R C (fun i j => if sparse_obj S && neqb (f i j) n0 then n0 else nmul a (f i j)).
Proof. exact @scalar_exact. Qed.
Print Assumptions C23_scalar_partial.

Example C23_case :
  reachable ops /\ obj ops 11 oS /\ denotes oS 2 3 (cell_of dS) /\ obj ops 4 oC /\ denotes oC 2 3 (cell_of dC) /\ cells (fst (m_Scalar E0 11 (gi 3) ops)) 21 2 3 = map (fun z => Ok (gi z)) [15; 0; 0; 0; 21; 0] /\ cells (fst (m_Scalar E0 4 (gi 0) ops)) 21 2 3 = map (fun z => Ok (gi z)) [0; 0; 0; 0; 0; 0].
Proof. the_case. Qed.

Theorem C23_scalar_refuted :
  ~ (forall N E (w : world N) (s : ptr) S a R C f,
      sane N -> reachable w -> obj w s S -> denotes S R C f -> mat_Values S <= Z.of_nat (e_fuel E) ->
      exists w' t O', m_Scalar E s a w = (w', Ok t) /\ obj w' t O' /\ denotes O' R C (fun i j => nmul a (f i j))).
Proof. exact scalar_no. Qed.
Print Assumptions C23_scalar_refuted.

(** ** C24: true except for the sparse vector, whose entries [At] misses (C10) reappear
    in the transpose. *)

Theorem C24_transpose_partial : forall N E (w : world N) (s : ptr) S R C f,
  sane N -> reachable w -> obj w s S -> not_sparse_vector S -> denotes S R C f ->
  mat_Values S <= Z.of_nat (e_fuel E) -> (is_vector S -> R < 2 ^ 63) ->
  exists w' t O', m_Transpose E s w = (w', Ok t) /\ (forall x, ~ obj w t x) /\ extends w w' /\ obj w' t O' /\
    (is_sparse_matrix S -> same_storage S O') /\ denotes O' C R (fun i j => f j i).
Proof. exact @transpose_method. Qed.
Print Assumptions C24_transpose_partial.

Theorem C24_transpose_to : forall N E (w : world N) (s : ptr) S R C f,
  sane N -> reachable w -> obj w s S -> not_sparse_vector S -> denotes S R C f ->
  mat_Values S <= Z.of_nat (e_fuel E) -> e_ctx E = None ->
  (exists w' t x, TransposeToCSR E s w = (w', Ok t) /\ (forall x, ~ obj w t x) /\ extends w w' /\ obj w' t (MCSR x) /\
    denotes (MCSR x) C R (fun i j => zeroed (f j i))) /\
  (exists w' t x, TransposeToCSC E s w = (w', Ok t) /\ (forall x, ~ obj w t x) /\ extends w w' /\ obj w' t (MCSC x) /\
    denotes (MCSC x) C R (fun i j => zeroed (f j i))).
Proof. exact @transpose_to. Qed.
Print Assumptions C24_transpose_to.

Theorem C24_transpose_twice_partial : forall N E (w : world N) (s : ptr) S R C f,
  sane N -> reachable w -> obj w s S -> not_sparse_vector S -> denotes S R C f ->
  mat_Values S <= Z.of_nat (e_fuel E) -> R * C <= Z.of_nat (e_fuel E) -> (is_vector S -> R < 2 ^ 63) ->
  exists w1 t1 w2 t2 O, m_Transpose E s w = (w1, Ok t1) /\ m_Transpose E t1 w1 = (w2, Ok t2) /\ obj w2 t2 O /\ denotes O R C f.
Proof. exact @transpose_twice. Qed.
Print Assumptions C24_transpose_twice_partial.

Example C24_case :
  reachable ops /\ obj ops 0 oA /\ denotes oA 2 3 (cell_of dA) /\ obj ops 11 oS /\ denotes oS 2 3 (cell_of dS) /\ obj ops 13 o13 /\ denotes o13 3 1 (cell_of [[gi 1]; [gi 2]; [gi 3]]) /\ cells (fst (m_Transpose E0 0 ops)) 21 3 2 = map (fun z => Ok (gi z)) [1; 4; 2; 5; 3; 6] /\ cells (fst (m_Transpose E0 11 ops)) 21 3 2 = map (fun z => Ok (gi z)) [5; 0; 0; 7; 0; 0] /\ cells (fst (m_Transpose E0 13 ops)) 21 1 3 = map (fun z => Ok (gi z)) [1; 2; 3] /\ cells (fst (TransposeToCSC E0 11 ops)) 21 3 2 = map (fun z => Ok (gi z)) [5; 0; 0; 7; 0; 0] /\ cells (fst (TransposeToCSR E0 11 ops)) 21 3 2 = map (fun z => Ok (gi z)) [5; 0; 0; 7; 0; 0].
Proof. the_case. Qed.

Theorem C24_sparse_vector_refuted :
  ~ (forall N E (w : world N) (s : ptr) S R C f,
      sane N -> reachable w -> obj w s S -> denotes S R C f ->
      mat_Values S <= Z.of_nat (e_fuel E) -> (is_vector S -> R < 2 ^ 63) ->
      exists w' t O', m_Transpose E s w = (w', Ok t) /\ obj w' t O' /\ denotes O' C R (fun i j => f j i)).
Proof. exact transpose_sv_no. Qed.
Print Assumptions C24_sparse_vector_refuted.

(** ** C25: false of the code: the mask is tested at (r,c) and the output written at
    (c,r).  True for square outputs and symmetric masks. *)

Theorem C25_exact_partial : forall N E (w : world N) (s : ptr) k t S O R C f h,
  sane N -> reachable w -> obj w s S -> obj w t O -> not_sparse_vector S -> not_sparse_vector O ->
  denotes S R C f -> denotes O C R h -> mask_dims w k C R -> s <> t -> mask_not k t -> (R = C \/ forall p, k <> MObj p) ->
  mat_Values S <= Z.of_nat (e_fuel E) -> e_ctx E = None ->
  exists w' O', Transpose E s k t w = (w', Ok tt) /\ extends_but t w w' /\ obj w' t O' /\ same_storage O O' /\
    denotes O' C R (fun i j => if stored S (f j i) && negb (covers w k j i) then kept O (f j i) else h i j).
Proof. exact @transpose_exact. Qed.
Print Assumptions C25_exact_partial.

Theorem C25_symmetric_mask_partial : forall N E (w : world N) (s : ptr) k t S O R f h,
  sane N -> reachable w -> obj w s S -> obj w t O -> is_dense S -> not_sparse_vector O ->
  denotes S R R f -> denotes O R R h -> mask_dims w k R R -> s <> t -> mask_not k t ->
  (forall i j, covers w k i j = covers w k j i) ->
  mat_Values S <= Z.of_nat (e_fuel E) -> e_ctx E = None ->
  exists w' O', Transpose E s k t w = (w', Ok tt) /\ extends_but t w w' /\ obj w' t O' /\ same_storage O O' /\
    denotes O' R R (fun i j => if covers w k i j then h i j else kept O (f j i)).
Proof. exact @transpose_symmetric. Qed.
Print Assumptions C25_symmetric_mask_partial.

Example C25_case :
  reachable ops /\ obj ops 12 oQ /\ denotes oQ 2 2 (cell_of dQ) /\ obj ops 10 o10 /\ denotes o10 2 2 zeroes /\ mask_dims ops (MObj 3) 2 2 /\ cells (fst (Transpose E0 12 (MObj 3) 10 ops)) 10 2 2 = map (fun z => Ok (gi z)) [1; 3; 0; 4] /\ cells (fst (Transpose E0 12 (MUser 2 2 (fun i j => i =? j)) 10 ops)) 10 2 2 = map (fun z => Ok (gi z)) [0; 3; 2; 0].
Proof. the_case. Qed.

Theorem C25_masked_transpose_refuted :
  ~ (forall N E (w : world N) (s : ptr) k t S O R C f h,
      sane N -> reachable w -> obj w s S -> obj w t O -> is_dense S -> not_sparse_vector O ->
      denotes S R C f -> denotes O C R h -> mask_dims w k C R -> s <> t -> mask_not k t ->
      mat_Values S <= Z.of_nat (e_fuel E) -> e_ctx E = None ->
      exists w' O', Transpose E s k t w = (w', Ok tt) /\ obj w' t O' /\
        denotes O' C R (fun i j => if covers w k i j then h i j else kept O (f j i))).
Proof. exact transpose_mask_no. Qed.
Print Assumptions C25_masked_transpose_refuted.

Theorem C25_nonsquare_mask_refuted :
  obj ops 0 oA /\ denotes oA 2 3 (cell_of dA) /\ obj ops 19 o19 /\ denotes o19 3 2 zeroes /\
  mask_dims ops (MObj 20) 3 2 /\ snd (Transpose E0 0 (MObj 20) 19 ops) = Panic /\
  snd (Apply E0 0 (MObj 20) nneg 19 ops) = Panic.
Proof. exact transpose_nonsquare_panics. Qed.
Print Assumptions C25_nonsquare_mask_refuted.

(** ** C26: false of the code: with a separate output the result is transposed, and in
    place the operator is applied only where the mask is set. *)

Theorem C26_separate_exact_partial : forall N E (w : world N) (s : ptr) k t S O R C f h u,
  sane N -> reachable w -> obj w s S -> obj w t O -> not_sparse_vector S -> not_sparse_vector O ->
  denotes S R C f -> denotes O C R h -> mask_dims w k C R -> s <> t -> mask_not k t -> (R = C \/ forall p, k <> MObj p) ->
  mat_Values S <= Z.of_nat (e_fuel E) -> e_ctx E = None ->
  exists w' O', Apply E s k u t w = (w', Ok tt) /\ extends_but t w w' /\ obj w' t O' /\ same_storage O O' /\
    denotes O' C R (fun i j => if stored S (f j i) && negb (covers w k j i) then kept O (u (f j i)) else h i j).
Proof. exact @apply_out_exact. Qed.
Print Assumptions C26_separate_exact_partial.

Theorem C26_in_place_exact_partial : forall N E (w : world N) k t O R C h u,
  sane N -> reachable w -> obj w t O -> not_sparse_vector O -> denotes O R C h -> mask_dims w k R C ->
  (sparse_obj O = true -> keeps_nz u) -> mat_Values O <= Z.of_nat (e_fuel E) -> e_ctx E = None ->
  exists w' O', Apply E t k u t w = (w', Ok tt) /\ extends_but t w w' /\ obj w' t O' /\ same_storage O O' /\
    denotes O' R C (fun i j => if stored O (h i j) && covers w k i j then u (h i j) else h i j).
Proof. exact @apply_in_exact. Qed.
Print Assumptions C26_in_place_exact_partial.

Example C26_case :
  reachable ops /\ obj ops 12 oQ /\ denotes oQ 2 2 (cell_of dQ) /\ obj ops 10 o10 /\ denotes o10 2 2 zeroes /\ cells (fst (Apply E0 12 MNil nneg 10 ops)) 10 2 2 = map (fun z => Ok (gi z)) [(-1); (-3); (-2); (-4)] /\ cells (fst (Apply E0 12 (MObj 3) nneg 12 ops)) 12 2 2 = map (fun z => Ok (gi z)) [1; (-2); 3; 4].
Proof. the_case. Qed.

Theorem C26_separate_refuted :
  ~ (forall N E (w : world N) (s : ptr) k t S O R C f h u,
      sane N -> reachable w -> obj w s S -> obj w t O -> is_dense S -> is_dense O ->
      denotes S R C f -> denotes O R C h -> mask_dims w k R C -> s <> t -> mask_not k t ->
      mat_Values S <= Z.of_nat (e_fuel E) -> e_ctx E = None ->
      exists w' O', Apply E s k u t w = (w', Ok tt) /\ obj w' t O' /\
        denotes O' R C (fun i j => if covers w k i j then h i j else u (f i j))).
Proof. exact apply_no. Qed.
Print Assumptions C26_separate_refuted.

Theorem C26_in_place_refuted :
  ~ (forall N E (w : world N) k t O R C h u,
      sane N -> reachable w -> obj w t O -> is_dense O ->
      denotes O R C h -> mask_dims w k R C -> mask_not k t -> mat_Values O <= Z.of_nat (e_fuel E) -> e_ctx E = None ->
      exists w' O', Apply E t k u t w = (w', Ok tt) /\ obj w' t O' /\
        denotes O' R C (fun i j => if covers w k i j then h i j else u (h i j))).
Proof. exact apply_in_no. Qed.
Print Assumptions C26_in_place_refuted.

(** ** C27: equality within one storage class *)

Theorem C27_equal : forall N E (w : world N) (s m : ptr) S Mo R C R' C' f g,
  sane N -> cmp_ok N -> reachable w -> obj w s S -> obj w m Mo -> denotes S R C f -> denotes Mo R' C' g ->
  (is_dense S /\ is_dense Mo /\ IsSparseMatrix (e_reg E) S = false /\ IsSparseMatrix (e_reg E) Mo = false \/
   is_sparse_matrix S /\ is_sparse_matrix Mo /\ IsSparseMatrix (e_reg E) S = IsSparseMatrix (e_reg E) Mo) ->
  mat_Values S <= Z.of_nat (e_fuel E) -> mat_Values Mo <= Z.of_nat (e_fuel E) -> e_ctx E = None ->
  exists w' b, Equal E (Some s) (Some m) w = (w', Ok b) /\ w_heap w' = w_heap w /\
    (b = true <-> R = R' /\ C = C' /\ forall i j, 0 <= i < R -> 0 <= j < C -> neqb (f i j) (g i j) = true).
Proof. exact @equal_same. Qed.
Print Assumptions C27_equal.

Theorem C27_symmetric : forall N E (w : world N) (s m : ptr) S Mo R C R' C' f g,
  sane N -> cmp_ok N -> reachable w -> obj w s S -> obj w m Mo -> denotes S R C f -> denotes Mo R' C' g ->
  (is_dense S /\ is_dense Mo /\ IsSparseMatrix (e_reg E) S = false /\ IsSparseMatrix (e_reg E) Mo = false \/
   is_sparse_matrix S /\ is_sparse_matrix Mo /\ IsSparseMatrix (e_reg E) S = IsSparseMatrix (e_reg E) Mo) ->
  mat_Values S <= Z.of_nat (e_fuel E) -> mat_Values Mo <= Z.of_nat (e_fuel E) -> e_ctx E = None ->
  exists b, snd (Equal E (Some s) (Some m) w) = Ok b /\ snd (Equal E (Some m) (Some s) w) = Ok b.
Proof. exact @equal_symmetric. Qed.
Print Assumptions C27_symmetric.

Example C27_case :
  reachable fops /\ obj fops 0 f0 /\ obj fops 2 f2 /\ denotes f0 2 3 (cell_of fS) /\ denotes f2 2 3 (cell_of fS) /\ IsSparseMatrix (e_reg E0) f0 = IsSparseMatrix (e_reg E0) f2 /\
  snd (Equal E0 (Some 0%nat) (Some 2%nat) fops) = Ok true /\ snd (Equal E0 (Some 0%nat) (Some 4%nat) ops) = Ok false /\ snd (Equal E0 (Some 4%nat) (Some 4%nat) ops) = Ok true.
Proof. the_case. Qed.

(** ** C28: false of the code in both directions; the theorems give the verdict in terms
    of the cells. *)

Theorem C28_mixed_exact_partial : forall N E (w : world N) (s m : ptr) S Mo R C f g,
  sane N -> cmp_ok N -> reachable w -> obj w s S -> obj w m Mo -> not_sparse_vector S -> not_sparse_vector Mo ->
  denotes S R C f -> denotes Mo R C g ->
  IsSparseMatrix (e_reg E) S = negb (IsSparseMatrix (e_reg E) Mo) ->
  mat_Values S <= Z.of_nat (e_fuel E) -> mat_Values Mo <= Z.of_nat (e_fuel E) -> e_ctx E = None ->
  exists w' b, Equal E (Some s) (Some m) w = (w', Ok b) /\ w_heap w' = w_heap w /\
    (b = true <-> forall i j, 0 <= i < R -> 0 <= j < C ->
       (if IsSparseMatrix (e_reg E) S then stored S (f i j) else stored Mo (g i j)) = true -> neqb (f i j) (g i j) = true).
Proof. exact @equal_mixed. Qed.
Print Assumptions C28_mixed_exact_partial.

Theorem C28_unregistered_counts_partial : forall N E (w : world N) (s m : ptr) S Mo,
  sane N -> reachable w -> obj w s S -> obj w m Mo ->
  IsSparseMatrix (e_reg E) S = IsSparseMatrix (e_reg E) Mo -> mat_Values S <> mat_Values Mo ->
  exists w', Equal E (Some s) (Some m) w = (w', Ok false) /\ w_heap w' = w_heap w.
Proof. exact @equal_counts. Qed.
Print Assumptions C28_unregistered_counts_partial.

Example C28_case :
  reachable fops /\ obj fops 0 f0 /\ obj fops 3 f3 /\ denotes f0 2 3 (cell_of fS) /\ denotes f3 2 3 (cell_of fS) /\ IsSparseMatrix (e_reg E0) f0 = negb (IsSparseMatrix (e_reg E0) f3) /\
  snd (Equal E0 (Some 0%nat) (Some 3%nat) fops) = Ok true /\ snd (Equal E0 (Some 1%nat) (Some 0%nat) fops) = Ok true.
Proof. the_case. Qed.

Theorem C28_different_cells_refuted :
  exists S Mo f g, obj fops 0 S /\ obj fops 1 Mo /\ is_sparse_matrix S /\ is_dense Mo /\ denotes S 2 3 f /\ denotes Mo 2 3 g /\
    snd (Equal E0 (Some 0%nat) (Some 1%nat) fops) = Ok true /\ neqb (f 0 1) (g 0 1) = false.
Proof. exact equal_mixed_true. Qed.
Print Assumptions C28_different_cells_refuted.

Theorem C28_equal_cells_refuted :
  exists S Mo f, reachable csr_dense /\ obj csr_dense 0 S /\ obj csr_dense 1 Mo /\ is_sparse_matrix S /\ is_dense Mo /\
    denotes S 2 3 f /\ denotes Mo 2 3 f /\ (forall i j, 0 <= i < 2 -> 0 <= j < 3 -> neqb (f i j) (f i j) = true) /\
    snd (Equal E0 (Some 0%nat) (Some 1%nat) csr_dense) = Ok false.
Proof. exact equal_unregistered_false. Qed.
Print Assumptions C28_equal_cells_refuted.

(** ** C29: [NotEqual], nil and shapes *)

Theorem C29_not_equal : forall N E (w : world N) a b,
  NotEqual E a b w = (fst (Equal E a b w), rmap negb (snd (Equal E a b w))).
Proof. exact @not_equal. Qed.
Print Assumptions C29_not_equal.

Theorem C29_nil : forall N E (w : world N) p,
  Equal E None None w = (w, Ok true) /\ Equal E None (Some p) w = (w, Ok false) /\ Equal E (Some p) None w = (w, Ok false).
Proof. exact @equal_nil. Qed.
Print Assumptions C29_nil.

Theorem C29_shape : forall N E (w : world N) (s m : ptr) S Mo,
  obj w s S -> obj w m Mo ->
  ~ (mat_Rows S = mat_Rows Mo /\ mat_Columns S = mat_Columns Mo) -> Equal E (Some s) (Some m) w = (w, Ok false).
Proof. exact @equal_shape. Qed.
Print Assumptions C29_shape.

Example C29_case :
  reachable ops /\ obj ops 0 oA /\ denotes oA 2 3 (cell_of dA) /\ obj ops 1 oB /\ denotes oB 3 2 (cell_of dB) /\ snd (NotEqual E0 (Some 0%nat) (Some 1%nat) ops) = Ok true /\ snd (NotEqual E0 (Some 0%nat) (Some 0%nat) ops) = Ok false /\ snd (NotEqual E0 None (Some 0%nat) ops) = Ok true.
Proof. the_case. Qed.

(** ** C30: false of the code: where both operands are non-zero the second overwrites
    the first, and same-shape matrices that are not square are rejected. *)

Theorem C30_exact_partial : forall N E (w : world N) (s m : ptr) k t S Mo O R C f g h,
  sane N -> reachable w -> obj w s S -> obj w m Mo -> obj w t O ->
  not_sparse_vector S -> not_sparse_vector Mo -> not_sparse_vector O ->
  denotes S R C f -> denotes Mo R C g -> denotes O R C h -> mask_dims w k R C -> mask_not k t ->
  mat_Values S <= Z.of_nat (e_fuel E) -> mat_Values Mo <= Z.of_nat (e_fuel E) -> e_ctx E = None ->
  (R = C -> ElementWiseMatrixAdd E s m k t w = elementWiseAdd E s m k t w) /\
  ElementWiseVectorAdd E s m k t w = elementWiseAdd E s m k t w /\
  exists w' O', elementWiseAdd E s m k t w = (w', Ok tt) /\ extends_but t w w' /\ obj w' t O' /\ same_storage O O' /\
    denotes O' R C (fun i j =>
      if covers w k i j then h i j
      else if negb (neqb (g i j) n0) && negb (Nat.eqb m t) then kept O (g i j)
      else if negb (neqb (f i j) n0) && negb (Nat.eqb s t) then kept O (f i j)
      else h i j).
Proof. exact @ewa_exact. Qed.
Print Assumptions C30_exact_partial.

Theorem C30_nonsquare_refuted : forall N E (w : world N) (s m : ptr) k t S Mo,
  obj w s S -> obj w m Mo -> mat_Rows Mo <> mat_Columns S ->
  ElementWiseMatrixAdd E s m k t w = (w, Panic) /\ ElementWiseMatrixMultiply E s m k t w = (w, Panic).
Proof. exact @ew_nonsquare. Qed.
Print Assumptions C30_nonsquare_refuted.

Example C30_case :
  reachable ops /\ obj ops 12 oQ /\ denotes oQ 2 2 (cell_of dQ) /\ obj ops 2 oH /\ denotes oH 2 2 (cell_of dH) /\ obj ops 10 o10 /\ denotes o10 2 2 zeroes /\ obj ops 0 oA /\ denotes oA 2 3 (cell_of dA) /\ obj ops 4 oC /\ denotes oC 2 3 (cell_of dC) /\ cells (fst (ElementWiseMatrixAdd E0 12 2 MNil 10 ops)) 10 2 2 = map (fun z => Ok (gi z)) [1; 99; 3; 4] /\ snd (ElementWiseMatrixAdd E0 0 4 MNil 0 ops) = Panic.
Proof. the_case. Qed.

Theorem C30_addition_refuted :
  ~ (forall N E (w : world N) (s m : ptr) t S Mo O R f g h,
      sane N -> reachable w -> obj w s S -> obj w m Mo -> obj w t O -> is_dense S -> is_dense Mo -> is_dense O ->
      denotes S R R f -> denotes Mo R R g -> denotes O R R h -> s <> t -> m <> t -> R * R <= Z.of_nat (e_fuel E) -> e_ctx E = None ->
      exists w' O', ElementWiseMatrixAdd E s m MNil t w = (w', Ok tt) /\ obj w' t O' /\ denotes O' R R (fun i j => nadd (f i j) (g i j))).
Proof. exact ewa_no. Qed.
Print Assumptions C30_addition_refuted.

(** ** C31: false of the code: a cell is written, with the common value, only where the
    operands are equal. *)

Theorem C31_exact_partial : forall N E (w : world N) (s m : ptr) k t S Mo O R C f g h,
  sane N -> cmp_ok N -> reachable w -> obj w s S -> obj w m Mo -> obj w t O ->
  not_sparse_vector S -> not_sparse_vector Mo -> not_sparse_vector O ->
  denotes S R C f -> denotes Mo R C g -> denotes O R C h -> mask_dims w k R C -> s <> t -> m <> t ->
  mat_Values S <= Z.of_nat (e_fuel E) -> mat_Values Mo <= Z.of_nat (e_fuel E) -> e_ctx E = None ->
  (R = C -> ElementWiseMatrixMultiply E s m k t w = elementWiseMultiply E s m k t w) /\
  ElementWiseVectorMultiply E s m k t w = elementWiseMultiply E s m k t w /\
  exists w' O', elementWiseMultiply E s m k t w = (w', Ok tt) /\ extends_but t w w' /\ obj w' t O' /\ same_storage O O' /\
    denotes O' R C (fun i j =>
      let src := if IsSparseMatrix (e_reg E) S then stored S (f i j) else stored Mo (g i j) in
      if src && neqb (f i j) (g i j) && negb (covers w k i j)
      then kept O (if IsSparseMatrix (e_reg E) S then f i j else g i j) else h i j).
Proof. exact @ewm_exact. Qed.
Print Assumptions C31_exact_partial.

Theorem C31_in_place_exact_partial : forall N E (w : world N) (s m : ptr) k t Src O R C f h,
  sane N -> reachable w -> (m = t /\ obj w s Src \/ s = t /\ m <> t /\ obj w m Src) -> obj w t O ->
  not_sparse_vector Src -> not_sparse_vector O -> denotes Src R C f -> denotes O R C h -> mask_dims w k R C ->
  (s <> m \/ is_dense O) ->
  mat_Values Src <= Z.of_nat (e_fuel E) -> e_ctx E = None ->
  exists w' O', elementWiseMultiply E s m k t w = (w', Ok tt) /\ extends_but t w w' /\ obj w' t O' /\ same_storage O O' /\
    denotes O' R C (fun i j => if stored Src (f i j) && negb (covers w k i j)
      then kept O (if neqb (f i j) (h i j) then h i j else n0) else h i j).
Proof. exact @ewm_in_exact. Qed.
Print Assumptions C31_in_place_exact_partial.

Example C31_case :
  reachable ops /\ obj ops 12 oQ /\ denotes oQ 2 2 (cell_of dQ) /\ obj ops 2 oH /\ denotes oH 2 2 (cell_of dH) /\ obj ops 10 o10 /\ denotes o10 2 2 zeroes /\ cells (fst (ElementWiseMatrixMultiply E0 12 12 MNil 10 ops)) 10 2 2 = map (fun z => Ok (gi z)) [1; 2; 3; 4] /\ cells (fst (ElementWiseMatrixMultiply E0 12 2 MNil 12 ops)) 12 2 2 = map (fun z => Ok (gi z)) [0; 0; 0; 0].
Proof. the_case. Qed.

Theorem C31_multiplication_refuted :
  ~ (forall N E (w : world N) (s m : ptr) t S Mo O R f g h,
      sane N -> reachable w -> obj w s S -> obj w m Mo -> obj w t O -> is_dense S -> is_dense Mo -> is_dense O ->
      denotes S R R f -> denotes Mo R R g -> denotes O R R h -> s <> t -> m <> t -> R * R <= Z.of_nat (e_fuel E) -> e_ctx E = None ->
      exists w' O', ElementWiseMatrixMultiply E s m MNil t w = (w', Ok tt) /\ obj w' t O' /\ denotes O' R R (fun i j => nmul (f i j) (g i j))).
Proof. exact ewm_no. Qed.
Print Assumptions C31_multiplication_refuted.

(** ** C35: cancellation leaves a prefix of the work.  [until_done n E w w' d rest] says how long the prefix [d] is: everything the loop reaches before the context is done, asking the context [n] times per element; [in_time E w n]: [n] rounds are over before that *)

Theorem C35_multiply_prefix : forall N E (w : world N) (s m : ptr) k t S Mo O R K C f g h,
  sane N -> reachable w -> obj w s S -> obj w m Mo -> obj w t O -> not_sparse_vector O ->
  denotes S R K f -> denotes Mo K C g -> denotes O R C h -> mask_dims w k R C -> s <> t -> m <> t ->
  exists w' O' L rest, MatrixMatrixMultiply E s m k t w = (w', Ok tt) /\ extends_but t w w' /\ obj w' t O' /\ same_storage O O' /\
    positions R C = L ++ rest /\ until_done (Z.to_nat K) E w w' L rest /\
    denotes O' R C (fun i j => if visited L i j && negb (covers w k i j)
      then kept O (sum_from n0 (fun l => nmul (shown S K (f i) l) (shown Mo K (fun r => g r j) l)) 0 K) else h i j).
Proof. exact @mul_prefix. Qed.
Print Assumptions C35_multiply_prefix.

Theorem C35_add_prefix : forall N E (w : world N) (s m : ptr) k t S Mo O R C f g h,
  sane N -> reachable w -> obj w s S -> obj w m Mo -> obj w t O ->
  not_sparse_vector S -> not_sparse_vector Mo -> not_sparse_vector O ->
  denotes S R C f -> denotes Mo R C g -> denotes O R C h -> mask_dims w k R C ->
  let Src := if IsSparseMatrix (e_reg E) S then S else Mo in
  ((if IsSparseMatrix (e_reg E) S then s else m) <> t \/ is_dense O) -> mat_Values Src <= Z.of_nat (e_fuel E) ->
  exists w' O' d rest, Add E s m k t w = (w', Ok tt) /\ extends_but t w w' /\ obj w' t O' /\ same_storage O O' /\
    enumerates Src (d ++ rest) /\ until_done 1 E w w' d rest /\
    denotes O' R C (fun i j => if visited (map fst d) i j && negb (covers w k i j)
      then kept O (if IsSparseMatrix (e_reg E) S then nadd (g i j) (f i j) else nadd (f i j) (g i j)) else h i j).
Proof. exact @add_prefix. Qed.
Print Assumptions C35_add_prefix.

Theorem C35_subtract_prefix : forall N E (w : world N) (s m : ptr) k t S Mo O R C f h,
  sane N -> reachable w -> obj w s S -> obj w m Mo -> obj w t O ->
  not_sparse_vector S -> not_sparse_vector O ->
  denotes S R C f -> mat_Rows Mo = R -> mat_Columns Mo = C -> denotes O R C h -> mask_dims w k R C ->
  (s <> t \/ is_dense O) -> mat_Values S <= Z.of_nat (e_fuel E) ->
  exists w' O' d rest, Subtract E s m k t w = (w', Ok tt) /\ extends_but t w w' /\ obj w' t O' /\ same_storage O O' /\
    enumerates S (d ++ rest) /\ until_done 1 E w w' d rest /\
    denotes O' R C (fun i j => if visited (map fst d) i j && negb (covers w k i j)
                               then kept O (nsub (f i j) (h i j)) else h i j).
Proof. exact @sub_prefix. Qed.
Print Assumptions C35_subtract_prefix.

Theorem C35_transpose_prefix : forall N E (w : world N) (s : ptr) k t S O R C f h,
  sane N -> reachable w -> obj w s S -> obj w t O -> not_sparse_vector S -> not_sparse_vector O ->
  denotes S R C f -> denotes O C R h -> mask_dims w k C R ->
  s <> t -> mask_not k t -> (R = C \/ forall p, k <> MObj p) -> mat_Values S <= Z.of_nat (e_fuel E) ->
  exists w' O' d rest, Transpose E s k t w = (w', Ok tt) /\ extends_but t w w' /\ obj w' t O' /\ same_storage O O' /\
    enumerates S (d ++ rest) /\ until_done 1 E w w' d rest /\
    denotes O' C R (fun i j => if visited (map fst d) j i && negb (covers w k j i) then kept O (f j i) else h i j).
Proof. exact @transpose_prefix. Qed.
Print Assumptions C35_transpose_prefix.

Theorem C35_apply_prefix : forall N E (w : world N) (s : ptr) k t S O R C f h u,
  sane N -> reachable w -> obj w s S -> obj w t O -> not_sparse_vector S -> not_sparse_vector O ->
  denotes S R C f -> denotes O C R h -> mask_dims w k C R ->
  s <> t -> mask_not k t -> (R = C \/ forall p, k <> MObj p) -> mat_Values S <= Z.of_nat (e_fuel E) ->
  exists w' O' d rest, Apply E s k u t w = (w', Ok tt) /\ extends_but t w w' /\ obj w' t O' /\ same_storage O O' /\
    enumerates S (d ++ rest) /\ until_done 1 E w w' d rest /\
    denotes O' C R (fun i j => if visited (map fst d) j i && negb (covers w k j i) then kept O (u (f j i)) else h i j).
Proof. exact @apply_prefix. Qed.
Print Assumptions C35_apply_prefix.

Theorem C35_apply_in_place_prefix : forall N E (w : world N) (t : ptr) k O R C h u,
  sane N -> reachable w -> obj w t O -> not_sparse_vector O -> denotes O R C h -> mask_dims w k R C ->
  (sparse_obj O = true -> keeps_nz u) -> mat_Values O <= Z.of_nat (e_fuel E) ->
  exists w' O' d rest, Apply E t k u t w = (w', Ok tt) /\ extends_but t w w' /\ obj w' t O' /\ same_storage O O' /\
    enumerates O (d ++ rest) /\ until_done 1 E w w' d rest /\
    denotes O' R C (fun i j => if visited (map fst d) i j && covers w k i j then u (h i j) else h i j).
Proof. exact @apply_in_prefix. Qed.
Print Assumptions C35_apply_in_place_prefix.

Theorem C35_element_wise_multiply_prefix : forall N E (w : world N) (s m : ptr) k t S Mo O R C f g h,
  sane N -> reachable w -> obj w s S -> obj w m Mo -> obj w t O ->
  not_sparse_vector S -> not_sparse_vector Mo -> not_sparse_vector O ->
  denotes S R C f -> denotes Mo R C g -> denotes O R C h -> mask_dims w k R C -> s <> t -> m <> t ->
  let Src := if IsSparseMatrix (e_reg E) S then S else Mo in
  mat_Values Src <= Z.of_nat (e_fuel E) ->
  exists w' O' d rest, elementWiseMultiply E s m k t w = (w', Ok tt) /\ extends_but t w w' /\ obj w' t O' /\ same_storage O O' /\
    enumerates Src (d ++ rest) /\ until_done 1 E w w' d rest /\
    denotes O' R C (fun i j => if visited (map fst d) i j &&
        ((if IsSparseMatrix (e_reg E) S then neqb (f i j) (g i j) else neqb (g i j) (f i j)) && negb (covers w k i j))
        then kept O (if IsSparseMatrix (e_reg E) S then f i j else g i j) else h i j).
Proof. exact @ewm_prefix. Qed.
Print Assumptions C35_element_wise_multiply_prefix.

Theorem C35_element_wise_add_prefix : forall N E (w : world N) (s m : ptr) k t S Mo O R C f g h,
  sane N -> reachable w -> obj w s S -> obj w m Mo -> obj w t O ->
  not_sparse_vector S -> not_sparse_vector Mo -> not_sparse_vector O ->
  denotes S R C f -> denotes Mo R C g -> denotes O R C h -> mask_dims w k R C -> mask_not k t ->
  mat_Values S <= Z.of_nat (e_fuel E) -> mat_Values Mo <= Z.of_nat (e_fuel E) ->
  exists w' O' ds rs dm rm, elementWiseAdd E s m k t w = (w', Ok tt) /\ extends_but t w w' /\ obj w' t O' /\ same_storage O O' /\
    enumerates S (ds ++ rs) /\ enumerates Mo (dm ++ rm) /\
    until_done 1 E w w' ((if Nat.eqb s t then [] else ds) ++ (if Nat.eqb m t then [] else dm)) (rs ++ rm) /\ (rs <> [] -> dm = []) /\
    denotes O' R C (fun i j =>
      if negb (covers w k i j) then
        if visited (map fst dm) i j && negb (neqb (g i j) n0) && negb (Nat.eqb m t) then kept O (g i j)
        else if visited (map fst ds) i j && negb (neqb (f i j) n0) && negb (Nat.eqb s t) then kept O (f i j)
        else h i j
      else h i j).
Proof. exact @ewa_prefix. Qed.
Print Assumptions C35_element_wise_add_prefix.

Theorem C35_equal_prefix : forall N E (w : world N) (s m : ptr) S Mo,
  sane N -> reachable w -> obj w s S -> obj w m Mo ->
  mat_Values S <= Z.of_nat (e_fuel E) -> mat_Values Mo <= Z.of_nat (e_fuel E) ->
  exists w' b w2 b2, Equal E (Some s) (Some m) w = (w', Ok b) /\ w_heap w' = w_heap w /\
    Equal (bg E) (Some s) (Some m) w = (w2, Ok b2) /\
    b = b2 && in_time E w (Z.to_nat (mat_Values (if IsSparseMatrix (e_reg E) S then S else Mo))).
Proof. exact @equal_prefix. Qed.
Print Assumptions C35_equal_prefix.

Theorem C35_negative_prefix : forall N E (w : world N) (s t : ptr) k O R C h,
  sane N -> reachable w -> obj w t O -> not_sparse_vector O -> denotes O R C h -> mask_dims w k R C ->
  mat_Values O <= Z.of_nat (e_fuel E) ->
  exists w' O' d rest, Negative E s k t w = (w', Ok tt) /\ extends_but t w w' /\ obj w' t O' /\ same_storage O O' /\
    enumerates O (d ++ rest) /\ until_done 1 E w w' d rest /\
    denotes O' R C (fun i j => if visited (map fst d) i j && negb (covers w k i j) then nneg (h i j) else h i j).
Proof. exact @negative_prefix. Qed.
Print Assumptions C35_negative_prefix.

Theorem C35_equal_cancelled : forall N E k (w : world N) (s m : ptr) S Mo,
  sane N -> reachable w -> obj w s S -> obj w m Mo -> e_ctx E = Some k ->
  0 < mat_Values S -> 0 < mat_Values Mo -> mat_Values S <= Z.of_nat (e_fuel E) -> mat_Values Mo <= Z.of_nat (e_fuel E) ->
  (k <= w_polls w)%nat ->
  exists w', Equal E (Some s) (Some m) w = (w', Ok false) /\ w_heap w' = w_heap w.
Proof. exact @equal_cancelled. Qed.
Print Assumptions C35_equal_cancelled.

Example C35_case :
  reachable ops /\ obj ops 0 oA /\ denotes oA 2 3 (cell_of dA) /\ obj ops 1 oB /\ denotes oB 3 2 (cell_of dB) /\ obj ops 2 oH /\ denotes oH 2 2 (cell_of dH) /\ obj ops 12 oQ /\ denotes oQ 2 2 (cell_of dQ) /\ obj ops 10 o10 /\ denotes o10 2 2 zeroes /\ e_ctx (Ecancel 2) = Some 2%nat /\ cells (fst (MatrixMatrixMultiply (Ecancel 7) 0 1 MNil 2 ops)) 2 2 2 = map (fun z => Ok (gi z)) [5; 11; 0; 0] /\ cells (fst (Transpose (Ecancel 2) 12 MNil 10 ops)) 10 2 2 = map (fun z => Ok (gi z)) [1; 0; 2; 0] /\ cells (fst (Subtract (Ecancel 3) 12 12 MNil 10 ops)) 10 2 2 = map (fun z => Ok (gi z)) [1; 2; 3; 0] /\ snd (Equal (Ecancel 3) (Some 12%nat) (Some 12%nat) ops) = Ok false.
Proof. the_case. Qed.

(** ** C36: false of the code: a cancelled context makes the loop spin without advancing
    the iterator.  The theorem says exactly when [Scalar] returns. *)

Theorem C36_scalar_termination_exact_partial : forall N E k (w : world N) (s : ptr) S a,
  sane N -> reachable w -> obj w s S -> e_ctx E = Some k ->
  (sparse_obj S = true -> keeps_nz (nmul a)) ->
  (0 < mat_Values S -> Z.of_nat k < Z.of_nat (w_polls w) + mat_Values S -> exists w', Scalar E s a w = (w', Diverge)) /\
  (mat_Values S = 0 \/ Z.of_nat (w_polls w) + mat_Values S <= Z.of_nat k -> mat_Values S <= Z.of_nat (e_fuel E) ->
     exists w' p, Scalar E s a w = (w', Ok p)).
Proof. exact @scalar_cancel. Qed.
Print Assumptions C36_scalar_termination_exact_partial.

Example C36_case :
  reachable ops /\ obj ops 12 oQ /\ denotes oQ 2 2 (cell_of dQ) /\ snd (Scalar (Ecancel 4) 12 (gi 2) ops) = Ok 21%nat /\ snd (Scalar (Ecancel 3) 12 (gi 2) ops) = Diverge.
Proof. the_case. Qed.

Theorem C36_cancelled_scalar_refuted :
  exists S, obj ops 12 S /\ 0 < mat_Values S /\
  forall fuel, snd (Scalar (MkEnv (Some 2%nat) reg0 fuel) 12 (gi 2) ops) = Diverge.
Proof. exact scalar_cancel_hangs. Qed.
Print Assumptions C36_cancelled_scalar_refuted.

(** ** C56: covered cells are never written *)

Theorem C56_covered_cells_kept : forall N op E (w : world N) (s m : ptr) k t O R C h,
  sane N -> reachable w ->
  In op masked_operators -> obj w t O -> not_sparse_vector O -> denotes O R C h -> mask_dims w k R C -> mask_not k t ->
  exists O', obj (fst (op E s m k t w)) t O' /\ mat_Rows O' = R /\ mat_Columns O' = C /\
    forall i j, 0 <= i < R -> 0 <= j < C -> covers w k i j = true -> mat_At O' i j = Ok (h i j, O').
Proof. exact @masked_frame_reach. Qed.
Print Assumptions C56_covered_cells_kept.

Theorem C56_mask_shape : forall N op E (w : world N) (s m : ptr) k t (O S Mo : mat N),
  In op masked_operators -> obj w t O -> obj w s S -> obj w m Mo ->
  ~ mask_dims w k (mat_Rows O) (mat_Columns O) -> op E s m k t w = (w, Panic).
Proof. exact @masked_panic. Qed.
Print Assumptions C56_mask_shape.

Example C56_case :
  mask_dims ops (MObj 3) 2 2 /\ reachable ops /\ obj ops 2 oH /\ denotes oH 2 2 (cell_of dH) /\ obj ops 12 oQ /\ denotes oQ 2 2 (cell_of dQ) /\ cells (fst (Add E0 12 12 (MObj 3) 2 ops)) 2 2 2 = map (fun z => Ok (gi z)) [2; 99; 6; 8] /\ cells (fst (elementWiseAdd E0 12 12 (MObj 3) 2 ops)) 2 2 2 = map (fun z => Ok (gi z)) [1; 99; 3; 4] /\ snd (Add E0 12 12 (MEmpty 3 2) 2 ops) = Panic.
Proof. the_case. Qed.

(** ** C57: false of the code, which computes the matrix-vector product M v. *)

Theorem C57_exact_partial : forall N E (w : world N) (s m : ptr) k t S Mo O R C f g h,
  sane N -> reachable w -> obj w s S -> obj w m Mo -> obj w t O -> not_sparse_vector O ->
  denotes S C 1 f -> denotes Mo R C g -> denotes O R 1 h -> mask_dims w k R 1 -> s <> t -> m <> t -> e_ctx E = None ->
  exists w' O', VectorMatrixMultiply E s m k t w = (w', Ok tt) /\
    extends_but t w w' /\ obj w' t O' /\ same_storage O O' /\
    denotes O' R 1 (fun i j => if covers w k i j then h i j else
      kept O (sum_from n0 (fun l => nmul (shown Mo C (g i) l) (shown S C (fun r => f r j) l)) 0 C)).
Proof. exact @vecmat_exact. Qed.
Print Assumptions C57_exact_partial.

Theorem C57_mismatch_partial : forall N E (w : world N) (s m : ptr) k t S Mo,
  obj w s S -> obj w m Mo -> mat_Columns Mo <> mat_Rows S ->
  VectorMatrixMultiply E s m k t w = (w, Panic).
Proof. exact @vecmat_mismatch. Qed.
Print Assumptions C57_mismatch_partial.

Example C57_case :
  reachable ops /\ obj ops 15 o15 /\ denotes o15 2 1 (cell_of [[gi 1]; [gi 0]]) /\ obj ops 12 oQ /\ denotes oQ 2 2 (cell_of dQ) /\ obj ops 16 o16 /\ denotes o16 2 1 zeroes /\ cells (fst (VectorMatrixMultiply E0 15 12 MNil 16 ops)) 16 2 1 = map (fun z => Ok (gi z)) [1; 3].
Proof. the_case. Qed.

Theorem C57_row_product_refuted :
  ~ (forall N E (w : world N) (s m : ptr) t S Mo O R f g h,
      sane N -> reachable w -> obj w s S -> obj w m Mo -> obj w t O -> is_dense S -> is_dense Mo -> is_dense O ->
      denotes S R 1 f -> denotes Mo R R g -> denotes O R 1 h -> s <> t -> m <> t -> e_ctx E = None ->
      exists w' O', VectorMatrixMultiply E s m MNil t w = (w', Ok tt) /\ obj w' t O' /\
        denotes O' R 1 (fun i _ => sum_from n0 (fun l => nmul (f l 0) (g l i)) 0 R)).
Proof. exact vecmat_no. Qed.
Print Assumptions C57_row_product_refuted.

(** ** C58: false of the code for every product that is not 1 x 1. *)

Theorem C58_vector_multiply_panics_partial : forall N E (w : world N) (s m : ptr) S Mo l c f g,
  sane N -> reachable w -> obj w s S -> obj w m Mo -> is_vector S ->
  denotes S l 1 f -> denotes Mo 1 c g -> 0 < l -> 0 < c -> 1 < l \/ 1 < c ->
  snd (m_Multiply E s m w) = Panic.
Proof. exact @vec_multiply_panics. Qed.
Print Assumptions C58_vector_multiply_panics_partial.

Example C58_case :
  reachable ops /\ obj ops 13 o13 /\ denotes o13 3 1 (cell_of [[gi 1]; [gi 2]; [gi 3]]) /\ obj ops 5 o5 /\ denotes o5 1 3 (cell_of [[gi 0; gi 0; gi 1]]) /\ snd (m_Multiply E0 13 5 ops) = Panic.
Proof. the_case. Qed.

Theorem C58_vector_multiply_refuted :
  ~ (forall N E (w : world N) (s m : ptr) S Mo l c f g,
      sane N -> reachable w -> obj w s S -> obj w m Mo -> is_vector S -> denotes S l 1 f -> denotes Mo 1 c g -> 0 < l -> 0 < c ->
      exists w' t O', m_Multiply E s m w = (w', Ok t) /\ obj w' t O' /\ denotes O' l c (fun i j => nmul (f i 0) (g 0 j))).
Proof. exact vec_multiply_no. Qed.
Print Assumptions C58_vector_multiply_refuted.

(** Properties C01-C16 and C55: the storage types.

    [sane N] holds for every Go number type ([go_types_sane]).  [reachable w]
    ranges over all heaps produced by any history of API calls (Api.v). *)
From Coq Require Import String Sorting.Sorted.
From Verif Require Import GoBase Num SparseVec Csr Csc DenseVec DenseMat Mat World Ops Spec Api.
From Verif Require Import StoreProofs VecProofs FrameProofs StoreThms Witness StoreWitness.

Theorem go_element_types_are_sane : forall N, In N go_types -> sane N.
Proof. exact go_types_sane. Qed.
Print Assumptions go_element_types_are_sane.

(** ** C01 *)
Theorem C01_csr_behaves_as_map : forall N R C, zero_ok N -> 0 <= R -> 0 <= C ->
  exists s : csr N, NewCSRMatrix R C = Ok s /\ behaves_as_map (MCSR s) zeroed R C (fun _ _ => n0).
Proof. exact @csr_map. Qed.
Print Assumptions C01_csr_behaves_as_map.

Theorem C01_reachable_csr_behaves_as_map : forall N (w : world N) p s R C f,
  sane N -> reachable w -> obj w p (MCSR s) -> denotes (MCSR s) R C f ->
  behaves_as_map (MCSR s) zeroed R C f.
Proof. exact @csr_reach_map. Qed.
Print Assumptions C01_reachable_csr_behaves_as_map.

Example C01_case :
  snd (do_ops (MCSR (csr_of (NewCSRMatrix (N:=num_goint) 2 2)))
     [OSet 1 1 (gi 5); OSet 0 1 (gi 3); OUpdate 1 1 (fun v => nadd v v); OAt 1 1; OSet 1 1 (gi 0); OAt 1 1; OAt 0 1; OAt 2 0])
  = [Done; Done; Done; Value (gi 10); Done; Value (gi 0); Value (gi 3); Panics].
Proof. vm_compute. reflexivity. Qed.
Example C01_reachable_case : reachable demo /\ exists s f, obj demo 0 (MCSR s) /\ denotes (MCSR s) 3 4 f /\ f 2 1 = gi 7.
Proof. exact demo_csr. Qed.

(** ** C02 *)
Theorem C02_csc_behaves_as_map : forall N R C, zero_ok N -> 0 <= R -> 0 <= C ->
  exists s : csc N, NewCSCMatrix R C = Ok s /\ behaves_as_map (MCSC s) zeroed R C (fun _ _ => n0).
Proof. exact @csc_map. Qed.
Print Assumptions C02_csc_behaves_as_map.

Theorem C02_reachable_csc_behaves_as_map : forall N (w : world N) p s R C f,
  sane N -> reachable w -> obj w p (MCSC s) -> denotes (MCSC s) R C f ->
  behaves_as_map (MCSC s) zeroed R C f.
Proof. exact @csc_reach_map. Qed.
Print Assumptions C02_reachable_csc_behaves_as_map.

Example C02_case : reachable demo /\ exists s f, obj demo 1 (MCSC s) /\ denotes (MCSC s) 3 4 f /\ f 2 1 = gi 7.
Proof. exact demo_csc. Qed.

(** ** C03 *)
Theorem C03_sparse_keeps_exactly_nonzeros : forall N (w : world N) p m R C f,
  sane N -> reachable w -> obj w p m -> is_sparse_matrix m -> denotes m R C f ->
  mat_Values m = count_cells (fun i j => negb (neqb (f i j) n0)) R C /\
  zlen (stored_values m) = mat_Values m /\
  (forall v, In v (stored_values m) -> neqb v n0 = false).
Proof. exact @sparse_exact. Qed.
Print Assumptions C03_sparse_keeps_exactly_nonzeros.

(** four writes of non-zero values, one overwritten by zero *)
Example C03_case : reachable demo /\ exists m, obj demo 0 m /\ is_sparse_matrix m /\ mat_Values m = 3.
Proof. exact demo_values. Qed.

(** ** C04 *)
Theorem C04_in_range_succeeds : forall N (w : world N) p m r c, sane N -> reachable w -> obj w p m ->
  0 <= r < mat_Rows m -> 0 <= c < mat_Columns m ->
  (exists v, p_At p r c w = (w, Ok v)) /\
  (exists b, mask_Element (MObj p) r c w = (w, Ok b)) /\
  (forall v, exists w', p_Set p r c v w = (w', Ok tt)) /\
  (forall f, exists w', p_Update p r c f w = (w', Ok tt)) /\
  (exists w' q, p_RowsAt p r w = (w', Ok q)) /\
  (exists w' q, p_ColumnsAt p c w = (w', Ok q)) /\
  (exists l, p_RowsAtToArray p r w = (w, Ok l)) /\
  (is_vector m -> (exists v, mat_AtVec m r = Ok v) /\ (forall v, exists w', p_SetVec p r v w = (w', Ok tt))).
Proof. exact @in_range. Qed.
Print Assumptions C04_in_range_succeeds.

(** The property is false of [DenseVector.At] with a wrong column (it ignores the
    column), so that call is left out here; see [C04_dense_vector_At_refuted]. *)
Theorem C04_out_of_range_panics_partial : forall N (w : world N) p m r c, sane N -> reachable w -> obj w p m ->
  (~ (0 <= r < mat_Rows m /\ 0 <= c < mat_Columns m) ->
     (forall v, p_Set p r c v w = (w, Panic)) /\
     (forall f, p_Update p r c f w = (w, Panic)) /\
     ((forall s, m <> MDV s) -> p_At p r c w = (w, Panic)) /\
     (~ is_vector m -> mask_Element (MObj p) r c w = (w, Panic))) /\
  (~ 0 <= r < mat_Rows m ->
     p_At p r c w = (w, Panic) /\
     p_RowsAt p r w = (w, Panic) /\ p_RowsAtToArray p r w = (w, Panic) /\
     mat_AtVec m r = Panic /\ (forall v, p_SetVec p r v w = (w, Panic))) /\
  (~ 0 <= c < mat_Columns m -> p_ColumnsAt p c w = (w, Panic)).
Proof. exact @out_of_range. Qed.
Print Assumptions C04_out_of_range_panics_partial.

Theorem C04_dense_vector_At_refuted :
  ~ (forall N (w : world N) p m r c, sane N -> reachable w -> obj w p m ->
       ~ (0 <= r < mat_Rows m /\ 0 <= c < mat_Columns m) -> p_At p r c w = (w, Panic)).
Proof. exact dv_At_column. Qed.
Print Assumptions C04_dense_vector_At_refuted.

Example C04_case : reachable demo /\ exists m, obj demo 0 m /\ mat_Rows m = 3 /\ mat_Columns m = 4 /\
  snd (p_At 0 2 1 demo) = Ok (gi 7) /\ snd (p_At 0 3 1 demo) = Panic.
Proof. exact demo_access. Qed.

(** ** C05 *)
Theorem C05_dense_behaves_as_map : forall N R C, 0 <= R -> 0 <= C ->
  exists s : dense N, newMatrix R C = Ok s /\ behaves_as_map (MDM s) exactly R C (fun _ _ => n0).
Proof. exact @dense_map. Qed.
Print Assumptions C05_dense_behaves_as_map.

Theorem C05_dense_from_array_behaves_as_map : forall N (d : list (list (T N))) row0 rest,
  d = row0 :: rest -> rectangular d ->
  exists s : dense N, NewDenseMatrixFromArray d = Ok s /\
    denotes (MDM s) (zlen d) (zlen row0) (cell_of d) /\
    behaves_as_map (MDM s) exactly (zlen d) (zlen row0) (cell_of d).
Proof. exact @dense_from_array_map. Qed.
Print Assumptions C05_dense_from_array_behaves_as_map.

Theorem C05_reachable_dense_behaves_as_map : forall N (w : world N) p s R C f,
  sane N -> reachable w -> obj w p (MDM s) -> denotes (MDM s) R C f ->
  behaves_as_map (MDM s) exactly R C f.
Proof. exact @dm_reach_map. Qed.
Print Assumptions C05_reachable_dense_behaves_as_map.

(** a dense matrix keeps even a NaN or a negative zero *)
Example C05_case :
  snd (do_ops (MDM (dm_of (newMatrix (N:=num_float64) 1 2)))
     [OSet 0 1 negative_zero; OAt 0 1; OSet 0 0 not_a_number; OAt 0 0])
  = [Done; Value negative_zero; Done; Value not_a_number].
Proof. vm_compute. reflexivity. Qed.
Example C05_reachable_case : reachable demo /\ exists s f, obj demo 2 (MDM s) /\ denotes (MDM s) 3 4 f /\ f 2 1 = gi 7.
Proof. exact demo_dense. Qed.

(** ** C06 *)
Theorem C06_dense_vector_behaves_as_map : forall N L, 0 <= L ->
  exists s : dvec N, newDenseVector L = Ok s /\
    vbehaves_as_map (MDV s) exactly false L (fun _ => n0) (fun _ => True).
Proof. exact @dvec_map. Qed.
Print Assumptions C06_dense_vector_behaves_as_map.

Theorem C06_dense_vector_from_array_behaves_as_map : forall N (d : list (T N)),
  exists s : dvec N, NewDenseVectorFromArray d = Ok s /\
    vbehaves_as_map (MDV s) exactly false (zlen d) (fun i => nth (Z.to_nat i) d n0) (fun _ => True).
Proof. exact @dvec_from_array. Qed.
Print Assumptions C06_dense_vector_from_array_behaves_as_map.

Theorem C06_reachable_dense_vector_behaves_as_map : forall N (w : world N) p s L g,
  sane N -> reachable w -> obj w p (MDV s) -> vdenotes (MDV s) L g ->
  vbehaves_as_map (MDV s) exactly false L g (fun _ => True).
Proof. exact @dv_reach_map. Qed.
Print Assumptions C06_reachable_dense_vector_behaves_as_map.

Example C06_case : reachable demo /\ exists s g, obj demo 3 (MDV s) /\ vdenotes (MDV s) 3 g /\ g 1 = gi 9.
Proof. exact demo_dvec. Qed.

(** ** C07: false of the code.  The index shortcut of SparseVector compares the
    position with the number of entries, so an entry written at position 2 or
    later of an empty vector cannot be read back. *)
Theorem C07_sparse_vector_is_map_refuted : forall N L i (x : T N), zero_ok N -> neqb x n0 = false -> 2 <= i < L ->
  exists s : svec N, NewSparseVector L = Ok s /\
    snd (do_vops (MSV s) [VSetVec i x; VAtVec i]) = [Done; Value n0] /\
    snd (map_vops zeroed true L (fun _ => n0) [VSetVec i x; VAtVec i]) = [Done; Value x] /\
    x <> n0.
Proof. exact @sv_map_false. Qed.
Print Assumptions C07_sparse_vector_is_map_refuted.

(** It is a map as long as no operation goes beyond the number of non-zero entries. *)
Theorem C07_sparse_vector_is_map_partial : forall N L, zero_ok N -> 0 <= L ->
  exists s : svec N, NewSparseVector L = Ok s /\
  forall os, near zeroed true L (fun _ => n0) os ->
    let '(m, outs) := do_vops (MSV s) os in
    let '(g, outs') := map_vops zeroed true L (fun _ => n0) os in
    outs = outs' /\ ascending_vector m L g.
Proof. exact @sv_behaves. Qed.
Print Assumptions C07_sparse_vector_is_map_partial.

Example C07_case : near (N:=num_goint) zeroed true 4 (fun _ => n0)
  [VSetVec 0 (gi 3); VSetVec 1 (gi 5); VAtVec 1; VUpdate 2 0 (fun _ => gi 8); VSetVec 1 (gi 0); VAtVec 2].
Proof. vm_compute. repeat split; discriminate. Qed.

(** ** C08 *)
Theorem C08_sparse_vector_from_array : forall N (d : list (T N)), zero_ok N ->
  exists s : svec N, NewSparseVectorFromArray d = Ok s /\
    ascending_vector (MSV s) (zlen d) (fun i => nth (Z.to_nat i) d n0).
Proof. exact @sv_from_array. Qed.
Print Assumptions C08_sparse_vector_from_array.

Theorem C08_sparse_rows_and_columns : forall N (w : world N) p m R C f,
  sane N -> reachable w -> obj w p m -> is_sparse_matrix m -> denotes m R C f ->
  (forall r, 0 <= r < R -> exists w' q v,
     p_RowsAt p r w = (w', Ok q) /\ extends w w' /\ obj w' q v /\ ascending_vector v C (f r)) /\
  (forall c, 0 <= c < C -> exists w' q v,
     p_ColumnsAt p c w = (w', Ok q) /\ extends w w' /\ obj w' q v /\ ascending_vector v R (fun r => f r c)).
Proof. exact @extract_sparse. Qed.
Print Assumptions C08_sparse_rows_and_columns.

(** the entry at position 2 is enumerated but reads as zero *)
Example C08_case : exists s : svec num_goint, NewSparseVectorFromArray [gi 0; gi 0; gi 7] = Ok s /\
  loop_Next 5 (MSV s) (mat_iterator (MSV s)) = Ok [(2, 0, gi 7)] /\ sv_AtVec s 2 = Ok (gi 0).
Proof. eexists; split; [reflexivity|]. split; vm_compute; reflexivity. Qed.

(** ** C09, C10, C11 *)
Theorem C09_csr_enumeration : forall N (w : world N) p (s : csr N) R C f fuel,
  sane N -> reachable w -> obj w p (MCSR s) -> denotes (MCSR s) R C f ->
  mat_Values (MCSR s) <= Z.of_nat fuel ->
  exists l, loop_Next fuel (MCSR s) (mat_iterator (MCSR s)) = Ok l /\ zlen l = mat_Values (MCSR s) /\
    StronglySorted before_row (map fst l) /\
    (forall i j v, In (i, j, v) l <-> (0 <= i < R /\ 0 <= j < C) /\ f i j = v /\ neqb v n0 = false).
Proof. exact @enum_csr. Qed.
Print Assumptions C09_csr_enumeration.
Example C09_case : exists s, obj demo 0 (MCSR s) /\
  loop_Next 5 (MCSR s) (mat_iterator (MCSR s)) = Ok [(0, 0, gi 5); (2, 1, gi 7); (2, 3, gi (-1))].
Proof. exact demo_enum_csr. Qed.

Theorem C10_csc_enumeration : forall N (w : world N) p (s : csc N) R C f fuel,
  sane N -> reachable w -> obj w p (MCSC s) -> denotes (MCSC s) R C f ->
  mat_Values (MCSC s) <= Z.of_nat fuel ->
  exists l, loop_Next fuel (MCSC s) (mat_iterator (MCSC s)) = Ok l /\ zlen l = mat_Values (MCSC s) /\
    StronglySorted before_col (map fst l) /\
    (forall i j v, In (i, j, v) l <-> (0 <= i < R /\ 0 <= j < C) /\ f i j = v /\ neqb v n0 = false).
Proof. exact @enum_csc. Qed.
Print Assumptions C10_csc_enumeration.
Example C10_case : exists s, obj demo 1 (MCSC s) /\
  loop_Next 5 (MCSC s) (mat_iterator (MCSC s)) = Ok [(0, 0, gi 5); (2, 1, gi 7); (0, 3, gi 2); (2, 3, gi (-1))].
Proof. exact demo_enum_csc. Qed.

Theorem C11_dense_enumeration : forall N (w : world N) p m R C f fuel,
  sane N -> reachable w -> obj w p m -> is_dense m -> denotes m R C f -> R * C <= Z.of_nat fuel ->
  mat_Values m = R * C /\
  loop_Next fuel m (mat_iterator m) = Ok (map (fun q => (q, f (fst q) (snd q))) (positions R C)).
Proof. exact @enum_dense. Qed.
Print Assumptions C11_dense_enumeration.
Example C11_case : exists m, obj demo 3 m /\ is_dense m /\
  loop_Next 5 m (mat_iterator m) = Ok [(0, 0, gi 0); (1, 0, gi 9); (2, 0, gi 0)].
Proof. exact demo_enum_dense. Qed.

(** ** C12 *)
Theorem C12_csr_from_array : forall N (d : list (list (T N))) row0 rest,
  zero_ok N -> d = row0 :: rest -> rectangular d ->
  exists s : csr N, NewCSRMatrixFromArray d = Ok s /\
    denotes (MCSR s) (zlen d) (zlen row0) (fun i j => zeroed (cell_of d i j)).
Proof. exact @csr_array. Qed.
Print Assumptions C12_csr_from_array.
Theorem C12_csc_from_array : forall N (d : list (list (T N))) row0 rest,
  zero_ok N -> d = row0 :: rest -> rectangular d ->
  exists s : csc N, NewCSCMatrixFromArray d = Ok s /\
    denotes (MCSC s) (zlen d) (zlen row0) (fun i j => zeroed (cell_of d i j)).
Proof. exact @csc_array. Qed.
Print Assumptions C12_csc_from_array.
Theorem C12_dense_from_array : forall N (d : list (list (T N))) row0 rest,
  d = row0 :: rest -> rectangular d ->
  exists s : dense N, NewDenseMatrixFromArray d = Ok s /\
    denotes (MDM s) (zlen d) (zlen row0) (cell_of d).
Proof. exact @dense_array. Qed.
Print Assumptions C12_dense_from_array.
Theorem C12_empty_array_panics : forall N,
  NewCSRMatrixFromArray (N:=N) [] = Panic /\ NewCSCMatrixFromArray (N:=N) [] = Panic /\
  NewDenseMatrixFromArray (N:=N) [] = Panic.
Proof. exact empty_array. Qed.
Print Assumptions C12_empty_array_panics.
Example C12_case : rectangular [[gi 1; gi 0]; [gi 0; gi 4]; [gi 5; gi 6]] /\
  exists s, NewCSCMatrixFromArray [[gi 1; gi 0]; [gi 0; gi 4]; [gi 5; gi 6]] = Ok s /\
    mat_Rows (MCSC s) = 3 /\ mat_Columns (MCSC s) = 2 /\ rmap fst (mat_At (MCSC s) 2 1) = Ok (gi 6).
Proof. exact array_case. Qed.

(** ** C13 *)
Theorem C13_rows_to_array : forall N (w : world N) p m R C f r,
  sane N -> reachable w -> obj w p m -> denotes m R C f -> 0 <= r < R ->
  p_RowsAtToArray p r w = (w, Ok (map (f r) (zrange 0 C))).
Proof. exact @rows_array. Qed.
Print Assumptions C13_rows_to_array.
Theorem C13_dense_rows_and_columns : forall N (w : world N) p m R C f,
  sane N -> reachable w -> obj w p m -> is_dense m -> denotes m R C f ->
  (forall r, 0 <= r < R -> exists w' q v,
     p_RowsAt p r w = (w', Ok q) /\ extends w w' /\ obj w' q v /\ vdenotes v C (f r)) /\
  (forall c, 0 <= c < C -> exists w' q v,
     p_ColumnsAt p c w = (w', Ok q) /\ extends w w' /\ obj w' q v /\ vdenotes v R (fun r => f r c)).
Proof. exact @extract_dense. Qed.
Print Assumptions C13_dense_rows_and_columns.
(** sparse rows and columns: [C08_sparse_rows_and_columns] *)
Example C13_case : snd (p_RowsAtToArray 1 2 demo) = Ok [gi 0; gi 7; gi 0; gi (-1)].
Proof. vm_compute. reflexivity. Qed.

(** ** C14 *)
Theorem C14_copies_are_faithful_and_independent : forall N (w : world N) p m R C f,
  sane N -> reachable w -> obj w p m -> denotes m R C f ->
  exists w' q m', p_Copy p w = (w', Ok q) /\ (forall x, ~ obj w q x) /\ extends w w' /\ obj w' q m' /\
    denotes m' R C f /\ mat_Values m' = mat_Values m /\
    (forall fuel, loop_Next fuel m' (mat_iterator m') = loop_Next fuel m (mat_iterator m)) /\
    (forall ks, (forall k, In k ks -> ~ In p (writes k)) -> obj (after_all ks w') p m) /\
    (forall ks, (forall k, In k ks -> ~ In q (writes k)) -> obj (after_all ks w') q m').
Proof. exact @copy_faithful. Qed.
Print Assumptions C14_copies_are_faithful_and_independent.
(** write the copy (object 5), read the original, and the other way round *)
Example C14_case :
  snd (p_At 0 2 1 (after_all [KCopy 0; KSet 5 2 1 (gi 1); KClear 5] demo)) = Ok (gi 7) /\
  snd (p_At 5 2 1 (after_all [KCopy 0; KSet 0 2 1 (gi 1); KMAdd E0 5 0] demo)) = Ok (gi 7).
Proof. split; vm_compute; reflexivity. Qed.

(** ** C15 *)
Theorem C15_reads_are_pure : forall N (w : world N) p r c, sane N -> reachable w ->
  w_heap (fst (p_At p r c w)) = w_heap w /\ w_heap (fst (mask_Element (MObj p) r c w)) = w_heap w.
Proof. exact @At_pure. Qed.
Print Assumptions C15_reads_are_pure.
Theorem C15_reading_calls_change_no_object : forall N (w : world N) k,
  sane N -> reachable w -> writes k = [] -> extends w (after k w).
Proof. exact @reads_pure. Qed.
Print Assumptions C15_reading_calls_change_no_object.
(** beyond reading calls: every call writes at most its target *)
Theorem C15_calls_write_only_their_target : forall N (w : world N) k, sane N -> reachable w ->
  forall q m, ~ In q (writes k) -> obj w q m -> obj (after k w) q m.
Proof. exact @writes_only. Qed.
Print Assumptions C15_calls_write_only_their_target.
Example C15_case : reachable demo /\ writes (N:=num_goint) (KEqual E0 (Some 0%nat) (Some 1%nat)) = [] /\
  obj demo 0 (MCSR (MkCSR 3 4 [gi 5; gi 7; gi (-1)] [0; 1; 3] [0; 1; 1; 3])).
Proof. exact demo_reads. Qed.

(** ** C16: false of the code when a stored element of a sparse object is mapped to
    zero (the removal leaves the iterator stale); proved when [f] keeps non-zero
    values non-zero, for every storage type.  PropMap.v has the case of zeros. *)
Theorem C16_map_rewrites_every_element_partial : forall N E (w : world N) p m f,
  sane N -> reachable w -> obj w p m -> mat_Values m <= Z.of_nat (e_fuel E) ->
  (sparse_obj m = true -> forall i j, keeps_nz (f i j)) ->
  exists w' m', user_Map E p f w = (w', Ok tt) /\ extends_but p w w' /\ obj w' p m' /\
    mat_Rows m' = mat_Rows m /\ mat_Columns m' = mat_Columns m /\
    (forall fuel l, loop_Next fuel m (mat_iterator m) = Ok l ->
       loop_Next fuel m' (mat_iterator m') = Ok (map (fun '(i, j, v) => (i, j, f i j v)) l)) /\
    (forall R C h, (is_dense m \/ is_sparse_matrix m) -> denotes m R C h ->
       denotes m' R C (fun i j => if sparse_obj m && neqb (h i j) n0 then n0 else f i j (h i j))).
Proof. exact @map_general. Qed.
Print Assumptions C16_map_rewrites_every_element_partial.
Example C16_case : reachable demo /\
  exists w' s, user_Map E0 0 (fun i j v => nadd v (gi i)) demo = (w', Ok tt) /\ obj w' 0 (MCSR s) /\
  loop_Next 5 (MCSR s) (mat_iterator (MCSR s)) = Ok [(0, 0, gi 5); (2, 1, gi 9); (2, 3, gi 1)].
Proof. exact demo_map. Qed.

(** mapping a 1 x 2 CSR row to zero panics after the first element ... *)
Theorem C16_map_to_zero_refuted : forall n, exists w : world num_goint, reachable w /\
  exists m, obj w 0 m /\ is_sparse_matrix m /\
  snd (user_Map (MkEnv None reg0 (S (S n))) 0 (fun _ _ _ => n0) w) = Panic.
Proof. exact map_zero_panics. Qed.
Print Assumptions C16_map_to_zero_refuted.
(** ... and mapping a full 2 x 2 CSR matrix to zero never returns *)
Theorem C16_map_to_zero_hangs_refuted : forall n, exists w : world num_goint, reachable w /\
  exists m, obj w 0 m /\ is_sparse_matrix m /\
  snd (user_Map (MkEnv None reg0 n) 0 (fun _ _ _ => n0) w) = Diverge.
Proof. exact map_zero_hangs. Qed.
Print Assumptions C16_map_to_zero_hangs_refuted.

(** ** C55 *)
Theorem C55_reachable_objects_well_formed_partial : forall N (w : world N) p m, sane N -> reachable w -> obj w p m ->
  0 <= mat_Rows m /\ 0 <= mat_Columns m /\
  exists f, denotes m (mat_Rows m) (mat_Columns m) f /\
    (is_sparse_matrix m ->
       mat_Values m = count_cells (fun i j => negb (neqb (f i j) n0)) (mat_Rows m) (mat_Columns m)) /\
    (is_dense m -> mat_Values m = mat_Rows m * mat_Columns m) /\
    (exists l, (forall fuel, mat_Values m <= Z.of_nat fuel -> loop_Next fuel m (mat_iterator m) = Ok l) /\
       zlen l = mat_Values m).
Proof. exact @capstone. Qed.
Print Assumptions C55_reachable_objects_well_formed_partial.
(** a history with aliasing, a mismatching operand (a panic) and a cancellation *)
Example C55_case : reachable demo2 /\ demo2 <> demo.
Proof. exact demo2_case. Qed.

(** [reachable] excludes mapping a sparse matrix in place with a function that makes a
    zero of an element with other stored elements both after it in its line and in later
    lines.  Without that restriction the property is false: here an
    in-place Apply that is cancelled after two elements returns normally and leaves
    a CSR matrix with two stored entries for the same cell. *)
Theorem C55_unguarded_refuted : exists (w : world num_goint) u, reachable w /\
  snd (Apply (Ecancel 2) 0 (MUser 2 3 (fun _ _ => true)) u 0 w) = Ok tt /\
  exists m f, obj (fst (Apply (Ecancel 2) 0 (MUser 2 3 (fun _ _ => true)) u 0 w)) 0 m /\
    is_sparse_matrix m /\ denotes m 2 3 f /\
    mat_Values m = 2 /\ count_cells (fun i j => negb (neqb (f i j) n0)) 2 3 = 1.
Proof. exact apply_breaks_csr. Qed.
Print Assumptions C55_unguarded_refuted.

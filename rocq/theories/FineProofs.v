(** Running a tree of steps (Fine.v) without interruption is what World.v, Ops.v, MathOps.v, Bfs.v and
    Api.v say. *)
From Coq Require Import String.
From Verif Require Import GoBase Num SparseVec Csr Csc DenseVec DenseMat Mat World Ops MathOps Bfs Spec Api Fine.

Section FineProofs.
Context {N : num}.
Notation V := (T N).
Notation world := (world N).

(** the tree [p], run without interruption, does what [x] does *)
Definition eqv {A} (p : prog N A) (x : World.M N A) : Prop := forall w, interp p w = x w.

Lemma interp_bind {A B} (p : prog N A) (f : A -> prog N B) w :
  interp (mbind p f) w = World.mbind (interp p) (fun a => interp (f a)) w.
Proof.
  revert w. induction p as [a| | |E k IH|p k IH|p m q IH|p r c k IH|p r c k IH|m k IH]; intro w; try reflexivity.
  - cbn [mbind interp]. unfold World.mbind. cbn [interp]. destruct (World.poll E w) as [w' [b| |]]; try reflexivity. apply IH.
  - cbn [mbind interp]. unfold World.mbind. cbn [interp]. destruct (nth_error (w_heap w) p); [apply IH|reflexivity].
  - cbn [mbind interp]. apply IH.
  - cbn [mbind interp]. unfold World.mbind. cbn [interp]. destruct (nth_error (w_heap w) p) as [m|]; [|reflexivity].
    destruct (mat_At m r c) as [[v m']| |]; try reflexivity. apply IH.
  - cbn [mbind interp]. unfold World.mbind. cbn [interp]. destruct (nth_error (w_heap w) p) as [m|]; [|reflexivity].
    destruct (mat_Element m r c) as [[v m']| |]; try reflexivity. apply IH.
  - cbn [mbind interp]. apply IH.
Qed.

Lemma eqv_bind {A B} (p : prog N A) (x : World.M N A) (f : A -> prog N B) (g : A -> World.M N B) :
  eqv p x -> (forall a, eqv (f a) (g a)) -> eqv (mbind p f) (World.mbind x g).
Proof.
  intros H1 H2 w. rewrite interp_bind. unfold World.mbind. rewrite H1. destruct (x w) as [w' [a| |]]; try reflexivity. apply H2.
Qed.
Lemma eqv_ret {A} (a : A) : eqv (mret a) (World.mret a).
Proof. intro w. reflexivity. Qed.
Lemma eqv_panic {A} : eqv (mpanic (A := A)) World.mpanic.
Proof. intro w. reflexivity. Qed.
Lemma eqv_diverge {A} : eqv (mdiverge (A := A)) World.mdiverge.
Proof. intro w. reflexivity. Qed.
Lemma eqv_lift {A} (x : res A) : eqv (mlift x) (World.mlift x).
Proof. intro w. destruct x; reflexivity. Qed.
Lemma eqv_poll E : eqv (poll E) (World.poll E).
Proof. intro w. unfold poll. cbn [interp]. unfold World.poll. destruct (e_ctx E); reflexivity. Qed.
Lemma eqv_load p : eqv (load p) (World.load p).
Proof. intro w. unfold load. cbn [interp]. unfold World.load. destruct (nth_error (w_heap w) p); reflexivity. Qed.
Lemma eqv_store p m : eqv (store p m) (World.store p m).
Proof. intro w. reflexivity. Qed.
Lemma eqv_alloc m : eqv (alloc m) (World.alloc m).
Proof. intro w. reflexivity. Qed.
Lemma eqv_At p r c : eqv (p_At p r c) (World.p_At p r c).
Proof.
  intro w. unfold p_At, World.p_At. cbn [interp]. unfold World.mbind, World.load.
  destruct (nth_error (w_heap w) p) as [m|]; [|reflexivity]. unfold World.mlift.
  destruct (mat_At m r c) as [[v m']| |]; reflexivity.
Qed.
Lemma eqv_Element k r c : eqv (mask_Element k r c) (World.mask_Element k r c).
Proof.
  destruct k as [|r0 c0|p|r0 c0 f]; intro w; try reflexivity.
  unfold mask_Element, World.mask_Element. cbn [interp]. unfold World.mbind, World.load.
  destruct (nth_error (w_heap w) p) as [m|]; [|reflexivity]. unfold World.mlift.
  destruct (mat_Element m r c) as [[v m']| |]; reflexivity.
Qed.

Create HintDb eqv.
Hint Resolve eqv_ret eqv_panic eqv_diverge eqv_lift eqv_poll eqv_load eqv_store eqv_alloc eqv_At eqv_Element : eqv.

Ltac go := intros; cbv beta zeta;
  repeat (first
    [ solve [auto with eqv nocore]
    | match goal with
      | |- eqv (mbind _ _) _ => apply eqv_bind; intros; cbv beta
      | |- eqv (match ?x with _ => _ end) _ => destruct x
      | |- context [match ?x with _ => _ end] => destruct x
      end ]).

(** ** World.v *)

Lemma p_Rows_eqv p : eqv (p_Rows p) (World.p_Rows p).
Proof. unfold p_Rows, World.p_Rows. go. Qed.
Hint Resolve p_Rows_eqv : eqv.

Lemma p_Columns_eqv p : eqv (p_Columns p) (World.p_Columns p).
Proof. unfold p_Columns, World.p_Columns. go. Qed.
Hint Resolve p_Columns_eqv : eqv.

Lemma p_Values_eqv p : eqv (p_Values p) (World.p_Values p).
Proof. unfold p_Values, World.p_Values. go. Qed.
Hint Resolve p_Values_eqv : eqv.

Lemma p_Size_eqv p : eqv (p_Size p) (World.p_Size p).
Proof. unfold p_Size, World.p_Size. go. Qed.
Hint Resolve p_Size_eqv : eqv.

Lemma p_Set_eqv p r c v : eqv (p_Set p r c v) (World.p_Set p r c v).
Proof. unfold p_Set, World.p_Set. go. Qed.
Hint Resolve p_Set_eqv : eqv.

Lemma p_Update_eqv p r c f : eqv (p_Update p r c f) (World.p_Update p r c f).
Proof. unfold p_Update, World.p_Update. go. Qed.
Hint Resolve p_Update_eqv : eqv.

Lemma p_SetVec_eqv p i v : eqv (p_SetVec p i v) (World.p_SetVec p i v).
Proof. unfold p_SetVec, World.p_SetVec. go. Qed.
Hint Resolve p_SetVec_eqv : eqv.

Lemma p_Copy_eqv p : eqv (p_Copy p) (World.p_Copy p).
Proof. unfold p_Copy, World.p_Copy. go. Qed.
Hint Resolve p_Copy_eqv : eqv.

Lemma p_Clear_eqv p : eqv (p_Clear p) (World.p_Clear p).
Proof. unfold p_Clear, World.p_Clear. go. Qed.
Hint Resolve p_Clear_eqv : eqv.

Lemma p_RowsAt_eqv p r : eqv (p_RowsAt p r) (World.p_RowsAt p r).
Proof. unfold p_RowsAt, World.p_RowsAt. go. Qed.
Hint Resolve p_RowsAt_eqv : eqv.

Lemma p_ColumnsAt_eqv p c : eqv (p_ColumnsAt p c) (World.p_ColumnsAt p c).
Proof. unfold p_ColumnsAt, World.p_ColumnsAt. go. Qed.
Hint Resolve p_ColumnsAt_eqv : eqv.

Lemma p_RowsAtToArray_eqv p r : eqv (p_RowsAtToArray p r) (World.p_RowsAtToArray p r).
Proof. unfold p_RowsAtToArray, World.p_RowsAtToArray. go. Qed.
Hint Resolve p_RowsAtToArray_eqv : eqv.

Lemma p_IsSparse_eqv E p : eqv (p_IsSparse E p) (World.p_IsSparse E p).
Proof. unfold p_IsSparse, World.p_IsSparse. go. Qed.
Hint Resolve p_IsSparse_eqv : eqv.

Lemma mask_Rows_eqv k : eqv (mask_Rows k) (World.mask_Rows k).
Proof. unfold mask_Rows, World.mask_Rows. go. Qed.
Hint Resolve mask_Rows_eqv : eqv.

Lemma mask_Columns_eqv k : eqv (mask_Columns k) (World.mask_Columns k).
Proof. unfold mask_Columns, World.mask_Columns. go. Qed.
Hint Resolve mask_Columns_eqv : eqv.

Lemma check_mask_eqv k out : eqv (check_mask k out) (World.check_mask k out).
Proof. unfold check_mask, World.check_mask. go. Qed.
Hint Resolve check_mask_eqv : eqv.

Lemma for_list_eqv {R I} (l : list I) f (g : I -> World.M N (option R)) :
  (forall i, eqv (f i) (g i)) -> eqv (for_list l f) (World.for_list l g).
Proof. intro H. induction l as [|i l IH]; cbn [for_list World.for_list]; go. Qed.
Hint Resolve for_list_eqv : eqv.

Lemma enum_loop_eqv {R} E fuel p it (x : R) f (g : Z -> Z -> V -> World.M N (option R)) :
  (forall r c v, eqv (f r c v) (g r c v)) -> eqv (enum_loop E fuel p it x f) (World.enum_loop E fuel p it x g).
Proof. intro H. revert it. induction fuel as [|fuel IH]; intro it; cbn [enum_loop World.enum_loop]; go. Qed.
Hint Resolve enum_loop_eqv : eqv.

Lemma enumerate_eqv {R} E p (x : R) f (g : Z -> Z -> V -> World.M N (option R)) :
  (forall r c v, eqv (f r c v) (g r c v)) -> eqv (enumerate E p x f) (World.enumerate E p x g).
Proof. unfold enumerate, World.enumerate. go. Qed.

Lemma map_step_eqv p it f (g : Z -> Z -> V -> World.M N V) :
  (forall r c v, eqv (f r c v) (g r c v)) -> eqv (map_step p it f) (World.map_step p it g).
Proof. unfold map_step, World.map_step. go. Qed.
Hint Resolve map_step_eqv : eqv.

Lemma map_loop_eqv E stop fuel p it f (g : Z -> Z -> V -> World.M N V) :
  (forall r c v, eqv (f r c v) (g r c v)) -> eqv (map_loop E stop fuel p it f) (World.map_loop E stop fuel p it g).
Proof. intro H. revert it. induction fuel as [|fuel IH]; intro it; cbn [map_loop World.map_loop]; go. Qed.
Hint Resolve map_loop_eqv : eqv.

Lemma map_over_eqv E stop p f (g : Z -> Z -> V -> World.M N V) :
  (forall r c v, eqv (f r c v) (g r c v)) -> eqv (map_over E stop p f) (World.map_over E stop p g).
Proof. unfold map_over, World.map_over. go. Qed.

(** loops are entered with the body related *)
Ltac loops := repeat (go; try first [apply for_list_eqv; intros | apply enumerate_eqv; intros | apply map_over_eqv; intros]).

(** ** Ops.v *)

Lemma dot_loop_eqv E a b l s : eqv (dot_loop E a b l s) (Ops.dot_loop E a b l s).
Proof. revert s. induction l as [|x l IH]; intro s; cbn [dot_loop Ops.dot_loop]; go. Qed.
Hint Resolve dot_loop_eqv : eqv.

Lemma multiply_eqv E s m k matrix : eqv (multiply E s m k matrix) (Ops.multiply E s m k matrix).
Proof. unfold multiply, Ops.multiply. loops. Qed.
Hint Resolve multiply_eqv : eqv.

Lemma MatrixMatrixMultiply_eqv E s m k t : eqv (MatrixMatrixMultiply E s m k t) (Ops.MatrixMatrixMultiply E s m k t).
Proof. apply multiply_eqv. Qed.
Hint Resolve MatrixMatrixMultiply_eqv : eqv.

Lemma VectorMatrixMultiply_eqv E s m k vector : eqv (VectorMatrixMultiply E s m k vector) (Ops.VectorMatrixMultiply E s m k vector).
Proof. unfold VectorMatrixMultiply, Ops.VectorMatrixMultiply. loops. Qed.
Hint Resolve VectorMatrixMultiply_eqv : eqv.

Lemma MatrixVectorMultiply_eqv E s m k vector : eqv (MatrixVectorMultiply E s m k vector) (Ops.MatrixVectorMultiply E s m k vector).
Proof. unfold MatrixVectorMultiply, Ops.MatrixVectorMultiply. loops. Qed.
Hint Resolve MatrixVectorMultiply_eqv : eqv.

Lemma elementWiseMultiply_eqv E s m k matrix : eqv (elementWiseMultiply E s m k matrix) (Ops.elementWiseMultiply E s m k matrix).
Proof. unfold elementWiseMultiply, Ops.elementWiseMultiply. loops. Qed.
Hint Resolve elementWiseMultiply_eqv : eqv.

Lemma ElementWiseMatrixMultiply_eqv E s m k matrix : eqv (ElementWiseMatrixMultiply E s m k matrix) (Ops.ElementWiseMatrixMultiply E s m k matrix).
Proof. unfold ElementWiseMatrixMultiply, Ops.ElementWiseMatrixMultiply. loops. Qed.
Hint Resolve ElementWiseMatrixMultiply_eqv : eqv.

Lemma ElementWiseVectorMultiply_eqv E s m k vector : eqv (ElementWiseVectorMultiply E s m k vector) (Ops.ElementWiseVectorMultiply E s m k vector).
Proof. unfold ElementWiseVectorMultiply, Ops.ElementWiseVectorMultiply. loops. Qed.
Hint Resolve ElementWiseVectorMultiply_eqv : eqv.

Lemma check_sizes_eqv s m : eqv (check_sizes s m) (Ops.check_sizes s m).
Proof. unfold check_sizes, Ops.check_sizes. loops. Qed.
Hint Resolve check_sizes_eqv : eqv.

Lemma Add_eqv E s m k matrix : eqv (Add E s m k matrix) (Ops.Add E s m k matrix).
Proof. unfold Add, Ops.Add. loops. Qed.
Hint Resolve Add_eqv : eqv.

Lemma ewa_loop_eqv E src k matrix : eqv (ewa_loop E src k matrix) (Ops.ewa_loop E src k matrix).
Proof. unfold ewa_loop, Ops.ewa_loop. loops. Qed.
Hint Resolve ewa_loop_eqv : eqv.

Lemma elementWiseAdd_eqv E s m k matrix : eqv (elementWiseAdd E s m k matrix) (Ops.elementWiseAdd E s m k matrix).
Proof. unfold elementWiseAdd, Ops.elementWiseAdd. loops. Qed.
Hint Resolve elementWiseAdd_eqv : eqv.

Lemma ElementWiseMatrixAdd_eqv E s m k matrix : eqv (ElementWiseMatrixAdd E s m k matrix) (Ops.ElementWiseMatrixAdd E s m k matrix).
Proof. unfold ElementWiseMatrixAdd, Ops.ElementWiseMatrixAdd. loops. Qed.
Hint Resolve ElementWiseMatrixAdd_eqv : eqv.

Lemma ElementWiseVectorAdd_eqv E s m k vector : eqv (ElementWiseVectorAdd E s m k vector) (Ops.ElementWiseVectorAdd E s m k vector).
Proof. unfold ElementWiseVectorAdd, Ops.ElementWiseVectorAdd. loops. Qed.
Hint Resolve ElementWiseVectorAdd_eqv : eqv.

Lemma Subtract_eqv E s m k matrix : eqv (Subtract E s m k matrix) (Ops.Subtract E s m k matrix).
Proof. unfold Subtract, Ops.Subtract. loops. Qed.
Hint Resolve Subtract_eqv : eqv.

Lemma Apply_eqv E in_ k u matrix : eqv (Apply E in_ k u matrix) (Ops.Apply E in_ k u matrix).
Proof. unfold Apply, Ops.Apply. loops. Qed.
Hint Resolve Apply_eqv : eqv.

Lemma Negative_eqv E s k matrix : eqv (Negative E s k matrix) (Ops.Negative E s k matrix).
Proof. unfold Negative, Ops.Negative. loops. Qed.
Hint Resolve Negative_eqv : eqv.

Lemma Transpose_eqv E s k matrix : eqv (Transpose E s k matrix) (Ops.Transpose E s k matrix).
Proof. unfold Transpose, Ops.Transpose. loops. Qed.
Hint Resolve Transpose_eqv : eqv.

Lemma TransposeToCSR_eqv E s : eqv (TransposeToCSR E s) (Ops.TransposeToCSR E s).
Proof. unfold TransposeToCSR, Ops.TransposeToCSR. loops. Qed.
Hint Resolve TransposeToCSR_eqv : eqv.

Lemma TransposeToCSC_eqv E s : eqv (TransposeToCSC E s) (Ops.TransposeToCSC E s).
Proof. unfold TransposeToCSC, Ops.TransposeToCSC. loops. Qed.
Hint Resolve TransposeToCSC_eqv : eqv.

Lemma Equal_eqv E s m : eqv (Equal E s m) (Ops.Equal E s m).
Proof.
  destruct s as [s|]; destruct m as [m|]; unfold Equal, Ops.Equal; try apply eqv_ret.
  loops.
Qed.
Hint Resolve Equal_eqv : eqv.

Lemma NotEqual_eqv E os om : eqv (NotEqual E os om) (Ops.NotEqual E os om).
Proof. unfold NotEqual, Ops.NotEqual. loops. Qed.
Hint Resolve NotEqual_eqv : eqv.

Lemma Scalar_eqv E s alpha : eqv (Scalar E s alpha) (Ops.Scalar E s alpha).
Proof. unfold Scalar, Ops.Scalar. loops. Qed.
Hint Resolve Scalar_eqv : eqv.

Lemma reduce_loop_eqv E fuel p it k op acc : eqv (reduce_loop E fuel p it k op acc) (Ops.reduce_loop E fuel p it k op acc).
Proof. revert it acc. induction fuel as [|fuel IH]; intros it acc; cbn [reduce_loop Ops.reduce_loop]; go. Qed.
Hint Resolve reduce_loop_eqv : eqv.

Lemma ReduceMatrixToScalarWithMonoID_eqv E s mo k : eqv (ReduceMatrixToScalarWithMonoID E s mo k) (Ops.ReduceMatrixToScalarWithMonoID E s mo k).
Proof. unfold ReduceMatrixToScalarWithMonoID, Ops.ReduceMatrixToScalarWithMonoID. loops. Qed.
Hint Resolve ReduceMatrixToScalarWithMonoID_eqv : eqv.

Lemma ReduceMatrixToScalar_eqv E s k : eqv (ReduceMatrixToScalar E s k) (Ops.ReduceMatrixToScalar E s k).
Proof. unfold ReduceMatrixToScalar, Ops.ReduceMatrixToScalar. loops. Qed.
Hint Resolve ReduceMatrixToScalar_eqv : eqv.

Lemma ReduceMatrixToVectorWithMonoID_eqv E s mo k : eqv (ReduceMatrixToVectorWithMonoID E s mo k) (Ops.ReduceMatrixToVectorWithMonoID E s mo k).
Proof. unfold ReduceMatrixToVectorWithMonoID, Ops.ReduceMatrixToVectorWithMonoID. loops. Qed.
Hint Resolve ReduceMatrixToVectorWithMonoID_eqv : eqv.

Lemma ReduceMatrixToVector_eqv E s : eqv (ReduceMatrixToVector E s) (Ops.ReduceMatrixToVector E s).
Proof. unfold ReduceMatrixToVector, Ops.ReduceMatrixToVector. loops. Qed.
Hint Resolve ReduceMatrixToVector_eqv : eqv.

Lemma m_Scalar_eqv E s alpha : eqv (m_Scalar E s alpha) (Ops.m_Scalar E s alpha).
Proof. unfold m_Scalar, Ops.m_Scalar. loops. Qed.
Hint Resolve m_Scalar_eqv : eqv.

Lemma m_Multiply_eqv E s m : eqv (m_Multiply E s m) (Ops.m_Multiply E s m).
Proof. unfold m_Multiply, Ops.m_Multiply. loops. Qed.
Hint Resolve m_Multiply_eqv : eqv.

Lemma m_Add_eqv E s m : eqv (m_Add E s m) (Ops.m_Add E s m).
Proof. unfold m_Add, Ops.m_Add. loops. Qed.
Hint Resolve m_Add_eqv : eqv.

Lemma m_Subtract_eqv E s m : eqv (m_Subtract E s m) (Ops.m_Subtract E s m).
Proof. unfold m_Subtract, Ops.m_Subtract. loops. Qed.
Hint Resolve m_Subtract_eqv : eqv.

Lemma m_Negative_eqv E s : eqv (m_Negative E s) (Ops.m_Negative E s).
Proof. unfold m_Negative, Ops.m_Negative. loops. Qed.
Hint Resolve m_Negative_eqv : eqv.

Lemma m_Transpose_eqv E s : eqv (m_Transpose E s) (Ops.m_Transpose E s).
Proof. unfold m_Transpose, Ops.m_Transpose. loops. Qed.
Hint Resolve m_Transpose_eqv : eqv.

Lemma m_Equal_eqv E s om : eqv (m_Equal E s om) (Ops.m_Equal E s om).
Proof. unfold m_Equal, Ops.m_Equal. loops. Qed.
Hint Resolve m_Equal_eqv : eqv.

Lemma m_NotEqual_eqv E s om : eqv (m_NotEqual E s om) (Ops.m_NotEqual E s om).
Proof. unfold m_NotEqual, Ops.m_NotEqual. loops. Qed.
Hint Resolve m_NotEqual_eqv : eqv.

(** ** MathOps.v *)

Lemma Symmetric_eqv E s : eqv (Symmetric E s) (MathOps.Symmetric E s).
Proof. unfold Symmetric, MathOps.Symmetric. loops. Qed.
Hint Resolve Symmetric_eqv : eqv.

Lemma SkewSymmetric_eqv E s : eqv (SkewSymmetric E s) (MathOps.SkewSymmetric E s).
Proof. unfold SkewSymmetric, MathOps.SkewSymmetric. loops. Qed.
Hint Resolve SkewSymmetric_eqv : eqv.

Lemma pivot_search_eqv fuel m a b r i l : eqv (pivot_search fuel m a b r i l) (MathOps.pivot_search fuel m a b r i l).
Proof. revert i l. induction fuel as [|fuel IH]; intros i l; cbn [pivot_search MathOps.pivot_search]; go. Qed.
Hint Resolve pivot_search_eqv : eqv.

Lemma for_values_eqv l f (g : Z -> V -> World.M N unit) :
  (forall c v, eqv (f c v) (g c v)) -> eqv (for_values l f) (MathOps.for_values l g).
Proof. intro H. unfold for_values, MathOps.for_values. loops. Qed.
Ltac loops2 := repeat (loops; try (apply for_values_eqv; intros)).

Lemma swap_rows_eqv m i r : eqv (swap_rows m i r) (MathOps.swap_rows m i r).
Proof. unfold swap_rows, MathOps.swap_rows. loops2. Qed.
Hint Resolve swap_rows_eqv : eqv.

Lemma scale_row_eqv m r lead : eqv (scale_row m r lead) (MathOps.scale_row m r lead).
Proof. unfold scale_row, MathOps.scale_row. loops2. Qed.
Hint Resolve scale_row_eqv : eqv.

Lemma clear_column_eqv m rowCount r lead : eqv (clear_column m rowCount r lead) (MathOps.clear_column m rowCount r lead).
Proof. unfold clear_column, MathOps.clear_column. loops2. Qed.
Hint Resolve clear_column_eqv : eqv.

Lemma reduce_rows_eqv fuel m a b n r l : eqv (reduce_rows fuel m a b n r l) (MathOps.reduce_rows fuel m a b n r l).
Proof. revert r l. induction n as [|n IH]; intros r l; cbn [reduce_rows MathOps.reduce_rows]; go. Qed.
Hint Resolve reduce_rows_eqv : eqv.

Lemma Reduced_eqv E s : eqv (Reduced E s) (MathOps.Reduced E s).
Proof. unfold Reduced, MathOps.Reduced. loops2. Qed.
Hint Resolve Reduced_eqv : eqv.

Lemma copy_cell_eqv dst src r c r' c' : eqv (copy_cell dst src r c r' c') (MathOps.copy_cell dst src r c r' c').
Proof. unfold copy_cell, MathOps.copy_cell. loops2. Qed.
Hint Resolve copy_cell_eqv : eqv.

Lemma grid_eqv E r c f (g : Z -> Z -> World.M N unit) :
  (forall r c, eqv (f r c) (g r c)) -> eqv (grid E r c f) (MathOps.grid E r c g).
Proof. intro H. unfold grid, MathOps.grid. loops. Qed.
Ltac loops3 := repeat (loops2; try (apply grid_eqv; intros)).

Lemma new_dense_eqv r c : eqv (new_dense r c) (MathOps.new_dense r c).
Proof. unfold new_dense, MathOps.new_dense. loops3. Qed.
Hint Resolve new_dense_eqv : eqv.

Lemma received_eqv i l : eqv (received i l) (MathOps.received i l).
Proof. induction l as [|[j p] l IH]; cbn [received MathOps.received]; go. Qed.
Hint Resolve received_eqv : eqv.

Lemma operands_eqv E size a b : eqv (operands E size a b) (MathOps.operands E size a b).
Proof. unfold operands, MathOps.operands. loops3. Qed.
Hint Resolve operands_eqv : eqv.

Lemma combine_eqv E m : eqv (combine E m) (MathOps.combine E m).
Proof. unfold combine, MathOps.combine. loops3. Qed.
Hint Resolve combine_eqv : eqv.

(** ** Bfs.v *)

Lemma search_loop_eqv E a c v r k d f : eqv (search_loop E a c v r k d f) (Bfs.search_loop E a c v r k d f).
Proof. revert d f. induction k as [|k IH]; intros d f; cbn [search_loop Bfs.search_loop]; go. Qed.
Hint Resolve search_loop_eqv : eqv.

Lemma Search_eqv E a s c : eqv (Search E a s c) (Bfs.Search E a s c).
Proof. unfold Search, Bfs.Search. go. Qed.
Hint Resolve Search_eqv : eqv.

(** ** Api.v *)

Lemma p_ReSize_eqv p size : eqv (p_ReSize p size) (Api.p_ReSize p size).
Proof. unfold p_ReSize, Api.p_ReSize. go. Qed.
Hint Resolve p_ReSize_eqv : eqv.

Lemma user_Map_eqv E p f : eqv (user_Map E p f) (Api.user_Map E p f).
Proof. unfold user_Map, Api.user_Map. loops. Qed.
Hint Resolve user_Map_eqv : eqv.

Lemma new_eqv x : eqv (new x) (Api.new x).
Proof. unfold new, Api.new. go. Qed.
Hint Resolve new_eqv : eqv.

Lemma drop_eqv {A} (x : prog N A) y : eqv x y -> eqv (drop x) (Api.drop y).
Proof. intro H. unfold drop, Api.drop. go. Qed.
Hint Resolve drop_eqv : eqv.

Lemma perform_eqv k : eqv (perform k) (Api.perform k).
Proof. destruct k; unfold perform, Api.perform; try apply drop_eqv; auto with eqv nocore. Qed.

End FineProofs.

(** Histories of public API calls: what a program using the library can do with
    the objects it has, in any order and with any aliasing of the arguments. *)
From Coq Require Import String.
From Verif Require Import GoBase Num SparseVec Csr Csc DenseVec DenseMat Mat World Ops Spec.

Section Api.
Context {N : num}.
Notation V := (T N).
Notation mat := (mat N).
Notation world := (world N).
Notation M := (M N).

(** denseVector.go:88-100 [ReSize] through a pointer *)
Definition p_ReSize (p : ptr) (size : Z) : M Z :=
  let! m := load p in
  match m with
  | MDV s => let! '(l, s') := mlift (dv_ReSize s size) in store p (MDV s') ;!; mret l
  | _ => mpanic
  end.

(** [for it := p.Map(); it.HasNext(); { it.Map(f) }] written by the user *)
Definition user_Map (E : env) (p : ptr) (f : Z -> Z -> V -> V) : M unit :=
  map_over (bg E) true p (fun r c v => mret (f r c v)).

(** One call.  Pointers are arbitrary (a dangling one stands for nil), so every
    aliasing of operands, masks and outputs is covered; [E] gives each operator
    call an arbitrary context.  The constructors are those of csrMatrix.go,
    cscMatrix.go, denseMatrix.go, denseVector.go and sparseVector.go, the
    operators those of operators.go. *)
Inductive call : Type :=
| KNewCSR (r c : Z) | KNewCSC (r c : Z) | KNewDense (r c : Z) | KNewDV (l : Z) | KNewSV (l : Z)
| KCSRFrom (data : list (list V)) | KCSCFrom (data : list (list V))
| KDenseFrom (data : list (list V)) | KDVFrom (data : list V) | KSVFrom (data : list V)
| KSet (p : ptr) (r c : Z) (v : V) | KUpdate (p : ptr) (r c : Z) (f : V -> V)
| KSetVec (p : ptr) (i : Z) (v : V)
| KAt (p : ptr) (r c : Z) | KElement (p : ptr) (r c : Z)
| KClear (p : ptr) | KCopy (p : ptr) | KReSize (p : ptr) (size : Z)
| KRowsAt (p : ptr) (r : Z) | KColumnsAt (p : ptr) (c : Z)
| KMap (E : env) (p : ptr) (f : Z -> Z -> V -> V)
| KMultiply (E : env) (s m : ptr) (k : mask) (t : ptr)
| KVecMatMul (E : env) (s m : ptr) (k : mask) (t : ptr)
| KAdd (E : env) (s m : ptr) (k : mask) (t : ptr)
| KSubtract (E : env) (s m : ptr) (k : mask) (t : ptr)
| KEWMatMul (E : env) (s m : ptr) (k : mask) (t : ptr)
| KEWVecMul (E : env) (s m : ptr) (k : mask) (t : ptr)
| KEWMatAdd (E : env) (s m : ptr) (k : mask) (t : ptr)
| KEWVecAdd (E : env) (s m : ptr) (k : mask) (t : ptr)
| KApply (E : env) (s : ptr) (k : mask) (u : V -> V) (t : ptr)
| KNegative (E : env) (s : ptr) (k : mask) (t : ptr)
| KTranspose (E : env) (s : ptr) (k : mask) (t : ptr)
| KTransposeToCSR (E : env) (s : ptr) | KTransposeToCSC (E : env) (s : ptr)
| KEqual (E : env) (s m : option ptr) | KNotEqual (E : env) (s m : option ptr)
| KScalar (E : env) (s : ptr) (alpha : V)
| KReduce (E : env) (s : ptr) (mo : @monoid N) (k : mask)
| KReduceVec (E : env) (s : ptr) (mo : @monoid N) (k : mask)
| KMMultiply (E : env) (s m : ptr) | KMAdd (E : env) (s m : ptr) | KMSubtract (E : env) (s m : ptr)
| KMNegative (E : env) (s : ptr) | KMTranspose (E : env) (s : ptr).

(** a call that returns a new object *)
Definition new (x : res mat) : M unit := let! m := mlift x in let! _ := alloc m in mret tt.
(** a call whose result is not an object *)
Definition drop {A} (x : M A) : M unit := let! _ := x in mret tt.

(** performing a call; results other than new objects are dropped (each line names the
    function of the library it calls) *)
Definition perform (k : call) : M unit :=
  match k with
  | KNewCSR r c => new (rmap MCSR (NewCSRMatrix r c))
  | KNewCSC r c => new (rmap MCSC (NewCSCMatrix r c))
  | KNewDense r c => new (rmap MDM (newMatrix r c))
  | KNewDV l => new (rmap MDV (newDenseVector l))
  | KNewSV l => new (rmap MSV (NewSparseVector l))
  | KCSRFrom d => new (rmap MCSR (NewCSRMatrixFromArray d))
  | KCSCFrom d => new (rmap MCSC (NewCSCMatrixFromArray d))
  | KDenseFrom d => new (rmap MDM (NewDenseMatrixFromArray d))
  | KDVFrom d => new (rmap MDV (NewDenseVectorFromArray d))
  | KSVFrom d => new (rmap MSV (NewSparseVectorFromArray d))
  | KSet p r c v => p_Set p r c v
  | KUpdate p r c f => p_Update p r c f
  | KSetVec p i v => p_SetVec p i v
  | KAt p r c => drop (p_At p r c)
  | KElement p r c => drop (mask_Element (MObj p) r c)
  | KClear p => p_Clear p
  | KCopy p => drop (p_Copy p)
  | KReSize p n => drop (p_ReSize p n)
  | KRowsAt p r => drop (p_RowsAt p r)
  | KColumnsAt p c => drop (p_ColumnsAt p c)
  | KMap E p f => user_Map E p f
  | KMultiply E s m k t => MatrixMatrixMultiply E s m k t
  | KVecMatMul E s m k t => VectorMatrixMultiply E s m k t
  | KAdd E s m k t => Add E s m k t
  | KSubtract E s m k t => Subtract E s m k t
  | KEWMatMul E s m k t => ElementWiseMatrixMultiply E s m k t
  | KEWVecMul E s m k t => ElementWiseVectorMultiply E s m k t
  | KEWMatAdd E s m k t => ElementWiseMatrixAdd E s m k t
  | KEWVecAdd E s m k t => ElementWiseVectorAdd E s m k t
  | KApply E s k u t => Apply E s k u t
  | KNegative E s k t => Negative E s k t
  | KTranspose E s k t => Transpose E s k t
  | KTransposeToCSR E s => drop (TransposeToCSR E s)
  | KTransposeToCSC E s => drop (TransposeToCSC E s)
  | KEqual E s m => drop (Equal E s m)
  | KNotEqual E s m => drop (NotEqual E s m)
  | KScalar E s a => drop (Scalar E s a)
  | KReduce E s mo k => drop (ReduceMatrixToScalarWithMonoID E s mo k)
  | KReduceVec E s mo k => drop (ReduceMatrixToVectorWithMonoID E s mo k)
  | KMMultiply E s m => drop (m_Multiply E s m)
  | KMAdd E s m => drop (m_Add E s m)
  | KMSubtract E s m => drop (m_Subtract E s m)
  | KMNegative E s => drop (m_Negative E s)
  | KMTranspose E s => drop (m_Transpose E s)
  end.

(** the world after a call, whether it returned, panicked (and the panic was
    recovered) or ran for [e_fuel] rounds without returning *)
Definition after (k : call) (w : world) : world := fst (perform k w).

(** what denseMatrix.go:36-51 takes for granted of its argument *)
Definition rectangular (d : list (list V)) : Prop :=
  forall row row', In row d -> In row' d -> zlen row = zlen row'.

(** is the object stored as entries? *)
Definition sparse_obj (m : mat) : bool :=
  match m with MCSR _ | MCSC _ | MSV _ => true | MDM _ | MDV _ => false end.

(** [f] never turns a non-zero value into zero *)
Definition keeps_nz (f : V -> V) : Prop := forall v, neqb v n0 = false -> neqb (f v) n0 = false.

(** are two stored elements in the same line: row of a CSR matrix, column of a CSC
    matrix, vector?  The iterators cache the bounds of one line at a time
    (csrMatrix.go:340-360, cscMatrix.go:358-378) *)
Definition same_line (m : mat) (p q : Z * Z) : Prop :=
  match m with
  | MCSR _ => fst p = fst q
  | MCSC _ => snd p = snd q
  | _ => True
  end.

(** a function mapped over a sparse matrix in place may take an element out only
    if it is the last stored one of its line or in the last line that has stored
    elements (csrMatrix.go:392-401, cscMatrix.go:402-411) *)
Definition harmless_zeros (m : mat) (f : Z -> Z -> V -> V) : Prop :=
  match m with
  | MCSR _ | MCSC _ => forall l1 i j v l2, enumerates m (l1 ++ (i, j, v) :: l2) ->
      neqb v n0 = false -> neqb (f i j v) n0 = true ->
      (forall e, In e l2 -> ~ same_line m (i, j) (fst e)) \/ (forall e, In e l2 -> same_line m (i, j) (fst e))
  | _ => True
  end.

(** The calls the histories below may contain.
    - sizes are not negative, and no dense matrix has 2^63 cells or more
      (no Go program can allocate it);
    - a dense matrix is built from a rectangular array;
    - a function mapped over a sparse matrix *in place* produces no zeros but
      harmless ones (see [C55_unguarded_refuted] for why). *)
Definition allowed (w : world) (k : call) : Prop :=
  match k with
  | KNewCSR r c | KNewCSC r c => 0 <= r /\ 0 <= c
  | KNewDense r c => 0 <= r /\ 0 <= c /\ r * c < 2 ^ 63
  | KNewSV l => 0 <= l
  | KDenseFrom d => rectangular d /\ (forall row, In row d -> zlen d * zlen row < 2 ^ 63)
  | KReSize _ n => 0 <= n
  | KMap _ p f => forall m, obj w p m -> harmless_zeros m f
  | KApply _ s _ u t => s = t -> forall m, obj w t m -> harmless_zeros m (fun _ _ => u)
  | KScalar _ s a => forall m, obj w s m -> harmless_zeros m (fun _ _ => nmul a)
  | KMMultiply _ s m => forall so mo, obj w s so -> obj w m mo ->
      match so with
      | MDM _ => mat_Rows so * mat_Columns mo < 2 ^ 63
      | MDV _ | MSV _ => mat_Rows mo * mat_Columns so < 2 ^ 63
      | _ => True
      end
  | KMTranspose _ s => forall so, obj w s so ->
      match so with MDV _ | MSV _ => mat_Rows so < 2 ^ 63 | _ => True end
  | _ => True
  end.

(** a program that has not made any object yet *)
Definition empty_world : world := MkWorld [] 0.

(** every history of allowed calls, from the empty world *)
Inductive reachable : world -> Prop :=
| reach_start : reachable empty_world
| reach_call w k : reachable w -> allowed w k -> reachable (after k w).

(** run a list of calls *)
Fixpoint after_all (ks : list call) (w : world) : world :=
  match ks with [] => w | k :: rest => after_all rest (after k w) end.

(** the existing objects a call is documented to modify; every other object must
    stay as it is *)
Definition writes (k : call) : list ptr :=
  match k with
  | KSet p _ _ _ | KUpdate p _ _ _ | KSetVec p _ _ | KClear p | KReSize p _ | KMap _ p _ => [p]
  | KMultiply _ _ _ _ t | KVecMatMul _ _ _ _ t | KAdd _ _ _ _ t | KSubtract _ _ _ _ t
  | KEWMatMul _ _ _ _ t | KEWVecMul _ _ _ _ t | KEWMatAdd _ _ _ _ t | KEWVecAdd _ _ _ _ t
  | KApply _ _ _ _ t | KNegative _ _ _ t | KTranspose _ _ _ t => [t]
  | _ => []
  end.

(** [-x] is zero only for a zero [x] *)
Definition neg_nz : Prop := keeps_nz nneg.

End Api.
Arguments call : clear implicits.
Arguments neg_nz : clear implicits.

(** what most theorems need of the element type; every Go number type has it
    ([go_types_sane] in StoreThms.v) *)
Definition sane (N : num) : Prop := zero_ok N /\ neg_nz N.

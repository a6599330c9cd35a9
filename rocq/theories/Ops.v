(** Model of operators.go and of the arithmetic methods of the storage types. *)
From Coq Require Import String.
From Verif Require Import GoBase Num SparseVec Csr Csc DenseVec DenseMat Mat World.

Section Ops.
Context {N : num}.
Notation V := (T N).
Notation M := (M N).

(** operators.go:42-52, the inner product loop; [None] when cancelled.  The
    vectors are temporaries, so they are passed by value. *)
Fixpoint dot_loop (E : env) (rows column : mat N) (ls : list Z) (sum : V) : M (option V) :=
  match ls with
  | [] => mret (Some sum)
  | l :: rest =>
      let! d := poll E in
      if d then mret None
      else
        let! vC := mlift (mat_AtVec column l) in
        let! vR := mlift (mat_AtVec rows l) in
        dot_loop E rows column rest (nadd sum (nmul vR vC))
  end.

(** operators.go:19-60 [multiply] *)
Definition multiply (E : env) (s m : ptr) (k : mask) (matrix : ptr) : M unit :=
  let! mr := p_Rows m in
  let! sc := p_Columns s in
  if negb (mr =? sc) then mpanic
  else
    let! k := check_mask k matrix in
    let! sr := p_Rows s in
    let! mc := p_Columns m in
    let! _ := for_list (R := unit) (zrange 0 sr) (fun r =>
      let! so := load s in
      let! rows := mlift (mat_RowsAt so r) in
      for_list (zrange 0 mc) (fun c =>
        let! mo := load m in
        let! column := mlift (mat_ColumnsAt mo c) in
        let! o := dot_loop E rows column (zrange 0 (mat_Length rows)) n0 in
        match o with
        | None => mret (Some tt)
        | Some sum =>
            let! e := mask_Element k r c in
            (if negb e then p_Set matrix r c sum else mret tt) ;!;
            mret None
        end)) in
    mret tt.

(** operators.go:65-67 [MatrixMatrixMultiply] *)
Definition MatrixMatrixMultiply := multiply.

(** operators.go:72-74 [VectorMatrixMultiply]: note the swapped operands *)
Definition VectorMatrixMultiply (E : env) (s m : ptr) (k : mask) (vector : ptr) : M unit :=
  multiply E m s k vector.

(** operators.go:79-81 [MatrixVectorMultiply] *)
Definition MatrixVectorMultiply (E : env) (s m : ptr) (k : mask) (vector : ptr) : M unit :=
  multiply E s m k vector.

(** operators.go:83-145 [elementWiseMultiply] *)
Definition elementWiseMultiply (E : env) (s m : ptr) (k : mask) (matrix : ptr) : M unit :=
  let! k := check_mask k matrix in
  (* operators.go:99-106 *)
  let target source r c value : M (option unit) :=
    let! v := p_At source r c in
    if neqb value v then
      let! e := mask_Element k r c in
      (if negb e then p_Set matrix r c value else mret tt) ;!; mret None
    else mret None in
  (* operators.go:109-118 *)
  let setSource source r c value : M (option unit) :=
    let! e := mask_Element k r c in
    (if negb e then
       p_Update source r c (fun v => if negb (neqb value v) then n0 else v)
     else mret tt) ;!; mret None in
  let! sp := p_IsSparse E s in
  let! _ :=
    (if Nat.eqb m matrix then enumerate E s tt (setSource m)
     else if Nat.eqb s matrix then enumerate E m tt (setSource s)
     else if sp then enumerate E s tt (target m)
     else enumerate E m tt (target s)) in
  mret tt.

(** operators.go:150-156 [ElementWiseMatrixMultiply] *)
Definition ElementWiseMatrixMultiply (E : env) (s m : ptr) (k : mask) (matrix : ptr) : M unit :=
  let! mr := p_Rows m in
  let! sc := p_Columns s in
  if negb (mr =? sc) then mpanic else elementWiseMultiply E s m k matrix.

(** operators.go:161-167 [ElementWiseVectorMultiply] *)
Definition ElementWiseVectorMultiply (E : env) (s m : ptr) (k : mask) (vector : ptr) : M unit :=
  let! mr := p_Rows m in
  let! sr := p_Rows s in
  if negb (mr =? sr) then mpanic else elementWiseMultiply E s m k vector.

(** operators.go:171-177, 285-291: the operand size checks *)
Definition check_sizes (s m : ptr) : M unit :=
  let! sc := p_Columns s in
  let! mc := p_Columns m in
  if negb (sc =? mc) then mpanic
  else
    let! sr := p_Rows s in
    let! mr := p_Rows m in
    if negb (sr =? mr) then mpanic else mret tt.

(** operators.go:170-213 [Add] *)
Definition Add (E : env) (s m : ptr) (k : mask) (matrix : ptr) : M unit :=
  check_sizes s m ;!;
  let! k := check_mask k matrix in
  let! sp := p_IsSparse E s in
  let '(src, source) := if sp then (s, m) else (m, s) in
  let! _ := enumerate E src tt (fun r c v =>
    let! value := p_At source r c in
    let! e := mask_Element k r c in
    (if negb e then p_Set matrix r c (nadd value v) else mret tt) ;!;
    mret None) in
  mret tt.

(** operators.go:229-241 and 245-257: copy the non-zero elements of [src] *)
Definition ewa_loop (E : env) (src : ptr) (k : mask) (matrix : ptr) : M (option unit) :=
  enumerate E src tt (fun r c value =>
    if negb (neqb value n0) then
      let! e := mask_Element k r c in
      (if negb e then p_Set matrix r c value else mret tt) ;!; mret None
    else mret None).

(** operators.go:215-259 [elementWiseAdd] *)
Definition elementWiseAdd (E : env) (s m : ptr) (k : mask) (matrix : ptr) : M unit :=
  let! k := check_mask k matrix in
  let! o := (if negb (Nat.eqb s matrix) then ewa_loop E s k matrix else mret None) in
  match o with
  | Some _ => mret tt
  | None =>
      let! _ := (if negb (Nat.eqb m matrix) then ewa_loop E m k matrix else mret None) in
      mret tt
  end.

(** operators.go:264-270 [ElementWiseMatrixAdd] *)
Definition ElementWiseMatrixAdd (E : env) (s m : ptr) (k : mask) (matrix : ptr) : M unit :=
  let! mr := p_Rows m in
  let! sc := p_Columns s in
  if negb (mr =? sc) then mpanic else elementWiseAdd E s m k matrix.

(** operators.go:275-281 [ElementWiseVectorAdd] *)
Definition ElementWiseVectorAdd (E : env) (s m : ptr) (k : mask) (vector : ptr) : M unit :=
  let! mr := p_Rows m in
  let! sr := p_Rows s in
  if negb (mr =? sr) then mpanic else elementWiseAdd E s m k vector.

(** operators.go:284-318 [Subtract] *)
Definition Subtract (E : env) (s m : ptr) (k : mask) (matrix : ptr) : M unit :=
  check_sizes s m ;!;
  let! k := check_mask k matrix in
  let! _ := enumerate E s tt (fun r c value =>
    let! e := mask_Element k r c in
    (if negb e then p_Update matrix r c (fun v => nsub value v) else mret tt) ;!;
    mret None) in
  mret tt.

(** operators.go:323-366 [Apply]; the unary operator is a pure function *)
Definition Apply (E : env) (in_ : ptr) (k : mask) (u : V -> V) (matrix : ptr) : M unit :=
  let! k := check_mask k matrix in
  if Nat.eqb in_ matrix then
    map_over E true in_ (fun r c value =>
      let! e := mask_Element k r c in
      mret (if e then u value else value))
  else
    let! _ := enumerate E in_ tt (fun r c value =>
      let! e := mask_Element k r c in
      (if negb e then p_Set matrix c r (u value) else mret tt) ;!; mret None) in
    mret tt.

(** operators.go:369-396 [Negative]: the argument [s] is not used *)
Definition Negative (E : env) (s : ptr) (k : mask) (matrix : ptr) : M unit :=
  let! k := check_mask k matrix in
  map_over E true matrix (fun r c value =>
    let! e := mask_Element k r c in
    mret (if negb e then nneg value else value)).

(** operators.go:401-426 [Transpose] *)
Definition Transpose (E : env) (s : ptr) (k : mask) (matrix : ptr) : M unit :=
  let! k := check_mask k matrix in
  let! _ := enumerate E s tt (fun r c value =>
    let! e := mask_Element k r c in
    (if negb e then p_Set matrix c r value else mret tt) ;!; mret None) in
  mret tt.

(** operators.go:429-434 [TransposeToCSR] *)
Definition TransposeToCSR (E : env) (s : ptr) : M ptr :=
  let! c := p_Columns s in
  let! r := p_Rows s in
  let! t := mlift (NewCSRMatrix c r) in
  let! p := alloc (MCSR t) in
  Transpose E s MNil p ;!; mret p.

(** operators.go:437-442 [TransposeToCSC] *)
Definition TransposeToCSC (E : env) (s : ptr) : M ptr :=
  let! c := p_Columns s in
  let! r := p_Rows s in
  let! t := mlift (NewCSCMatrix c r) in
  let! p := alloc (MCSC t) in
  Transpose E s MNil p ;!; mret p.

(** operators.go:492-549 [Equal]; [None] is a nil interface *)
Definition Equal (E : env) (os om : option ptr) : M bool :=
  match os, om with
  | None, None => mret true
  | Some _, None => mret false
  | None, Some _ => mret false
  | Some s, Some m =>
      let! sc := p_Columns s in
      let! mc := p_Columns m in
      if negb (sc =? mc) then mret false
      else
      let! sr := p_Rows s in
      let! mr := p_Rows m in
      if negb (sr =? mr) then mret false
      else
      let! sps := p_IsSparse E s in
      let! spm := p_IsSparse E m in
      let! sv := p_Values s in
      let! mv := p_Values m in
      if ((sps && spm) || (negb sps && negb spm)) && negb (sv =? mv) then mret false
      else
      let '(src, matrix) := if sps then (s, m) else (m, s) in
      let! o := enumerate E src false (fun r c v =>
        let! mV := p_At matrix r c in
        if negb (neqb v mV) then mret (Some false) else mret None) in
      match o with
      | Some b => mret b
      | None => mret true
      end
  end.

(** operators.go:552-554 [NotEqual] *)
Definition NotEqual (E : env) (os om : option ptr) : M bool :=
  let! b := Equal E os om in mret (negb b).

(** operators.go:557-570 [Scalar] *)
Definition Scalar (E : env) (s : ptr) (alpha : V) : M ptr :=
  let! matrix := p_Copy s in
  map_over E false matrix (fun r c v => mret (nmul alpha v)) ;!;
  mret matrix.

(** ** Reduction, sequentially.  The goroutines of
    [ReduceMatrixToScalarWithMonoID] are modelled step by step in ReduceConc.v;
    this is the value they compute there. *)

(** binaryop/monoID.go:18-21 [monoID]; the operator may panic (integer division) *)
Record monoid : Type := MkMonoid { mo_unit : V; mo_op : V -> V -> res V }.

(** operators.go:609-646 [ReduceMatrixToScalarWithMonoID]: what the call
    returns; on cancellation the caller blocks for ever (operators.go:632-633
    returns without sending on [done]).  [s] is a temporary vector or an object
    read under a mask. *)
Fixpoint reduce_loop (E : env) (fuel : nat) (p : ptr) (it : iter) (k : mask)
    (op : V -> V -> res V) (acc : V) : M V :=
  if mat_HasNext it then
    match fuel with
    | O => mdiverge
    | S fuel' =>
        let! d := poll E in
        if d then mdiverge
        else
          let! m := load p in
          let! '(r, c, v, it') := mlift (mat_Next m it) in
          let! e := mask_Element k r c in
          let! acc' := (if negb e then mlift (op acc v) else mret acc) in
          reduce_loop E fuel' p it' k op acc'
    end
  else mret acc.

(** operators.go:609-646, 598-600; as one goroutine, see above and ReduceConc.v *)
Definition ReduceMatrixToScalarWithMonoID (E : env) (s : ptr) (mo : monoid) (k : mask) : M V :=
  let! k := check_mask k s in
  let! m := load s in
  reduce_loop E (e_fuel E) s (mat_iterator m) k (mo_op mo) (mo_unit mo).

(** default.go:20-30 [DefaultMonoIDAddition], [DefaultMonoIDMaximum];
    binaryop/operators.go:37-51 [Maximum], [Addition] *)
Definition DefaultMonoIDAddition : monoid := MkMonoid n0 (fun x y => Ok (nadd x y)).
(** default.go:26-30 *)
Definition DefaultMonoIDMaximum : monoid :=
  MkMonoid n0 (fun x y => Ok (if ngtb x y then x else y)).

(** operators.go:603-605 [ReduceMatrixToScalar], 592-594 [ReduceVectorToScalar] *)
Definition ReduceMatrixToScalar (E : env) (s : ptr) (k : mask) : M V :=
  ReduceMatrixToScalarWithMonoID E s DefaultMonoIDAddition k.

(** operators.go:579-589 [ReduceMatrixToVectorWithMonoID] *)
Definition ReduceMatrixToVectorWithMonoID (E : env) (s : ptr) (mo : monoid) (k : mask) : M ptr :=
  let! cols := p_Columns s in
  let! v0 := mlift (newDenseVector cols) in
  let! vector := alloc (MDV v0) in
  let! _ := for_list (R := unit) (zrange 0 cols) (fun c =>
    let! v := p_ColumnsAt s c in
    let! scaler := ReduceMatrixToScalarWithMonoID E v mo k in
    p_SetVec vector c scaler ;!;
    mret None) in
  mret vector.

(** operators.go:573-575 [ReduceMatrixToVector] *)
Definition ReduceMatrixToVector (E : env) (s : ptr) : M ptr :=
  ReduceMatrixToVectorWithMonoID E s DefaultMonoIDMaximum MNil.

(** ** Methods.  Each is given by the line ranges in the order CSR (csrMatrix.go),
    CSC (cscMatrix.go), DenseMatrix, DenseVector, SparseVector. *)

(** [Scalar]: csrMatrix.go:248-250, cscMatrix.go:255-257, denseMatrix.go:211-213, denseVector.go:220-222, sparseVector.go:233-235 *)
Definition m_Scalar (E : env) (s : ptr) (alpha : V) : M ptr := Scalar (bg E) s alpha.

(** [Multiply]: csrMatrix.go:253-257, cscMatrix.go:260-264, denseMatrix.go:216-220, denseVector.go:225-229, sparseVector.go:238-242.  The vectors size the output by [m.Rows()]. *)
Definition m_Multiply (E : env) (s m : ptr) : M ptr :=
  let! so := load s in
  let! mr := p_Rows m in
  let! mc := p_Columns m in
  let! t := mlift (match so with
    | MCSR _ => rmap MCSR (newCSRMatrix (mat_Rows so) mc 0)
    | MCSC _ => rmap MCSC (newCSCMatrix (mat_Rows so) mc 0)
    | MDM _ => rmap MDM (newMatrix (mat_Rows so) mc)
    | MDV _ | MSV _ => rmap MDM (newMatrix mr (mat_Columns so))
    end) in
  let! matrix := alloc t in
  multiply (bg E) s m MNil matrix ;!; mret matrix.

(** [Add]: csrMatrix.go:260-264, cscMatrix.go:267-272, denseMatrix.go:223-228, denseVector.go:232-236, sparseVector.go:245-249 *)
Definition m_Add (E : env) (s m : ptr) : M ptr :=
  let! matrix := p_Copy s in
  Add (bg E) s m MNil matrix ;!; mret matrix.

(** [Subtract]: csrMatrix.go:267-271, cscMatrix.go:275-280, denseMatrix.go:231-236, denseVector.go:239-243; sparseVector.go:252-256 copies [s] instead of [m] *)
Definition m_Subtract (E : env) (s m : ptr) : M ptr :=
  let! so := load s in
  let! matrix := (match so with MSV _ => p_Copy s | _ => p_Copy m end) in
  Subtract (bg E) s m MNil matrix ;!; mret matrix.

(** [Negative]: csrMatrix.go:274-278, cscMatrix.go:283-288, denseMatrix.go:239-243, denseVector.go:246-250, sparseVector.go:259-263 *)
Definition m_Negative (E : env) (s : ptr) : M ptr :=
  let! matrix := p_Copy s in
  Negative (bg E) s MNil matrix ;!; mret matrix.

(** [Transpose]: csrMatrix.go:281-285, cscMatrix.go:291-295, denseMatrix.go:246-250, denseVector.go:253-257, sparseVector.go:266-270 *)
Definition m_Transpose (E : env) (s : ptr) : M ptr :=
  let! so := load s in
  let! t := mlift (match so with
    | MCSR _ => rmap MCSR (newCSRMatrix (mat_Columns so) (mat_Rows so) 0)
    | MCSC _ => rmap MCSC (newCSCMatrix (mat_Columns so) (mat_Rows so) 0)
    | MDM _ | MDV _ | MSV _ => rmap MDM (newMatrix (mat_Columns so) (mat_Rows so))
    end) in
  let! matrix := alloc t in
  Transpose (bg E) s MNil matrix ;!; mret matrix.

(** [Equal], [NotEqual]: csrMatrix.go:288-295, cscMatrix.go:298-305, denseMatrix.go:253-260, denseVector.go:260-267,
    sparseVector.go:273-280 *)
Definition m_Equal (E : env) (s : ptr) (om : option ptr) : M bool := Equal (bg E) (Some s) om.
(** see m_Equal *)
Definition m_NotEqual (E : env) (s : ptr) (om : option ptr) : M bool := NotEqual (bg E) (Some s) om.

End Ops.

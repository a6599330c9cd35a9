(** The operators as sequences of steps.

    Ops.v, MathOps.v and Bfs.v describe what a call does from its start to its end.  Here the
    same functions, with the same text, are trees of steps: looking at an object, changing one,
    allocating one, testing the context.  Steps of several goroutines can be interleaved
    (FineConc.v).  FineProofs.v proves that running a tree without interruption is what Ops.v,
    MathOps.v and Bfs.v say.

    Granularity: [At] and [Element] (mask.go:24) look at the object in one step and write it back in
    another (FineConc.v, [g_back]); [Set] and [Update] likewise ([Load], [Store]); a [Load] gives the whole
    object. *)
From Coq Require Import String.
From Verif Require Import GoBase Num SparseVec Csr Csc DenseVec DenseMat Mat World Ops MathOps Bfs Spec Api.

Section Fine.
Context {N : num}.
Notation V := (T N).
Notation mat := (mat N).

(** steps of a goroutine (those of World.v: [poll], [load], [store], [alloc], [mat_At], [mat_Element]) *)
Inductive prog (A : Type) : Type :=
| Ret (a : A)
| Stop                                             (* panic *)
| Hang                                             (* never ends *)
| Poll (E : env) (k : bool -> prog A)
| Load (p : ptr) (k : mat -> prog A)
| Store (p : ptr) (m : mat) (q : prog A)
| AtOp (p : ptr) (r c : Z) (k : V -> prog A)       (* p.At(r, c) *)
| ElemOp (p : ptr) (r c : Z) (k : bool -> prog A)  (* p.Element(r, c) *)
| Alloc (m : mat) (k : ptr -> prog A).
Arguments Ret {A}. Arguments Stop {A}. Arguments Hang {A}. Arguments Poll {A}. Arguments Load {A}.
Arguments Store {A}. Arguments AtOp {A}. Arguments ElemOp {A}. Arguments Alloc {A}.

Fixpoint mbind {A B} (p : prog A) (f : A -> prog B) : prog B :=
  match p with
  | Ret a => f a
  | Stop => Stop
  | Hang => Hang
  | Poll E k => Poll E (fun b => mbind (k b) f)
  | Load p k => Load p (fun m => mbind (k m) f)
  | Store p m q => Store p m (mbind q f)
  | AtOp p r c k => AtOp p r c (fun v => mbind (k v) f)
  | ElemOp p r c k => ElemOp p r c (fun b => mbind (k b) f)
  | Alloc m k => Alloc m (fun p => mbind (k p) f)
  end.
(** [return a] *)
Definition mret {A} (a : A) : prog A := Ret a.
(** [log.Panicf], which panics after logging *)
Definition mpanic {A} : prog A := Stop.
(** a loop or a channel operation that never ends *)
Definition mdiverge {A} : prog A := Hang.
(** a computation that does not touch the state *)
Definition mlift {A} (x : res A) : prog A := match x with Ok a => Ret a | Panic => Stop | Diverge => Hang end.
(** World.v, [poll] *)
Definition poll (E : env) : prog bool := Poll E (fun b => Ret b).
(** World.v, [load] *)
Definition load (p : ptr) : prog mat := Load p (fun m => Ret m).
(** World.v, [store] *)
Definition store (p : ptr) (m : mat) : prog unit := Store p m (Ret tt).
(** World.v, [alloc] *)
Definition alloc (m : mat) : prog ptr := Alloc m (fun p => Ret p).

(** running a tree without interruption *)
Fixpoint interp {A} (x : prog A) (w : world N) : world N * res A :=
  match x with
  | Ret a => (w, Ok a)
  | Stop => (w, Panic)
  | Hang => (w, Diverge)
  | Poll E k => match World.poll E w with (w', Ok b) => interp (k b) w' | (w', _) => (w', Panic) end
  | Load p k => match nth_error (w_heap w) p with Some m => interp (k m) w | None => (w, Panic) end
  | Store p m q => interp q {| w_heap := list_set (w_heap w) p m; w_polls := w_polls w |}
  | AtOp p r c k =>
      match nth_error (w_heap w) p with
      | Some m => match mat_At m r c with
                  | Ok (v, m') => interp (k v) {| w_heap := list_set (w_heap w) p m'; w_polls := w_polls w |}
                  | Panic => (w, Panic) | Diverge => (w, Diverge) end
      | None => (w, Panic)
      end
  | ElemOp p r c k =>
      match nth_error (w_heap w) p with
      | Some m => match mat_Element m r c with
                  | Ok (b, m') => interp (k b) {| w_heap := list_set (w_heap w) p m'; w_polls := w_polls w |}
                  | Panic => (w, Panic) | Diverge => (w, Diverge) end
      | None => (w, Panic)
      end
  | Alloc m k => interp (k (length (w_heap w))) {| w_heap := w_heap w ++ [m]; w_polls := w_polls w |}
  end.
End Fine.
Arguments prog : clear implicits.
Arguments Ret {N A}. Arguments Stop {N A}. Arguments Hang {N A}. Arguments Poll {N A}. Arguments Load {N A}.
Arguments Store {N A}. Arguments AtOp {N A}. Arguments ElemOp {N A}. Arguments Alloc {N A}.

Notation "'let!' x ':=' m 'in' k" := (mbind m (fun x => k))
  (at level 200, x name, m at level 100, k at level 200).
Notation "'let!' ' p ':=' m 'in' k" := (mbind m (fun p => k))
  (at level 200, p pattern, m at level 100, k at level 200).
Notation "m1 ;!; m2" := (mbind m1 (fun _ => m2)) (at level 61, right associativity).

Section FineOps.
Context {N : num}.
Notation V := (T N).
Notation M := (prog N).
Notation mat := (mat N).
Notation call := (call N).

(** ** World.v *)

(** Method calls through a pointer. A method that panics leaves the object as it was (each
    storage method checks before it writes). (the methods of matrix.go:10-91) *)
Definition p_Rows (p : ptr) : M Z := let! m := load p in mret (mat_Rows m).
(** see mat_Columns, Mat.v *)
Definition p_Columns (p : ptr) : M Z := let! m := load p in mret (mat_Columns m).
(** see mat_Values, Mat.v *)
Definition p_Values (p : ptr) : M Z := let! m := load p in mret (mat_Values m).
(** see mat_Size, Mat.v *)
Definition p_Size (p : ptr) : M Z := let! m := load p in mret (mat_Size m).
(** see mat_At, Mat.v *)
Definition p_At (p : ptr) (r c : Z) : M V := AtOp p r c (fun v => mret v).
(** see mat_Set, Mat.v *)
Definition p_Set (p : ptr) (r c : Z) (v : V) : M unit :=
  let! m := load p in
  let! m' := mlift (mat_Set m r c v) in
  store p m'.
(** see mat_Update, Mat.v *)
Definition p_Update (p : ptr) (r c : Z) (f : V -> V) : M unit :=
  let! m := load p in
  let! m' := mlift (mat_Update m r c f) in
  store p m'.
(** see mat_SetVec, Mat.v *)
Definition p_SetVec (p : ptr) (i : Z) (v : V) : M unit :=
  let! m := load p in
  let! m' := mlift (mat_SetVec m i v) in
  store p m'.
(** see mat_Copy, Mat.v *)
Definition p_Copy (p : ptr) : M ptr :=
  let! m := load p in
  let! m' := mlift (mat_Copy m) in
  alloc m'.
(** see mat_Clear, Mat.v *)
Definition p_Clear (p : ptr) : M unit :=
  let! m := load p in
  let! m' := mlift (mat_Clear m) in
  store p m'.
(** see mat_RowsAt, Mat.v *)
Definition p_RowsAt (p : ptr) (r : Z) : M ptr :=
  let! m := load p in let! v := mlift (mat_RowsAt m r) in alloc v.
(** see mat_ColumnsAt, Mat.v *)
Definition p_ColumnsAt (p : ptr) (c : Z) : M ptr :=
  let! m := load p in let! v := mlift (mat_ColumnsAt m c) in alloc v.
(** see mat_RowsAtToArray, Mat.v *)
Definition p_RowsAtToArray (p : ptr) (r : Z) : M (list V) :=
  let! m := load p in mlift (mat_RowsAtToArray m r).
(** matrixRegistry.go:27-31 *)
Definition p_IsSparse (E : env) (p : ptr) : M bool :=
  let! m := load p in mret (IsSparseMatrix (e_reg E) m).

(** ** Masks (mask.go) *)

(** mask.go:14, 44-46 *)
Definition mask_Rows (k : mask) : M Z :=
  match k with
  | MNil => mpanic
  | MEmpty r _ => mret r
  | MObj p => p_Rows p
  | MUser r _ _ => mret r
  end.

(** mask.go:11, 39-41 *)
Definition mask_Columns (k : mask) : M Z :=
  match k with
  | MNil => mpanic
  | MEmpty _ c => mret c
  | MObj p => p_Columns p
  | MUser _ c _ => mret c
  end.

(** mask.go:24, 49-51; a matrix as mask: see mat_Element, Mat.v *)
Definition mask_Element (k : mask) (r c : Z) : M bool :=
  match k with
  | MNil => mpanic
  | MEmpty _ _ => mret false
  | MObj p => ElemOp p r c (fun b => mret b)
  | MUser _ _ f => mret (f r c)
  end.

(** The prologue shared by the operators, e.g. operators.go:24-34: a nil mask
    becomes an [EmptyMask] of the output's size; a size mismatch panics. *)
Definition check_mask (k : mask) (out : ptr) : M mask :=
  let! r := p_Rows out in
  let! c := p_Columns out in
  let k := match k with MNil => MEmpty r c | _ => k end in
  let! kr := mask_Rows k in
  if negb (kr =? r) then mpanic
  else
    let! kc := mask_Columns k in
    if negb (kc =? c) then mpanic
    else mret k.

(** ** Loops *)

(** [for i := a; i < b; i++ { body }] with early return ([Some]) (e.g. operators.go:36-58)
    *)
Fixpoint for_list {R I} (is_ : list I) (body : I -> M (option R)) : M (option R) :=
  match is_ with
  | [] => mret None
  | i :: rest =>
      let! o := body i in
      match o with
      | Some r => mret (Some r)
      | None => for_list rest body
      end
  end.

(** [for it := p.Enumerate(); it.HasNext(); { select { case <-ctx.Done(): return onCancel;
    default: r, c, v := it.Next(); body } }]; [Some] is an early return (e.g.
    operators.go:305-317) *)
Fixpoint enum_loop {R} (E : env) (fuel : nat) (p : ptr) (it : iter) (onCancel : R)
    (body : Z -> Z -> V -> M (option R)) : M (option R) :=
  if mat_HasNext it then
    match fuel with
    | O => mdiverge
    | S fuel' =>
        let! d := poll E in
        if d then mret (Some onCancel)
        else
          let! m := load p in
          let! '(r, c, v, it') := mlift (mat_Next m it) in
          let! o := body r c v in
          match o with
          | Some x => mret (Some x)
          | None => enum_loop E fuel' p it' onCancel body
          end
    end
  else mret None.

(** the whole loop, with a new iterator *)
Definition enumerate {R} (E : env) (p : ptr) (onCancel : R)
    (body : Z -> Z -> V -> M (option R)) : M (option R) :=
  let! m := load p in
  enum_loop E (e_fuel E) p (mat_iterator m) onCancel body.

(** one call of [iterator.Map(f)], e.g. csrMatrix.go:392-401: move, apply [f] to
    the current element, write the result back *)
Definition map_step (p : ptr) (it : iter) (f : Z -> Z -> V -> M V) : M iter :=
  let! m := load p in
  let! it' := mlift (mat_next m it) in
  let! '(r, c, v) := mlift (mat_cur m it') in
  let! v' := f r c v in
  let! m := load p in
  let! m' := mlift (mat_map_put m it' v') in
  store p m' ;!; mret it'.

(** [for it := p.Map(); it.HasNext(); { select { case <-ctx.Done(): X; default: it.Map(f) }
    }] where X is [return] ([stop = true]) or a [break] that only leaves the select ([stop =
    false]) (e.g. operators.go:559-568) *)
Fixpoint map_loop (E : env) (stop : bool) (fuel : nat) (p : ptr) (it : iter)
    (f : Z -> Z -> V -> M V) : M unit :=
  if mat_HasNext it then
    match fuel with
    | O => mdiverge
    | S fuel' =>
        let! d := poll E in
        if d then (if stop then mret tt else map_loop E stop fuel' p it f)
        else
          let! it' := map_step p it f in
          map_loop E stop fuel' p it' f
    end
  else mret tt.

(** the whole loop, with a new iterator *)
Definition map_over (E : env) (stop : bool) (p : ptr) (f : Z -> Z -> V -> M V) : M unit :=
  let! m := load p in
  map_loop E stop (e_fuel E) p (mat_iterator m) f.

(** ** Ops.v *)

(** operators.go:42-52, the inner product loop; [None] when cancelled.  The
    vectors are temporaries, so they are passed by value. *)
Fixpoint dot_loop (E : env) (rows column : mat) (ls : list Z) (sum : V) : M (option V) :=
  match ls with
  | [] => mret (Some sum)
  | l :: rest =>
      let! d := poll E in
      if d then mret None
      else
        let! vC := mlift (mat_AtVec column l) in
        let! vR := mlift (mat_AtVec rows l) in
        dot_loop E rows column rest (nadd sum (nmul vR vC))
  end.

(** operators.go:19-60 [multiply] *)
Definition multiply (E : env) (s m : ptr) (k : mask) (matrix : ptr) : M unit :=
  let! mr := p_Rows m in
  let! sc := p_Columns s in
  if negb (mr =? sc) then mpanic
  else
    let! k := check_mask k matrix in
    let! sr := p_Rows s in
    let! mc := p_Columns m in
    let! _ := for_list (R := unit) (zrange 0 sr) (fun r =>
      let! so := load s in
      let! rows := mlift (mat_RowsAt so r) in
      for_list (zrange 0 mc) (fun c =>
        let! mo := load m in
        let! column := mlift (mat_ColumnsAt mo c) in
        let! o := dot_loop E rows column (zrange 0 (mat_Length rows)) n0 in
        match o with
        | None => mret (Some tt)
        | Some sum =>
            let! e := mask_Element k r c in
            (if negb e then p_Set matrix r c sum else mret tt) ;!;
            mret None
        end)) in
    mret tt.

(** operators.go:65-67 [MatrixMatrixMultiply] *)
Definition MatrixMatrixMultiply := multiply.

(** operators.go:72-74 [VectorMatrixMultiply]: note the swapped operands *)
Definition VectorMatrixMultiply (E : env) (s m : ptr) (k : mask) (vector : ptr) : M unit :=
  multiply E m s k vector.

(** operators.go:79-81 [MatrixVectorMultiply] *)
Definition MatrixVectorMultiply (E : env) (s m : ptr) (k : mask) (vector : ptr) : M unit :=
  multiply E s m k vector.

(** operators.go:83-145 [elementWiseMultiply] *)
Definition elementWiseMultiply (E : env) (s m : ptr) (k : mask) (matrix : ptr) : M unit :=
  let! k := check_mask k matrix in
  (* operators.go:99-106 *)
  let target source r c value : M (option unit) :=
    let! v := p_At source r c in
    if neqb value v then
      let! e := mask_Element k r c in
      (if negb e then p_Set matrix r c value else mret tt) ;!; mret None
    else mret None in
  (* operators.go:109-118 *)
  let setSource source r c value : M (option unit) :=
    let! e := mask_Element k r c in
    (if negb e then
       p_Update source r c (fun v => if negb (neqb value v) then n0 else v)
     else mret tt) ;!; mret None in
  let! sp := p_IsSparse E s in
  let! _ :=
    (if Nat.eqb m matrix then enumerate E s tt (setSource m)
     else if Nat.eqb s matrix then enumerate E m tt (setSource s)
     else if sp then enumerate E s tt (target m)
     else enumerate E m tt (target s)) in
  mret tt.

(** operators.go:150-156 [ElementWiseMatrixMultiply] *)
Definition ElementWiseMatrixMultiply (E : env) (s m : ptr) (k : mask) (matrix : ptr) : M unit :=
  let! mr := p_Rows m in
  let! sc := p_Columns s in
  if negb (mr =? sc) then mpanic else elementWiseMultiply E s m k matrix.

(** operators.go:161-167 [ElementWiseVectorMultiply] *)
Definition ElementWiseVectorMultiply (E : env) (s m : ptr) (k : mask) (vector : ptr) : M unit :=
  let! mr := p_Rows m in
  let! sr := p_Rows s in
  if negb (mr =? sr) then mpanic else elementWiseMultiply E s m k vector.

(** operators.go:171-177, 285-291: the operand size checks *)
Definition check_sizes (s m : ptr) : M unit :=
  let! sc := p_Columns s in
  let! mc := p_Columns m in
  if negb (sc =? mc) then mpanic
  else
    let! sr := p_Rows s in
    let! mr := p_Rows m in
    if negb (sr =? mr) then mpanic else mret tt.

(** operators.go:170-213 [Add] *)
Definition Add (E : env) (s m : ptr) (k : mask) (matrix : ptr) : M unit :=
  check_sizes s m ;!;
  let! k := check_mask k matrix in
  let! sp := p_IsSparse E s in
  let '(src, source) := if sp then (s, m) else (m, s) in
  let! _ := enumerate E src tt (fun r c v =>
    let! value := p_At source r c in
    let! e := mask_Element k r c in
    (if negb e then p_Set matrix r c (nadd value v) else mret tt) ;!;
    mret None) in
  mret tt.

(** operators.go:229-241 and 245-257: copy the non-zero elements of [src] *)
Definition ewa_loop (E : env) (src : ptr) (k : mask) (matrix : ptr) : M (option unit) :=
  enumerate E src tt (fun r c value =>
    if negb (neqb value n0) then
      let! e := mask_Element k r c in
      (if negb e then p_Set matrix r c value else mret tt) ;!; mret None
    else mret None).

(** operators.go:215-259 [elementWiseAdd] *)
Definition elementWiseAdd (E : env) (s m : ptr) (k : mask) (matrix : ptr) : M unit :=
  let! k := check_mask k matrix in
  let! o := (if negb (Nat.eqb s matrix) then ewa_loop E s k matrix else mret None) in
  match o with
  | Some _ => mret tt
  | None =>
      let! _ := (if negb (Nat.eqb m matrix) then ewa_loop E m k matrix else mret None) in
      mret tt
  end.

(** operators.go:264-270 [ElementWiseMatrixAdd] *)
Definition ElementWiseMatrixAdd (E : env) (s m : ptr) (k : mask) (matrix : ptr) : M unit :=
  let! mr := p_Rows m in
  let! sc := p_Columns s in
  if negb (mr =? sc) then mpanic else elementWiseAdd E s m k matrix.

(** operators.go:275-281 [ElementWiseVectorAdd] *)
Definition ElementWiseVectorAdd (E : env) (s m : ptr) (k : mask) (vector : ptr) : M unit :=
  let! mr := p_Rows m in
  let! sr := p_Rows s in
  if negb (mr =? sr) then mpanic else elementWiseAdd E s m k vector.

(** operators.go:284-318 [Subtract] *)
Definition Subtract (E : env) (s m : ptr) (k : mask) (matrix : ptr) : M unit :=
  check_sizes s m ;!;
  let! k := check_mask k matrix in
  let! _ := enumerate E s tt (fun r c value =>
    let! e := mask_Element k r c in
    (if negb e then p_Update matrix r c (fun v => nsub value v) else mret tt) ;!;
    mret None) in
  mret tt.

(** operators.go:323-366 [Apply]; the unary operator is a pure function *)
Definition Apply (E : env) (in_ : ptr) (k : mask) (u : V -> V) (matrix : ptr) : M unit :=
  let! k := check_mask k matrix in
  if Nat.eqb in_ matrix then
    map_over E true in_ (fun r c value =>
      let! e := mask_Element k r c in
      mret (if e then u value else value))
  else
    let! _ := enumerate E in_ tt (fun r c value =>
      let! e := mask_Element k r c in
      (if negb e then p_Set matrix c r (u value) else mret tt) ;!; mret None) in
    mret tt.

(** operators.go:369-396 [Negative]: the argument [s] is not used *)
Definition Negative (E : env) (s : ptr) (k : mask) (matrix : ptr) : M unit :=
  let! k := check_mask k matrix in
  map_over E true matrix (fun r c value =>
    let! e := mask_Element k r c in
    mret (if negb e then nneg value else value)).

(** operators.go:401-426 [Transpose] *)
Definition Transpose (E : env) (s : ptr) (k : mask) (matrix : ptr) : M unit :=
  let! k := check_mask k matrix in
  let! _ := enumerate E s tt (fun r c value =>
    let! e := mask_Element k r c in
    (if negb e then p_Set matrix c r value else mret tt) ;!; mret None) in
  mret tt.

(** operators.go:429-434 [TransposeToCSR] *)
Definition TransposeToCSR (E : env) (s : ptr) : M ptr :=
  let! c := p_Columns s in
  let! r := p_Rows s in
  let! t := mlift (NewCSRMatrix c r) in
  let! p := alloc (MCSR t) in
  Transpose E s MNil p ;!; mret p.

(** operators.go:437-442 [TransposeToCSC] *)
Definition TransposeToCSC (E : env) (s : ptr) : M ptr :=
  let! c := p_Columns s in
  let! r := p_Rows s in
  let! t := mlift (NewCSCMatrix c r) in
  let! p := alloc (MCSC t) in
  Transpose E s MNil p ;!; mret p.

(** operators.go:492-549 [Equal]; [None] is a nil interface *)
Definition Equal (E : env) (os om : option ptr) : M bool :=
  match os, om with
  | None, None => mret true
  | Some _, None => mret false
  | None, Some _ => mret false
  | Some s, Some m =>
      let! sc := p_Columns s in
      let! mc := p_Columns m in
      if negb (sc =? mc) then mret false
      else
      let! sr := p_Rows s in
      let! mr := p_Rows m in
      if negb (sr =? mr) then mret false
      else
      let! sps := p_IsSparse E s in
      let! spm := p_IsSparse E m in
      let! sv := p_Values s in
      let! mv := p_Values m in
      if ((sps && spm) || (negb sps && negb spm)) && negb (sv =? mv) then mret false
      else
      let '(src, matrix) := if sps then (s, m) else (m, s) in
      let! o := enumerate E src false (fun r c v =>
        let! mV := p_At matrix r c in
        if negb (neqb v mV) then mret (Some false) else mret None) in
      match o with
      | Some b => mret b
      | None => mret true
      end
  end.

(** operators.go:552-554 [NotEqual] *)
Definition NotEqual (E : env) (os om : option ptr) : M bool :=
  let! b := Equal E os om in mret (negb b).

(** operators.go:557-570 [Scalar] *)
Definition Scalar (E : env) (s : ptr) (alpha : V) : M ptr :=
  let! matrix := p_Copy s in
  map_over E false matrix (fun r c v => mret (nmul alpha v)) ;!;
  mret matrix.

(** ** Reduction, sequentially.  The goroutines of
    [ReduceMatrixToScalarWithMonoID] are modelled step by step in ReduceConc.v;
    this is the value they compute there. *)

(** operators.go:609-646 [ReduceMatrixToScalarWithMonoID]: what the call
    returns; on cancellation the caller blocks for ever (operators.go:632-633
    returns without sending on [done]).  [s] is a temporary vector or an object
    read under a mask. *)
Fixpoint reduce_loop (E : env) (fuel : nat) (p : ptr) (it : iter) (k : mask)
    (op : V -> V -> res V) (acc : V) : M V :=
  if mat_HasNext it then
    match fuel with
    | O => mdiverge
    | S fuel' =>
        let! d := poll E in
        if d then mdiverge
        else
          let! m := load p in
          let! '(r, c, v, it') := mlift (mat_Next m it) in
          let! e := mask_Element k r c in
          let! acc' := (if negb e then mlift (op acc v) else mret acc) in
          reduce_loop E fuel' p it' k op acc'
    end
  else mret acc.

(** operators.go:609-646, 598-600; as one goroutine, see above and ReduceConc.v *)
Definition ReduceMatrixToScalarWithMonoID (E : env) (s : ptr) (mo : monoid) (k : mask) : M V :=
  let! k := check_mask k s in
  let! m := load s in
  reduce_loop E (e_fuel E) s (mat_iterator m) k (mo_op mo) (mo_unit mo).

(** operators.go:603-605 [ReduceMatrixToScalar], 592-594 [ReduceVectorToScalar] *)
Definition ReduceMatrixToScalar (E : env) (s : ptr) (k : mask) : M V :=
  ReduceMatrixToScalarWithMonoID E s DefaultMonoIDAddition k.

(** operators.go:579-589 [ReduceMatrixToVectorWithMonoID] *)
Definition ReduceMatrixToVectorWithMonoID (E : env) (s : ptr) (mo : monoid) (k : mask) : M ptr :=
  let! cols := p_Columns s in
  let! v0 := mlift (newDenseVector cols) in
  let! vector := alloc (MDV v0) in
  let! _ := for_list (R := unit) (zrange 0 cols) (fun c =>
    let! v := p_ColumnsAt s c in
    let! scaler := ReduceMatrixToScalarWithMonoID E v mo k in
    p_SetVec vector c scaler ;!;
    mret None) in
  mret vector.

(** operators.go:573-575 [ReduceMatrixToVector] *)
Definition ReduceMatrixToVector (E : env) (s : ptr) : M ptr :=
  ReduceMatrixToVectorWithMonoID E s DefaultMonoIDMaximum MNil.

(** ** Methods.  Each is given by the line ranges in the order CSR (csrMatrix.go),
    CSC (cscMatrix.go), DenseMatrix, DenseVector, SparseVector. *)

(** [Scalar]: csrMatrix.go:248-250, cscMatrix.go:255-257, denseMatrix.go:211-213, denseVector.go:220-222, sparseVector.go:233-235 *)
Definition m_Scalar (E : env) (s : ptr) (alpha : V) : M ptr := Scalar (bg E) s alpha.

(** [Multiply]: csrMatrix.go:253-257, cscMatrix.go:260-264, denseMatrix.go:216-220, denseVector.go:225-229, sparseVector.go:238-242.  The vectors size the output by [m.Rows()]. *)
Definition m_Multiply (E : env) (s m : ptr) : M ptr :=
  let! so := load s in
  let! mr := p_Rows m in
  let! mc := p_Columns m in
  let! t := mlift (match so with
    | MCSR _ => rmap MCSR (newCSRMatrix (mat_Rows so) mc 0)
    | MCSC _ => rmap MCSC (newCSCMatrix (mat_Rows so) mc 0)
    | MDM _ => rmap MDM (newMatrix (mat_Rows so) mc)
    | MDV _ | MSV _ => rmap MDM (newMatrix mr (mat_Columns so))
    end) in
  let! matrix := alloc t in
  multiply (bg E) s m MNil matrix ;!; mret matrix.

(** [Add]: csrMatrix.go:260-264, cscMatrix.go:267-272, denseMatrix.go:223-228, denseVector.go:232-236, sparseVector.go:245-249 *)
Definition m_Add (E : env) (s m : ptr) : M ptr :=
  let! matrix := p_Copy s in
  Add (bg E) s m MNil matrix ;!; mret matrix.

(** [Subtract]: csrMatrix.go:267-271, cscMatrix.go:275-280, denseMatrix.go:231-236, denseVector.go:239-243; sparseVector.go:252-256 copies [s] instead of [m] *)
Definition m_Subtract (E : env) (s m : ptr) : M ptr :=
  let! so := load s in
  let! matrix := (match so with MSV _ => p_Copy s | _ => p_Copy m end) in
  Subtract (bg E) s m MNil matrix ;!; mret matrix.

(** [Negative]: csrMatrix.go:274-278, cscMatrix.go:283-288, denseMatrix.go:239-243, denseVector.go:246-250, sparseVector.go:259-263 *)
Definition m_Negative (E : env) (s : ptr) : M ptr :=
  let! matrix := p_Copy s in
  Negative (bg E) s MNil matrix ;!; mret matrix.

(** [Transpose]: csrMatrix.go:281-285, cscMatrix.go:291-295, denseMatrix.go:246-250, denseVector.go:253-257, sparseVector.go:266-270 *)
Definition m_Transpose (E : env) (s : ptr) : M ptr :=
  let! so := load s in
  let! t := mlift (match so with
    | MCSR _ => rmap MCSR (newCSRMatrix (mat_Columns so) (mat_Rows so) 0)
    | MCSC _ => rmap MCSC (newCSCMatrix (mat_Columns so) (mat_Rows so) 0)
    | MDM _ | MDV _ | MSV _ => rmap MDM (newMatrix (mat_Columns so) (mat_Rows so))
    end) in
  let! matrix := alloc t in
  Transpose (bg E) s MNil matrix ;!; mret matrix.

(** [Equal], [NotEqual]: csrMatrix.go:288-295, cscMatrix.go:298-305, denseMatrix.go:253-260, denseVector.go:260-267,
    sparseVector.go:273-280 *)
Definition m_Equal (E : env) (s : ptr) (om : option ptr) : M bool := Equal (bg E) (Some s) om.
(** see m_Equal *)
Definition m_NotEqual (E : env) (s : ptr) (om : option ptr) : M bool := NotEqual (bg E) (Some s) om.

(** ** MathOps.v *)

(** math/symmetric/symmetric.go:14-23 [Symmetric] *)
Definition Symmetric (E : env) (s : ptr) : M bool :=
  let! r := p_Rows s in
  let! c := p_Columns s in
  if negb (r =? c) then mret false
  else
    let! t := m_Transpose E s in
    m_Equal E t (Some s).

(** math/skewsymmetric/skewSymmetric.go:14-24 [SkewSymmetric] *)
Definition SkewSymmetric (E : env) (s : ptr) : M bool :=
  let! r := p_Rows s in
  let! c := p_Columns s in
  if negb (r =? c) then mret false
  else
    let! n := m_Negative E s in
    let! t := m_Transpose E n in
    m_Equal E t (Some s).

(** ** math/reduced/reduced.go *)

(** reduced.go:25-35, the search for a pivot: [Some (i, lead)], or [None] when
    the last column is passed (the function returns).  The loop is given [fuel]
    rounds. *)
Fixpoint pivot_search (fuel : nat) (m : ptr) (rowCount columnCount r i lead : Z) : M (option (Z * Z)) :=
  match fuel with
  | O => mdiverge
  | S fuel' =>
      let! v := p_At m i lead in
      if neqb v n0 then
        if rowCount =? i + 1 then
          if columnCount =? lead + 1 then mret None
          else pivot_search fuel' m rowCount columnCount r r (lead + 1)
        else pivot_search fuel' m rowCount columnCount r (i + 1) lead
      else mret (Some (i, lead))
  end.

(** [for c := 0; c < len(v); c++ { body(c, v[c]) }] (math/reduced/reduced.go:15-77) *)
Definition for_values (v : list V) (body : Z -> V -> M unit) : M unit :=
  let! _ := for_list (R := unit) (zrange 0 (zlen v)) (fun c =>
    let! x := mlift (zget v c) in
    body c x ;!; mret None) in
  mret tt.

(** reduced.go:37-48, exchanging rows [i] and [r] *)
Definition swap_rows (m : ptr) (i r : Z) : M unit :=
  if negb (i =? r) then
    let! v1 := p_RowsAtToArray m i in
    let! v2 := p_RowsAtToArray m r in
    for_values v1 (fun c x => p_Set m r c x) ;!;
    for_values v2 (fun c x => p_Set m i c x)
  else mret tt.

(** reduced.go:50-57, dividing row [r] by its pivot *)
Definition scale_row (m : ptr) (r lead : Z) : M unit :=
  let! x := p_At m r lead in
  let! f := mlift (ndiv n1 x) in
  let! vector := p_RowsAtToArray m r in
  for_values vector (fun c value => p_Set m r c (nmul value f)).

(** reduced.go:59-72, clearing column [lead] in the other rows *)
Definition clear_column (m : ptr) (rowCount r lead : Z) : M unit :=
  let! _ := for_list (R := unit) (zrange 0 rowCount) (fun i =>
    if negb (i =? r) then
      let! f := p_At m i lead in
      let! vector := p_RowsAtToArray m r in
      for_values vector (fun c value => p_Update m i c (fun v => nsub v (nmul value f))) ;!;
      mret None
    else mret None) in
  mret tt.

(** reduced.go:21-74, the loop over the rows; [n] rows are left *)
Fixpoint reduce_rows (fuel : nat) (m : ptr) (rowCount columnCount : Z) (n : nat) (r lead : Z) : M unit :=
  match n with
  | O => mret tt
  | S n' =>
      if lead >=? columnCount then mret tt
      else
        let! o := pivot_search fuel m rowCount columnCount r r lead in
        match o with
        | None => mret tt
        | Some (i, lead) =>
            swap_rows m i r ;!;
            scale_row m r lead ;!;
            clear_column m rowCount r lead ;!;
            reduce_rows fuel m rowCount columnCount n' (r + 1) (lead + 1)
        end
  end.

(** math/reduced/reduced.go:15-77 [Reduced] *)
Definition Reduced (E : env) (s : ptr) : M ptr :=
  let! m := p_Copy s in
  let! rowCount := p_Rows m in
  let! columnCount := p_Columns m in
  reduce_rows (e_fuel E) m rowCount columnCount (Z.to_nat rowCount) 0 0 ;!;
  mret m.

(** ** math/strassen/strassen.go *)

(** [dst.Set(r', c', src.At(r, c))], strassen.go:54-62, 98-101 *)
Definition copy_cell (dst src : ptr) (r c r' c' : Z) : M unit :=
  let! v := p_At src r c in
  p_Set dst r' c' v.

(** [for r := 0; r < rows; r++ { for c := 0; c < columns; c++ { select { case <-ctx.Done():
    break; default: body } } }]; the [break] only leaves the select
    (math/strassen/strassen.go:23-107) *)
Definition grid (E : env) (rows columns : Z) (body : Z -> Z -> M unit) : M unit :=
  let! _ := for_list (R := unit) (zrange 0 rows) (fun r =>
    for_list (zrange 0 columns) (fun c =>
      let! d := poll E in
      (if d then mret tt else body r c) ;!; mret None)) in
  mret tt.

(** math/strassen/strassen.go:23-107: NewDenseMatrixN *)
Definition new_dense (r c : Z) : M ptr :=
  let! d := mlift (newMatrix r c) in alloc (MDM d).

(** the pointer received under number [i]; a nil entry of the array panics when used
    (math/strassen/strassen.go:23-107) *)
Fixpoint received (i : Z) (l : list (Z * ptr)) : M ptr :=
  match l with
  | [] => mpanic
  | (j, p) :: rest => if j =? i then mret p else received i rest
  end.

(** strassen.go:37-75: dividing the operands and computing the operands of the
    seven sub-products; the result maps a sub-product's number to its operands *)
Definition operands (E : env) (size : Z) (a b : ptr) : M (Z -> ptr * ptr) :=
  let! a11 := new_dense size size in
  let! a12 := new_dense size size in
  let! a21 := new_dense size size in
  let! a22 := new_dense size size in
  let! b11 := new_dense size size in
  let! b12 := new_dense size size in
  let! b21 := new_dense size size in
  let! b22 := new_dense size size in
  grid E size size (fun r c =>
    copy_cell a11 a r c r c ;!;
    copy_cell a12 a r (c + size) r c ;!;
    copy_cell a21 a (r + size) c r c ;!;
    copy_cell a22 a (r + size) (c + size) r c ;!;
    copy_cell b11 b r c r c ;!;
    copy_cell b12 b r (c + size) r c ;!;
    copy_cell b21 b (r + size) c r c ;!;
    copy_cell b22 b (r + size) (c + size) r c) ;!;
  let! x1 := m_Add E a11 a22 in
  let! y1 := m_Add E b11 b22 in
  let! x2 := m_Add E a21 a22 in
  let! y3 := m_Subtract E b12 b22 in
  let! y4 := m_Subtract E b21 b11 in
  let! x5 := m_Add E a11 a12 in
  let! x6 := m_Subtract E a21 a11 in
  let! y6 := m_Add E b11 b12 in
  let! x7 := m_Subtract E a12 a22 in
  let! y7 := m_Add E b21 b22 in
  mret (fun i =>
    if i =? 1 then (x1, y1)
    else if i =? 2 then (x2, b11)
    else if i =? 3 then (a11, y3)
    else if i =? 4 then (a22, y4)
    else if i =? 5 then (x5, b22)
    else if i =? 6 then (x6, y6)
    else (x7, y7)).

(** strassen.go:83-106: putting the received sub-products together *)
Definition combine (E : env) (m : list (Z * ptr)) : M ptr :=
  let! m1 := received 1 m in
  let! m2 := received 2 m in
  let! m3 := received 3 m in
  let! m4 := received 4 m in
  let! m5 := received 5 m in
  let! m6 := received 6 m in
  let! m7 := received 7 m in
  let! u := m_Add E m1 m4 in
  let! u := m_Subtract E u m5 in
  let! c11 := m_Add E u m7 in
  let! c12 := m_Add E m3 m5 in
  let! c21 := m_Add E m2 m4 in
  let! u := m_Subtract E m1 m2 in
  let! u := m_Add E u m3 in
  let! c22 := m_Add E u m6 in
  let! shift := p_Rows c11 in
  let! matrix := new_dense (shift * 2) (shift * 2) in
  let! columns := p_Columns c11 in
  grid E shift columns (fun r c =>
    copy_cell matrix c11 r c r c ;!;
    copy_cell matrix c12 r c r (c + shift) ;!;
    copy_cell matrix c21 r c (r + shift) c ;!;
    copy_cell matrix c22 r c (r + shift) (c + shift)) ;!;
  mret matrix.

(** ** Bfs.v *)

(** breadthfirst/breadthFirst.go:30-43, the loop with [k] rounds left, the
    [d]-th call of [c] next.

    The callback is a function of the number of the call and of the vector it
    is shown (a Go callback is an arbitrary closure; in one run its answers are
    some function of the call's number).  It only looks at the vector.

    The list returned is not part of the Go code: it records the vectors [c]
    was shown. *)
Fixpoint search_loop (E : env) (a : ptr) (c : nat -> mat -> bool) (visited result : ptr) (k d : nat) (frontier : ptr)
    : M (list mat) :=
  match k with
  | O => mret []
  | S k' =>
      MatrixVectorMultiply E a frontier (MObj visited) result ;!;
      let! shown := load result in
      if c d shown then mret [shown]
      else
        ElementWiseVectorAdd E visited result MNil visited ;!;
        let! frontier' := p_Copy result in
        p_Clear result ;!;
        let! rest := search_loop E a c visited result k' (S d) frontier' in
        mret (shown :: rest)
  end.

(** breadthfirst/breadthFirst.go:16-46 [Search]; [n], the number of rounds, is
    [a.Rows()], which is never negative *)
Definition Search (E : env) (a : ptr) (s : Z) (c : nat -> mat -> bool) : M (ptr * list mat) :=
  let! n := p_Rows a in
  let! f := mlift (newDenseVector n) in
  let! frontier := alloc (MDV f) in
  p_SetVec frontier s n1 ;!;
  let! visited := p_Copy frontier in
  let! r := mlift (newDenseVector n) in
  let! result := alloc (MDV r) in
  let! trace := search_loop E a c visited result (Z.to_nat n) 1 frontier in
  mret (result, trace).
(** ** Api.v *)

(** denseVector.go:88-100 [ReSize] through a pointer *)
Definition p_ReSize (p : ptr) (size : Z) : M Z :=
  let! m := load p in
  match m with
  | MDV s => let! '(l, s') := mlift (dv_ReSize s size) in store p (MDV s') ;!; mret l
  | _ => mpanic
  end.

(** [for it := p.Map(); it.HasNext(); { it.Map(f) }] written by the user *)
Definition user_Map (E : env) (p : ptr) (f : Z -> Z -> V -> V) : M unit :=
  map_over (bg E) true p (fun r c v => mret (f r c v)).

(** a call that returns a new object *)
Definition new (x : res mat) : M unit := let! m := mlift x in let! _ := alloc m in mret tt.
(** a call whose result is not an object *)
Definition drop {A} (x : M A) : M unit := let! _ := x in mret tt.

(** performing a call; results other than new objects are dropped (each line names the
    function of the library it calls) *)
Definition perform (k : call) : M unit :=
  match k with
  | KNewCSR r c => new (rmap MCSR (NewCSRMatrix r c))
  | KNewCSC r c => new (rmap MCSC (NewCSCMatrix r c))
  | KNewDense r c => new (rmap MDM (newMatrix r c))
  | KNewDV l => new (rmap MDV (newDenseVector l))
  | KNewSV l => new (rmap MSV (NewSparseVector l))
  | KCSRFrom d => new (rmap MCSR (NewCSRMatrixFromArray d))
  | KCSCFrom d => new (rmap MCSC (NewCSCMatrixFromArray d))
  | KDenseFrom d => new (rmap MDM (NewDenseMatrixFromArray d))
  | KDVFrom d => new (rmap MDV (NewDenseVectorFromArray d))
  | KSVFrom d => new (rmap MSV (NewSparseVectorFromArray d))
  | KSet p r c v => p_Set p r c v
  | KUpdate p r c f => p_Update p r c f
  | KSetVec p i v => p_SetVec p i v
  | KAt p r c => drop (p_At p r c)
  | KElement p r c => drop (mask_Element (MObj p) r c)
  | KClear p => p_Clear p
  | KCopy p => drop (p_Copy p)
  | KReSize p n => drop (p_ReSize p n)
  | KRowsAt p r => drop (p_RowsAt p r)
  | KColumnsAt p c => drop (p_ColumnsAt p c)
  | KMap E p f => user_Map E p f
  | KMultiply E s m k t => MatrixMatrixMultiply E s m k t
  | KVecMatMul E s m k t => VectorMatrixMultiply E s m k t
  | KAdd E s m k t => Add E s m k t
  | KSubtract E s m k t => Subtract E s m k t
  | KEWMatMul E s m k t => ElementWiseMatrixMultiply E s m k t
  | KEWVecMul E s m k t => ElementWiseVectorMultiply E s m k t
  | KEWMatAdd E s m k t => ElementWiseMatrixAdd E s m k t
  | KEWVecAdd E s m k t => ElementWiseVectorAdd E s m k t
  | KApply E s k u t => Apply E s k u t
  | KNegative E s k t => Negative E s k t
  | KTranspose E s k t => Transpose E s k t
  | KTransposeToCSR E s => drop (TransposeToCSR E s)
  | KTransposeToCSC E s => drop (TransposeToCSC E s)
  | KEqual E s m => drop (Equal E s m)
  | KNotEqual E s m => drop (NotEqual E s m)
  | KScalar E s a => drop (Scalar E s a)
  | KReduce E s mo k => drop (ReduceMatrixToScalarWithMonoID E s mo k)
  | KReduceVec E s mo k => drop (ReduceMatrixToVectorWithMonoID E s mo k)
  | KMMultiply E s m => drop (m_Multiply E s m)
  | KMAdd E s m => drop (m_Add E s m)
  | KMSubtract E s m => drop (m_Subtract E s m)
  | KMNegative E s => drop (m_Negative E s)
  | KMTranspose E s => drop (m_Transpose E s)
  end.

(** calls one after the other *)
Fixpoint performs (ks : list call) : M unit :=
  match ks with [] => mret tt | k :: rest => perform k ;!; performs rest end.

End FineOps.

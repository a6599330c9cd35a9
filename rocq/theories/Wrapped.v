(** A matrix type of the caller's that passes every method on to a matrix of the library,
    given to the operators of operators.go.

    The operators take the interface [Matrix] (matrix.go:65-91), so a program can give them a
    type of its own.  The shortest is a struct that embeds a [Matrix],
<<
    type Named struct { graphblas.Matrix[float64]; name string }
>>
    which has all its methods, each of them that of the matrix inside; a MutexMatrix, which
    lacks CopyLogical and has another Copy (mutexMatrix.go:86), becomes one when embedded in a
    struct that adds these two.  An operator can tell such a matrix from the one inside in
    two ways only: the name of the type, which [IsSparseMatrix] looks up in the registry
    (matrixRegistry.go:27-31), and the comparison of the operands with the output
    (operators.go:120, 124, 228, 244, 336).  The operators that do neither (multiplication,
    Subtract, Negative, Transpose, Scalar and the reductions) are those of Ops.v on the
    matrix inside and are not repeated here.  A wrapper used as mask is [MObj] of the matrix
    inside: only Rows, Columns and Element are called on a mask.  Types whose methods do
    anything else than pass the call on are not modelled. *)
From Coq Require Import String.
From Verif Require Import GoBase Num SparseVec Csr Csc DenseVec DenseMat Mat World Ops.
Import ListNotations.

Section Wrapped.
Context {N : num}.
Notation V := (T N).
Notation M := (M N).

(** what a variable of an interface type holds: a pointer to a matrix or vector of the
    library; a pointer to the [l]-th wrapper, a struct of type [ty] that holds [h]; or such
    a struct itself, without other fields, by value (Go lets both have the methods).  [ty] is the name
    that [reflect] gives the type; one name stands for one type here *)
Inductive handle : Type :=
| Plain (p : ptr)
| Wrapped (l : nat) (ty : string) (h : handle)
| ByValue (ty : string) (h : handle).

(** the matrix that the methods reach *)
Fixpoint h_ptr (h : handle) : ptr :=
  match h with Plain p => p | Wrapped _ _ h | ByValue _ h => h_ptr h end.

(** [==] on interface values: pointers are compared by address, structs by type and field *)
Fixpoint h_same (a b : handle) : bool :=
  match a, b with
  | Plain p, Plain q => Nat.eqb p q
  | Wrapped l _ _, Wrapped l' _ _ => Nat.eqb l l'
  | ByValue ty h, ByValue ty' h' => String.eqb ty ty' && h_same h h'
  | _, _ => false
  end.

(** matrixRegistry.go:27-31: the name looked up is that of the type pointed to *)
Definition h_sparse (reg : list string) (h : handle) (m : mat N) : bool :=
  match h with
  | Plain _ => IsSparseMatrix reg m
  | Wrapped _ ty _ => existsb (String.eqb ty) reg
  | ByValue _ _ => false
  end.
(** matrixRegistry.go:27-31 [IsSparseMatrix]: [Elem] of a type that is no pointer panics
    (Registry.v has reflect's part in this) *)
Definition h_IsSparse (E : env) (h : handle) : M bool :=
  match h with
  | ByValue _ _ => mpanic
  | _ => let! m := load (h_ptr h) in mret (h_sparse (e_reg E) h m)
  end.

(** operators.go:83-145 [elementWiseMultiply] *)
Definition hElementWiseMultiply (E : env) (s m : handle) (k : mask) (matrix : handle) : M unit :=
  let! k := check_mask k (h_ptr matrix) in
  (* operators.go:99-106 *)
  let target source r c value : M (option unit) :=
    let! v := p_At source r c in
    if neqb value v then
      let! e := mask_Element k r c in
      (if negb e then p_Set (h_ptr matrix) r c value else mret tt) ;!; mret None
    else mret None in
  (* operators.go:109-118 *)
  let setSource source r c value : M (option unit) :=
    let! e := mask_Element k r c in
    (if negb e then
       p_Update source r c (fun v => if negb (neqb value v) then n0 else v)
     else mret tt) ;!; mret None in
  let! sp := h_IsSparse E s in
  let! _ :=
    (if h_same m matrix then enumerate E (h_ptr s) tt (setSource (h_ptr m))
     else if h_same s matrix then enumerate E (h_ptr m) tt (setSource (h_ptr s))
     else if sp then enumerate E (h_ptr s) tt (target (h_ptr m))
     else enumerate E (h_ptr m) tt (target (h_ptr s))) in
  mret tt.

(** operators.go:150-156 [ElementWiseMatrixMultiply] *)
Definition hElementWiseMatrixMultiply (E : env) (s m : handle) (k : mask) (matrix : handle) : M unit :=
  let! mr := p_Rows (h_ptr m) in
  let! sc := p_Columns (h_ptr s) in
  if negb (mr =? sc) then mpanic else hElementWiseMultiply E s m k matrix.

(** operators.go:170-213 [Add] *)
Definition hAdd (E : env) (s m : handle) (k : mask) (matrix : handle) : M unit :=
  check_sizes (h_ptr s) (h_ptr m) ;!;
  let! k := check_mask k (h_ptr matrix) in
  let! sp := h_IsSparse E s in
  let '(src, source) := if sp then (h_ptr s, h_ptr m) else (h_ptr m, h_ptr s) in
  let! _ := enumerate E src tt (fun r c v =>
    let! value := p_At source r c in
    let! e := mask_Element k r c in
    (if negb e then p_Set (h_ptr matrix) r c (nadd value v) else mret tt) ;!;
    mret None) in
  mret tt.

(** operators.go:215-259 [elementWiseAdd] *)
Definition hElementWiseAdd (E : env) (s m : handle) (k : mask) (matrix : handle) : M unit :=
  let! k := check_mask k (h_ptr matrix) in
  let! o := (if negb (h_same s matrix) then ewa_loop E (h_ptr s) k (h_ptr matrix) else mret None) in
  match o with
  | Some _ => mret tt
  | None =>
      let! _ := (if negb (h_same m matrix) then ewa_loop E (h_ptr m) k (h_ptr matrix) else mret None) in
      mret tt
  end.

(** operators.go:264-270 [ElementWiseMatrixAdd] *)
Definition hElementWiseMatrixAdd (E : env) (s m : handle) (k : mask) (matrix : handle) : M unit :=
  let! mr := p_Rows (h_ptr m) in
  let! sc := p_Columns (h_ptr s) in
  if negb (mr =? sc) then mpanic else hElementWiseAdd E s m k matrix.

(** operators.go:323-366 [Apply]; the unary operator is a pure function *)
Definition hApply (E : env) (in_ : handle) (k : mask) (u : V -> V) (matrix : handle) : M unit :=
  let! k := check_mask k (h_ptr matrix) in
  if h_same in_ matrix then
    map_over E true (h_ptr in_) (fun r c value =>
      let! e := mask_Element k r c in
      mret (if e then u value else value))
  else
    let! _ := enumerate E (h_ptr in_) tt (fun r c value =>
      let! e := mask_Element k r c in
      (if negb e then p_Set (h_ptr matrix) c r (u value) else mret tt) ;!; mret None) in
    mret tt.

(** operators.go:492-549 [Equal]; [None] is a nil interface *)
Definition hEqual (E : env) (os om : option handle) : M bool :=
  match os, om with
  | None, None => mret true
  | Some _, None => mret false
  | None, Some _ => mret false
  | Some s, Some m =>
      let! sc := p_Columns (h_ptr s) in
      let! mc := p_Columns (h_ptr m) in
      if negb (sc =? mc) then mret false
      else
      let! sr := p_Rows (h_ptr s) in
      let! mr := p_Rows (h_ptr m) in
      if negb (sr =? mr) then mret false
      else
      let! sps := h_IsSparse E s in
      let! spm := h_IsSparse E m in
      let! sv := p_Values (h_ptr s) in
      let! mv := p_Values (h_ptr m) in
      if ((sps && spm) || (negb sps && negb spm)) && negb (sv =? mv) then mret false
      else
      let '(src, matrix) := if sps then (h_ptr s, h_ptr m) else (h_ptr m, h_ptr s) in
      let! o := enumerate E src false (fun r c v =>
        let! mV := p_At matrix r c in
        if negb (neqb v mV) then mret (Some false) else mret None) in
      match o with
      | Some b => mret b
      | None => mret true
      end
  end.

(** the methods [s.Add(m)] and [s.Equal(m)]: a wrapper passes its argument on to the
    method of the matrix inside, which calls the operator on itself, so the receiver is not
    wrapped any more but the argument still is
    (csrMatrix.go:260-264, 288-290; for the other types see m_Add, m_Equal in Ops.v; for the
    receiver MutexMatrix mutexMatrix.go:110-115, 142-147) *)
Definition hm_Add (E : env) (s m : handle) : M ptr :=
  let! matrix := p_Copy (h_ptr s) in
  hAdd (bg E) (Plain (h_ptr s)) m MNil (Plain matrix) ;!; mret matrix.
(** see hm_Add *)
Definition hm_Equal (E : env) (s : handle) (om : option handle) : M bool :=
  hEqual (bg E) (Some (Plain (h_ptr s))) om.

End Wrapped.

(** The interfaces [Matrix], [MatrixLogical], [Vector], [Mask], [Enumerate] and
    [Map] (matrix.go:9-97, vector.go:11-41, mask.go:9-25, enumerate.go:12-17,
    map.go:12-17): dynamic dispatch over the five storage types, and the
    registry of sparse types (matrixRegistry.go). *)
From Coq Require Import String.
From Verif Require Import GoBase Num SparseVec Csr Csc DenseVec DenseMat.

Section Mat.
Context {N : num}.
Notation V := (T N).

(** A dynamic value behind a [Matrix]/[MatrixLogical] interface. The pairs
    [DenseMatrix]/[DenseMatrixNumber] and [DenseVector]/[DenseVectorNumber] are merged (same
    representation, same behaviour of the shared methods). (the structs: csrMatrix.go:21-27,
    cscMatrix.go:22-28, denseMatrix.go:16-24, denseVector.go:16-23, sparseVector.go:25-29)
    *)
Inductive mat : Type :=
| MCSR (s : csr N)
| MCSC (s : csc N)
| MDM (s : dense N)
| MDV (s : dvec N)
| MSV (s : svec N).

(** csrMatrix.go:64-66, cscMatrix.go:70-72, denseMatrix.go:85-87, denseVector.go:113-115, sparseVector.go:97-99 *)
Definition mat_Rows (m : mat) : Z :=
  match m with
  | MCSR s => csr_Rows s | MCSC s => csc_Rows s | MDM s => dm_Rows s
  | MDV s => dv_Rows s | MSV s => sv_Rows s
  end.

(** csrMatrix.go:59-61, cscMatrix.go:65-67, denseMatrix.go:80-82, denseVector.go:108-110, sparseVector.go:92-94 *)
Definition mat_Columns (m : mat) : Z :=
  match m with
  | MCSR s => csr_Columns s | MCSC s => csc_Columns s | MDM s => dm_Columns s
  | MDV s => dv_Columns s | MSV s => sv_Columns s
  end.

(** csrMatrix.go:298-300, cscMatrix.go:308-310, denseMatrix.go:263-265, denseVector.go:83-85, sparseVector.go:283-285 *)
Definition mat_Size (m : mat) : Z :=
  match m with
  | MCSR s => csr_Size s | MCSC s => csc_Size s | MDM s => dm_Size s
  | MDV s => dv_Size s | MSV s => sv_Size s
  end.

(** csrMatrix.go:303-305, cscMatrix.go:313-315, denseMatrix.go:268-270, denseVector.go:270-272, sparseVector.go:288-290 *)
Definition mat_Values (m : mat) : Z :=
  match m with
  | MCSR s => csr_Values s | MCSC s => csc_Values s | MDM s => dm_Values s
  | MDV s => dv_Values s | MSV s => sv_Values s
  end.

(** [At]: the value and the state left behind (the sparse types implement [At] through
    [Update]) (csrMatrix.go:99-106, cscMatrix.go:107-114, denseMatrix.go:105-115,
    denseVector.go:132-134, sparseVector.go:116-123) *)
Definition mat_At (m : mat) (r c : Z) : res (V * mat) :=
  match m with
  | MCSR s => rmap (fun p => (fst p, MCSR (snd p))) (csr_At s r c)
  | MCSC s => rmap (fun p => (fst p, MCSC (snd p))) (csc_At s r c)
  | MDM s => rmap (fun v => (v, MDM s)) (dm_At s r c)
  | MDV s => rmap (fun v => (v, MDV s)) (dv_At s r c)
  | MSV s => rmap (fun p => (fst p, MSV (snd p))) (sv_At s r c)
  end.

(** csrMatrix.go:109-113, cscMatrix.go:117-121, denseMatrix.go:118-128, denseVector.go:137-147, sparseVector.go:126-136 *)
Definition mat_Set (m : mat) (r c : Z) (v : V) : res mat :=
  match m with
  | MCSR s => rmap MCSR (csr_Set s r c v)
  | MCSC s => rmap MCSC (csc_Set s r c v)
  | MDM s => rmap MDM (dm_Set s r c v)
  | MDV s => rmap MDV (dv_Set s r c v)
  | MSV s => rmap MSV (sv_Set s r c v)
  end.

(** csrMatrix.go:69-71, cscMatrix.go:75-77, denseMatrix.go:90-102, denseVector.go:118-129, sparseVector.go:102-113 *)
Definition mat_Update (m : mat) (r c : Z) (f : V -> V) : res mat :=
  let g := fun v => (tt, f v) in
  match m with
  | MCSR s => rmap (fun p => MCSR (snd p)) (csr_Update s r c g)
  | MCSC s => rmap (fun p => MCSC (snd p)) (csc_Update s r c g)
  | MDM s => rmap (fun p => MDM (snd p)) (dm_Update s r c g)
  | MDV s => rmap (fun p => MDV (snd p)) (dv_Update s r c g)
  | MSV s => rmap (fun p => MSV (snd p)) (sv_Update s r c g)
  end.

(** [Element] of a matrix used as a mask: the flag and the state left behind
    (csrMatrix.go:404-411, cscMatrix.go:414-421, denseMatrix.go:360-366,
    denseVector.go:353-355, sparseVector.go:369-371) *)
Definition mat_Element (m : mat) (r c : Z) : res (bool * mat) :=
  match m with
  | MCSR s => rmap (fun p => (fst p, MCSR (snd p))) (csr_Element s r c)
  | MCSC s => rmap (fun p => (fst p, MCSC (snd p))) (csc_Element s r c)
  | MDM s => rmap (fun b => (b, MDM s)) (dm_Element s r c)
  | MDV s => rmap (fun b => (b, MDV s)) (dv_Element s r c)
  | MSV s => rmap (fun b => (b, MSV s)) (sv_Element s r c)
  end.

(** csrMatrix.go:122-138, cscMatrix.go:130-145, denseMatrix.go:131-143, denseVector.go:150-156, sparseVector.go:139-145 *)
Definition mat_ColumnsAt (m : mat) (c : Z) : res mat :=
  match m with
  | MCSR s => rmap MSV (csr_ColumnsAt s c)
  | MCSC s => rmap MSV (csc_ColumnsAt s c)
  | MDM s => rmap MDV (dm_ColumnsAt s c)
  | MDV s => rmap MDV (dv_ColumnsAt s c)
  | MSV s => rmap MSV (sv_ColumnsAt s c)
  end.

(** csrMatrix.go:141-156, cscMatrix.go:148-163, denseMatrix.go:146-158, denseVector.go:159-170, sparseVector.go:148-159 *)
Definition mat_RowsAt (m : mat) (r : Z) : res mat :=
  match m with
  | MCSR s => rmap MSV (csr_RowsAt s r)
  | MCSC s => rmap MSV (csc_RowsAt s r)
  | MDM s => rmap MDV (dm_RowsAt s r)
  | MDV s => rmap MDV (dv_RowsAt s r)
  | MSV s => rmap MSV (sv_RowsAt s r)
  end.

(** csrMatrix.go:159-174, cscMatrix.go:166-181, denseMatrix.go:161-173, denseVector.go:173-184, sparseVector.go:162-173 *)
Definition mat_RowsAtToArray (m : mat) (r : Z) : res (list V) :=
  match m with
  | MCSR s => csr_RowsAtToArray s r
  | MCSC s => csc_RowsAtToArray s r
  | MDM s => dm_RowsAtToArray s r
  | MDV s => dv_RowsAtToArray s r
  | MSV s => sv_RowsAtToArray s r
  end.

(** [Copy] and [CopyLogical] (csrMatrix.go:228-245, cscMatrix.go:235-252,
    denseMatrix.go:176-208, denseVector.go:186-217, sparseVector.go:212-230) *)
Definition mat_Copy (m : mat) : res mat :=
  match m with
  | MCSR s => rmap MCSR (csr_Copy s)
  | MCSC s => rmap MCSC (csc_Copy s)
  | MDM s => rmap MDM (dm_Copy s)
  | MDV s => rmap MDV (dv_copy s)
  | MSV s => rmap MSV (sv_copy s)
  end.

(** csrMatrix.go:308-312, cscMatrix.go:318-322, denseMatrix.go:273-278, denseVector.go:275-277, sparseVector.go:293-297 *)
Definition mat_Clear (m : mat) : res mat :=
  match m with
  | MCSR s => rmap MCSR (csr_Clear s)
  | MCSC s => rmap MCSC (csc_Clear s)
  | MDM s => rmap MDM (dm_Clear s)
  | MDV s => rmap MDV (dv_Clear s)
  | MSV s => Ok (MSV (sv_Clear s))
  end.

(** [Vector] methods (vector.go:11-20); a panic stands for the method missing *)
Definition mat_Length (m : mat) : Z := mat_Rows m.

(** denseVector.go:65-71, sparseVector.go:58-70 *)
Definition mat_AtVec (m : mat) (i : Z) : res V :=
  match m with
  | MDV s => dv_AtVec s i
  | MSV s => sv_AtVec s i
  | _ => Panic
  end.

(** denseVector.go:74-80, sparseVector.go:73-89 *)
Definition mat_SetVec (m : mat) (i : Z) (v : V) : res mat :=
  match m with
  | MDV s => rmap MDV (dv_SetVec s i v)
  | MSV s => rmap MSV (sv_SetVec s i v)
  | _ => Panic
  end.

(** ** Iterators *)

(** the iterator structs: csrMatrix.go:319-329, cscMatrix.go:338-348, denseMatrix.go:301-309, denseVector.go:295-302, sparseVector.go:313-318 *)
Inductive iter : Type :=
| ICSR (i : csr_iter)
| ICSC (i : csc_iter)
| IDM (i : dm_iter)
| IDV (i : dv_iter)
| ISV (i : sv_iter).

(** [Enumerate()] and [Map()] (csrMatrix.go:315-317, 331-338, 377-381, cscMatrix.go:325-336,
    387-391, denseMatrix.go:286-299, 337-341, denseVector.go:280-293, 330-334,
    sparseVector.go:300-311, 341-345) *)
Definition mat_iterator (m : mat) : iter :=
  match m with
  | MCSR s => ICSR (csr_iterator s)
  | MCSC s => ICSC (csc_iterator s)
  | MDM s => IDM (dm_iterator s)
  | MDV s => IDV (dv_iterator s)
  | MSV s => ISV (sv_iterator s)
  end.

(** csrMatrix.go:363-368, 388-390, cscMatrix.go:351-356, 398-400, denseMatrix.go:312-317, 348-350, denseVector.go:305-310, 341-343, sparseVector.go:321-326, 352-354 *)
Definition mat_HasNext (it : iter) : bool :=
  match it with
  | ICSR i => csr_HasNext i
  | ICSC i => csc_HasNext i
  | IDM i => dm_HasNext i
  | IDV i => dv_HasNext i
  | ISV i => sv_HasNext i
  end.

(** advance; an iterator never meets a matrix of another type (csrMatrix.go:340-360,
    cscMatrix.go:358-378, denseMatrix.go:319-327, denseVector.go:312-320,
    sparseVector.go:328-331) *)
Definition mat_next (m : mat) (it : iter) : res iter :=
  match m, it with
  | MCSR s, ICSR i => rmap ICSR (csr_next s i)
  | MCSC s, ICSC i => rmap ICSC (csc_next s i)
  | MDM s, IDM i => Ok (IDM (dm_next s i))
  | MDV s, IDV i => Ok (IDV (dv_next s i))
  | MSV s, ISV i => Ok (ISV (sv_next i))
  | _, _ => Panic
  end.

(** the element read by [Next] and [Map]: csrMatrix.go:373, 395, cscMatrix.go:383, 405, denseMatrix.go:333, 356, denseVector.go:326, 349, sparseVector.go:337, 360 *)
Definition mat_cur (m : mat) (it : iter) : res (Z * Z * V) :=
  match m, it with
  | MCSR s, ICSR i => csr_cur s i
  | MCSC s, ICSC i => csc_cur s i
  | MDM s, IDM i => dm_cur s i
  | MDV s, IDV i => dv_cur s i
  | MSV s, ISV i => sv_cur s i
  | _, _ => Panic
  end.

(** the write half of [Map]: csrMatrix.go:393-401, cscMatrix.go:403-411, denseMatrix.go:353-357, denseVector.go:346-350, sparseVector.go:357-366 *)
Definition mat_map_put (m : mat) (it : iter) (v : V) : res mat :=
  match m, it with
  | MCSR s, ICSR i => rmap MCSR (csr_map_put s i v)
  | MCSC s, ICSC i => rmap MCSC (csc_map_put s i v)
  | MDM s, IDM i => rmap MDM (dm_map_put s i v)
  | MDV s, IDV i => rmap MDV (dv_map_put s i v)
  | MSV s, ISV i => rmap MSV (sv_map_put s i v)
  | _, _ => Panic
  end.

(** [Next()] (csrMatrix.go:371-374, cscMatrix.go:381-384, denseMatrix.go:330-334,
    denseVector.go:323-327, sparseVector.go:334-338) *)
Definition mat_Next (m : mat) (it : iter) : res (Z * Z * V * iter) :=
  it' <- mat_next m it ;; e <- mat_cur m it' ;; Ok (e, it').

(** ** The registry (matrixRegistry.go) *)

(** the name [reflect] reports for the dynamic type ([t.Name()] in matrixRegistry.go:28-29)
    *)
Definition mat_name (m : mat) : string :=
  (match m with
   | MCSR _ => "CSRMatrix["
   | MCSC _ => "CSCMatrix["
   | MDM _ => "DenseMatrix["
   | MDV _ => "DenseVector["
   | MSV _ => "SparseVector["
   end ++ num_name N ++ "]")%string.

(** matrixRegistry.go:27-31 [IsSparseMatrix] *)
Definition IsSparseMatrix (reg : list string) (m : mat) : bool :=
  existsb (String.eqb (mat_name m)) reg.

End Mat.
Arguments mat : clear implicits.

(** matrixRegistry.go:17-24 [RegisterMatrix]; the registry is its key set *)
Definition RegisterMatrix (reg : list string) (name : string) : res (list string) :=
  if existsb (String.eqb name) reg then Panic else Ok (name :: reg).

(** The registry after the package's [init] functions (csrMatrix.go:16-18,
    cscMatrix.go:17-19, sparseVector.go:20-22): only float64 instances. *)
Definition reg0 : list string :=
  ["SparseVector[float64]"; "CSRMatrix[float64]"; "CSCMatrix[float64]"]%string.

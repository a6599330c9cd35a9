(** Model of denseMatrix.go.  [DenseMatrix] and [DenseMatrixNumber] (the latter
    embeds the former and adds methods) share the representation [dense]. *)
From Verif Require Import GoBase Num DenseVec.

Section DenseMat.
Context {N : num}.
Notation V := (T N).

(** denseMatrix.go:16-20 [DenseMatrix] *)
Record dense : Type := MkDense { dm_c : Z; dm_r : Z; dm_data : list (list V) }.

(** denseMatrix.go:53-65 [newMatrix] with [initialise == nil]; lines 67-77
    [newMatrixType], [newMatrixNumber] and 27-33 [NewDenseMatrix(N)] *)
Definition newMatrix (r c : Z) : res dense :=
  data <- make_slice [] r ;;
  data <- rfold (fun data i => row <- make_slice n0 c ;; zset data i row)
                data (zrange 0 r) ;;
  Ok {| dm_c := c; dm_r := r; dm_data := data |}.

(** denseMatrix.go:53-65 [newMatrix] with an initialiser for each row *)
Definition newMatrixInit (r c : Z) (initialise : list V -> Z -> res (list V)) : res dense :=
  data <- make_slice [] r ;;
  data <- rfold (fun data i =>
                   row <- make_slice n0 c ;;
                   row <- initialise row i ;;
                   zset data i row)
                data (zrange 0 r) ;;
  Ok {| dm_c := c; dm_r := r; dm_data := data |}.

(** denseMatrix.go:36-51 [NewDenseMatrixFromArray(N)].  The real matrix shares
    the caller's rows; sharing is not modelled here. *)
Definition NewDenseMatrixFromArray (data : list (list V)) : res dense :=
  let r := zlen data in
  row0 <- zget data 0 ;;
  let c := zlen row0 in
  s <- newMatrix r c ;;
  Ok {| dm_c := dm_c s; dm_r := dm_r s; dm_data := data |}.

(** denseMatrix.go:80-87 [Columns], [Rows] *)
Definition dm_Columns (s : dense) : Z := dm_c s.
(** denseMatrix.go:85-87 *)
Definition dm_Rows (s : dense) : Z := dm_r s.

(** [s.data[r][c]] (denseMatrix.go:99, 114) *)
Definition dm_read (s : dense) (r c : Z) : res V :=
  row <- zget (dm_data s) r ;; zget row c.

(** [s.data[r][c] = v] (denseMatrix.go:99, 127) *)
Definition dm_write (s : dense) (r c : Z) (v : V) : res dense :=
  row <- zget (dm_data s) r ;;
  row' <- zset row c v ;;
  data <- zset (dm_data s) r row' ;;
  Ok {| dm_c := dm_c s; dm_r := dm_r s; dm_data := data |}.

(** denseMatrix.go:90-102 [Update] *)
Definition dm_Update {W} (s : dense) (r c : Z) (f : V -> W * V) : res (W * dense) :=
  if (r <? 0) || (r >=? dm_Rows s) then Panic
  else if (c <? 0) || (c >=? dm_Columns s) then Panic
  else
    v <- dm_read s r c ;;
    let '(w, v') := f v in
    s' <- dm_write s r c v' ;;
    Ok (w, s').

(** denseMatrix.go:105-115 [At] *)
Definition dm_At (s : dense) (r c : Z) : res V :=
  if (r <? 0) || (r >=? dm_Rows s) then Panic
  else if (c <? 0) || (c >=? dm_Columns s) then Panic
  else dm_read s r c.

(** denseMatrix.go:118-128 [Set] *)
Definition dm_Set (s : dense) (r c : Z) (value : V) : res dense :=
  if (r <? 0) || (r >=? dm_Rows s) then Panic
  else if (c <? 0) || (c >=? dm_Columns s) then Panic
  else dm_write s r c value.

(** denseMatrix.go:131-143 [ColumnsAt] *)
Definition dm_ColumnsAt (s : dense) (c : Z) : res (dvec N) :=
  if (c <? 0) || (c >=? dm_Columns s) then Panic
  else
    columns <- newDenseVector (dm_r s) ;;
    rfold (fun columns r => v <- dm_read s r c ;; dv_SetVec columns r v)
          columns (zrange 0 (dm_r s)).

(** denseMatrix.go:146-158 [RowsAt] *)
Definition dm_RowsAt (s : dense) (r : Z) : res (dvec N) :=
  if (r <? 0) || (r >=? dm_Rows s) then Panic
  else
    rows <- newDenseVector (dm_c s) ;;
    rfold (fun rows i => v <- dm_read s r i ;; dv_SetVec rows i v)
          rows (zrange 0 (dm_c s)).

(** denseMatrix.go:161-173 [RowsAtToArray] *)
Definition dm_RowsAtToArray (s : dense) (r : Z) : res (list V) :=
  if (r <? 0) || (r >=? dm_Rows s) then Panic
  else
    rows <- make_slice n0 (dm_c s) ;;
    rfold (fun rows i => v <- dm_read s r i ;; zset rows i v)
          rows (zrange 0 (dm_c s)).

(** denseMatrix.go:176-191 [CopyLogical], 193-208 [Copy] *)
Definition dm_Copy (s : dense) : res dense :=
  newMatrixInit (dm_Rows s) (dm_Columns s)
    (fun row r =>
       rfold (fun row c => v <- dm_read s r c ;; zset row c v)
             row (zrange 0 (dm_Columns s))).

(** denseMatrix.go:263-270 [Size], [Values], as 64-bit products *)
Definition dm_Size (s : dense) : Z := wrap true 64 (dm_r s * dm_c s).
(** denseMatrix.go:268-270 *)
Definition dm_Values (s : dense) : Z := wrap true 64 (dm_r s * dm_c s).

(** denseMatrix.go:273-278 [Clear] *)
Definition dm_Clear (s : dense) : res dense :=
  data <- make_slice [] (dm_r s) ;;
  data <- rfold (fun data i => row <- make_slice n0 (dm_c s) ;; zset data i row)
                data (zrange 0 (dm_r s)) ;;
  Ok {| dm_c := dm_c s; dm_r := dm_r s; dm_data := data |}.

(** denseMatrix.go:360-366 [Element], [element] *)
Definition dm_Element (s : dense) (r c : Z) : res bool :=
  v <- dm_At s r c ;; Ok (ngtb v n0).

(** denseMatrix.go:301-309 [denseMatrixIterator] without the matrix pointer and
    the unused field [rOld] *)
Record dm_iter : Type := MkDMI {
  dmi_size : Z; dmi_last : Z; dmi_c : Z; dmi_r : Z; dmi_cOld : Z }.

(** denseMatrix.go:290-299 [iterator] *)
Definition dm_iterator (s : dense) : dm_iter :=
  {| dmi_size := dm_Values s; dmi_last := 0; dmi_c := 0; dmi_r := 0; dmi_cOld := 0 |}.

(** denseMatrix.go:312-317 [HasNext] *)
Definition dm_HasNext (it : dm_iter) : bool :=
  if dmi_last it >=? dmi_size it then false else true.

(** denseMatrix.go:319-327 [next] *)
Definition dm_next (s : dense) (it : dm_iter) : dm_iter :=
  let '(c, r) := if dmi_c it =? dm_Columns s then (0, dmi_r it + 1) else (dmi_c it, dmi_r it) in
  {| dmi_size := dmi_size it; dmi_last := dmi_last it + 1; dmi_c := c + 1; dmi_r := r;
     dmi_cOld := c |}.

(** the current element: denseMatrix.go:333 and 356 *)
Definition dm_cur (s : dense) (it : dm_iter) : res (Z * Z * V) :=
  v <- dm_At s (dmi_r it) (dmi_cOld it) ;; Ok (dmi_r it, dmi_cOld it, v).

(** denseMatrix.go:356, the write half of [Map] *)
Definition dm_map_put (s : dense) (it : dm_iter) (value : V) : res dense :=
  dm_Set s (dmi_r it) (dmi_cOld it) value.

End DenseMat.
Arguments dense : clear implicits.

(** Model of denseVector.go.  [DenseVector] and [DenseVectorNumber] (the latter
    embeds the former and adds methods) share the representation [dvec]. *)
From Verif Require Import GoBase Num.

Section DenseVec.
Context {N : num}.
Notation V := (T N).

(** denseVector.go:16-19 [DenseVector] *)
Record dvec : Type := MkDV { dv_l : Z; dv_values : list V }.

(** denseVector.go:26-28, 37-39, 48-62 [NewDenseVector(N)], [newDenseVector...] *)
Definition newDenseVector (l : Z) : res dvec :=
  vs <- make_slice n0 l ;; Ok {| dv_l := l; dv_values := vs |}.

(** denseVector.go:31-35, 42-46 [NewDenseVectorFromArray(N)].  The real vector
    shares the caller's array; sharing is not modelled here. *)
Definition NewDenseVectorFromArray (data : list V) : res dvec :=
  v <- newDenseVector (zlen data) ;;
  Ok {| dv_l := dv_l v; dv_values := data |}.

(** denseVector.go:83-85 [Size], 103-105 [Length], 113-115 [Rows], 270-272 [Values] *)
Definition dv_Size (s : dvec) : Z := dv_l s.
(** denseVector.go:103-105 *)
Definition dv_Length (s : dvec) : Z := dv_l s.
(** denseVector.go:113-115 *)
Definition dv_Rows (s : dvec) : Z := dv_l s.
(** denseVector.go:270-272 *)
Definition dv_Values (s : dvec) : Z := dv_l s.
(** denseVector.go:108-110 [Columns] *)
Definition dv_Columns (s : dvec) : Z := 1.

(** denseVector.go:65-71 [AtVec] *)
Definition dv_AtVec (s : dvec) (i : Z) : res V :=
  if (i <? 0) || (i >=? dv_Length s) then Panic
  else zget (dv_values s) i.

(** denseVector.go:74-80 [SetVec] *)
Definition dv_SetVec (s : dvec) (i : Z) (value : V) : res dvec :=
  if (i <? 0) || (i >=? dv_Length s) then Panic
  else vs <- zset (dv_values s) i value ;; Ok {| dv_l := dv_l s; dv_values := vs |}.

(** denseVector.go:88-100 [ReSize]; returns the new length and the new state.
    [s.values[:length]] beyond the length but within the capacity is not
    modelled (only reachable with a negative size). *)
Definition dv_ReSize (s : dvec) (size : Z) : res (Z * dvec) :=
  vs <- (if size >? dv_l s then
           let length := size - dv_l s in
           arr <- make_slice n0 length ;;
           Ok (dv_values s ++ arr)
         else if size <? dv_l s then
           let length := dv_l s - size in
           slice_to (dv_values s) length
         else Ok (dv_values s)) ;;
  let l := zlen vs in
  Ok (l, {| dv_l := l; dv_values := vs |}).

(** denseVector.go:118-129 [Update] *)
Definition dv_Update {W} (s : dvec) (r c : Z) (f : V -> W * V) : res (W * dvec) :=
  if (r <? 0) || (r >=? dv_Rows s) then Panic
  else if (c <? 0) || (c >=? dv_Columns s) then Panic
  else
    v <- dv_AtVec s r ;;
    let '(w, v') := f v in
    s' <- dv_SetVec s r v' ;;
    Ok (w, s').

(** denseVector.go:132-134 [At] (the column is not checked) *)
Definition dv_At (s : dvec) (r c : Z) : res V := dv_AtVec s r.

(** denseVector.go:137-147 [Set] *)
Definition dv_Set (s : dvec) (r c : Z) (value : V) : res dvec :=
  if (r <? 0) || (r >=? dv_Rows s) then Panic
  else if (c <? 0) || (c >=? dv_Columns s) then Panic
  else dv_SetVec s r value.

(** denseVector.go:186-198 [copy], 200-212 [Copy], 215-217 [CopyLogical] *)
Definition dv_copy (s : dvec) : res dvec :=
  t <- newDenseVector (dv_l s) ;;
  rfold (fun t i => v <- zget (dv_values s) i ;; dv_SetVec t i v)
        t (zrange 0 (zlen (dv_values s))).

(** denseVector.go:150-156 [ColumnsAt] *)
Definition dv_ColumnsAt (s : dvec) (c : Z) : res dvec :=
  if (c <? 0) || (c >=? dv_Columns s) then Panic else dv_copy s.

(** denseVector.go:159-170 [RowsAt] *)
Definition dv_RowsAt (s : dvec) (r : Z) : res dvec :=
  if (r <? 0) || (r >=? dv_Rows s) then Panic
  else
    rows <- newDenseVector 1 ;;
    v <- dv_AtVec s r ;;
    dv_SetVec rows 0 v.

(** denseVector.go:173-184 [RowsAtToArray] *)
Definition dv_RowsAtToArray (s : dvec) (r : Z) : res (list V) :=
  if (r <? 0) || (r >=? dv_Rows s) then Panic
  else
    rows <- make_slice n0 1 ;;
    v <- dv_AtVec s r ;;
    zset rows 0 v.

(** denseVector.go:275-277 [Clear] *)
Definition dv_Clear (s : dvec) : res dvec :=
  vs <- make_slice n0 (dv_l s) ;; Ok {| dv_l := dv_l s; dv_values := vs |}.

(** denseVector.go:353-355 [Element] *)
Definition dv_Element (s : dvec) (r c : Z) : res bool :=
  v <- dv_AtVec s r ;; Ok (ngtb v n0).

(** denseVector.go:295-302 [denseVectorIterator] without the matrix pointer *)
Record dv_iter : Type := MkDVI {
  dvi_size : Z; dvi_last : Z; dvi_c : Z; dvi_r : Z; dvi_rOld : Z }.

(** denseVector.go:284-293 [iterator] *)
Definition dv_iterator (s : dvec) : dv_iter :=
  {| dvi_size := dv_Values s; dvi_last := 0; dvi_c := 0; dvi_r := 0; dvi_rOld := 0 |}.

(** denseVector.go:305-310 [HasNext] *)
Definition dv_HasNext (it : dv_iter) : bool :=
  if dvi_last it >=? dvi_size it then false else true.

(** denseVector.go:312-320 [next] *)
Definition dv_next (s : dvec) (it : dv_iter) : dv_iter :=
  let '(r, c) := if dvi_r it =? dv_Rows s then (0, dvi_c it + 1) else (dvi_r it, dvi_c it) in
  {| dvi_size := dvi_size it; dvi_last := dvi_last it + 1; dvi_c := c; dvi_r := r + 1;
     dvi_rOld := r |}.

(** the current element: denseVector.go:326 and 349 *)
Definition dv_cur (s : dvec) (it : dv_iter) : res (Z * Z * V) :=
  v <- dv_AtVec s (dvi_rOld it) ;; Ok (dvi_rOld it, 0, v).

(** denseVector.go:349, the write half of [Map] *)
Definition dv_map_put (s : dvec) (it : dv_iter) (value : V) : res dvec :=
  dv_SetVec s (dvi_rOld it) value.

End DenseVec.
Arguments dvec : clear implicits.

(** Model of sparseVector.go. *)
From Verif Require Import GoBase Num.

Section SparseVec.
Context {N : num}.
Notation V := (T N).

(** sparseVector.go:25-29 [SparseVector] *)
Record svec : Type := MkSV {
  sv_l : Z;
  sv_values : list V;
  sv_indices : list Z;
}.

(** sparseVector.go:48-50 [newSparseVector] *)
Definition newSparseVector (l s : Z) : res svec :=
  values <- make_slice n0 s ;;
  indices <- make_slice 0 s ;;
  Ok {| sv_l := l; sv_values := values; sv_indices := indices |}.

(** sparseVector.go:32-34 [NewSparseVector] *)
Definition NewSparseVector (l : Z) : res svec := newSparseVector l 0.

(** sparseVector.go:53-55 [Length], 97-99 [Rows], 283-285 [Size] *)
Definition sv_Length (s : svec) : Z := sv_l s.
(** sparseVector.go:97-99 *)
Definition sv_Rows (s : svec) : Z := sv_l s.
(** sparseVector.go:283-285 *)
Definition sv_Size (s : svec) : Z := sv_l s.
(** sparseVector.go:92-94 [Columns] *)
Definition sv_Columns (s : svec) : Z := 1.
(** sparseVector.go:288-290 [Values] *)
Definition sv_Values (s : svec) : Z := zlen (sv_values s).

(** sparseVector.go:198-207 [index], the binary-search loop.  The fuel is the
    size of the search interval plus one, which the loop cannot exhaust. *)
Fixpoint sv_search (fuel : nat) (indices : list Z) (i start end_ : Z) : res Z :=
  match fuel with
  | O => Diverge
  | S fuel' =>
      if start <? end_ then
        let p := Z.quot (start + end_) 2 in
        x <- zget indices p ;;
        if x >? i then sv_search fuel' indices i start p
        else if x <? i then sv_search fuel' indices i (p + 1) end_
        else Ok p
      else Ok start
  end.

(** sparseVector.go:189-210 [index]; returns (pointer, length).  Note the
    comparison of the *index* [i] with the *number of entries* (line 191). *)
Definition sv_index (s : svec) (i : Z) : res (Z * Z) :=
  let length := zlen (sv_indices s) in
  if i >? length then Ok (length, length)
  else
    p <- sv_search (S (Z.to_nat length)) (sv_indices s) i 0 length ;;
    Ok (p, length).

(** sparseVector.go:175-182 [insert] *)
Definition sv_insert (s : svec) (pointer i : Z) (value : V) : res svec :=
  if isz value then Ok s
  else
    i1 <- slice_to (sv_indices s) pointer ;;
    i2 <- slice_from (sv_indices s) pointer ;;
    v1 <- slice_to (sv_values s) pointer ;;
    v2 <- slice_from (sv_values s) pointer ;;
    Ok {| sv_l := sv_l s;
          sv_values := v1 ++ ([value] ++ v2);
          sv_indices := i1 ++ ([i] ++ i2) |}.

(** sparseVector.go:184-187 [remove] *)
Definition sv_remove (s : svec) (pointer : Z) : res svec :=
  i1 <- slice_to (sv_indices s) pointer ;;
  i2 <- slice_from (sv_indices s) (pointer + 1) ;;
  v1 <- slice_to (sv_values s) pointer ;;
  v2 <- slice_from (sv_values s) (pointer + 1) ;;
  Ok {| sv_l := sv_l s; sv_values := v1 ++ v2; sv_indices := i1 ++ i2 |}.

(** [pointer < length && s.indices[pointer] == i] (lines 65 and 80) (sparseVector.go:65, 80)
    *)
Definition sv_hit (s : svec) (pointer length i : Z) : res bool :=
  if pointer <? length then
    x <- zget (sv_indices s) pointer ;; Ok (x =? i)
  else Ok false.

(** sparseVector.go:58-70 [AtVec] *)
Definition sv_AtVec (s : svec) (i : Z) : res V :=
  if (i <? 0) || (i >=? sv_Length s) then Panic
  else
    '(pointer, length) <- sv_index s i ;;
    hit <- sv_hit s pointer length i ;;
    if hit then zget (sv_values s) pointer else Ok n0.

(** sparseVector.go:73-89 [SetVec] *)
Definition sv_SetVec (s : svec) (i : Z) (value : V) : res svec :=
  if (i <? 0) || (i >=? sv_Length s) then Panic
  else
    '(pointer, length) <- sv_index s i ;;
    hit <- sv_hit s pointer length i ;;
    if hit then
      if isz value then sv_remove s pointer
      else
        vs <- zset (sv_values s) pointer value ;;
        Ok {| sv_l := sv_l s; sv_values := vs; sv_indices := sv_indices s |}
    else sv_insert s pointer i value.

(** sparseVector.go:102-113 [Update].  The callback is a pure function that may
    also hand a result [W] to its caller (a captured variable). *)
Definition sv_Update {W} (s : svec) (r c : Z) (f : V -> W * V) : res (W * svec) :=
  if (r <? 0) || (r >=? sv_Rows s) then Panic
  else if (c <? 0) || (c >=? sv_Columns s) then Panic
  else
    v <- sv_AtVec s r ;;
    let '(w, v') := f v in
    s' <- sv_SetVec s r v' ;;
    Ok (w, s').

(** sparseVector.go:116-123 [At] *)
Definition sv_At (s : svec) (r c : Z) : res (V * svec) := sv_Update s r c (fun v => (v, v)).

(** sparseVector.go:126-136 [Set] *)
Definition sv_Set (s : svec) (r c : Z) (value : V) : res svec :=
  if (r <? 0) || (r >=? sv_Rows s) then Panic
  else if (c <? 0) || (c >=? sv_Columns s) then Panic
  else sv_SetVec s r value.

(** sparseVector.go:212-221 [copy]: the loop copies [values[i]] and
    [indices[i]] for every [i] in range of [values]. *)
Definition sv_copy (s : svec) : res svec :=
  t <- newSparseVector (sv_l s) (zlen (sv_indices s)) ;;
  rfold (fun t i =>
           v <- zget (sv_values s) i ;;
           vs <- zset (sv_values t) i v ;;
           x <- zget (sv_indices s) i ;;
           xs <- zset (sv_indices t) i x ;;
           Ok {| sv_l := sv_l t; sv_values := vs; sv_indices := xs |})
        t (zrange 0 (zlen (sv_values s))).

(** sparseVector.go:139-145 [ColumnsAt] *)
Definition sv_ColumnsAt (s : svec) (c : Z) : res svec :=
  if (c <? 0) || (c >=? sv_Columns s) then Panic else sv_copy s.

(** sparseVector.go:148-159 [RowsAt] *)
Definition sv_RowsAt (s : svec) (r : Z) : res svec :=
  if (r <? 0) || (r >=? sv_Rows s) then Panic
  else
    rows <- NewSparseVector 1 ;;
    v <- sv_AtVec s r ;;
    sv_SetVec rows 0 v.

(** sparseVector.go:162-173 [RowsAtToArray] *)
Definition sv_RowsAtToArray (s : svec) (r : Z) : res (list V) :=
  if (r <? 0) || (r >=? sv_Rows s) then Panic
  else
    rows <- make_slice n0 1 ;;
    v <- sv_AtVec s r ;;
    zset rows 0 v.

(** sparseVector.go:37-46 [NewSparseVectorFromArray] *)
Definition NewSparseVectorFromArray (data : list V) : res svec :=
  let l := zlen data in
  s <- newSparseVector l 0 ;;
  rfold (fun s i => v <- zget data i ;; sv_SetVec s i v) s (zrange 0 l).

(** sparseVector.go:293-297 [Clear] *)
Definition sv_Clear (s : svec) : svec :=
  {| sv_l := sv_l s; sv_values := []; sv_indices := [] |}.

(** sparseVector.go:369-371 [Element] *)
Definition sv_Element (s : svec) (r c : Z) : res bool :=
  v <- sv_AtVec s r ;; Ok (ngtb v n0).

(** sparseVector.go:313-318 [sparseVectorIterator] without the matrix pointer *)
Record sv_iter : Type := MkSVI { svi_size : Z; svi_last : Z; svi_old : Z }.

(** sparseVector.go:304-311 [iterator] *)
Definition sv_iterator (s : svec) : sv_iter :=
  {| svi_size := zlen (sv_values s); svi_last := 0; svi_old := 0 |}.

(** sparseVector.go:321-326 [HasNext] *)
Definition sv_HasNext (it : sv_iter) : bool :=
  if svi_last it >=? svi_size it then false else true.

(** sparseVector.go:328-331 [next] *)
Definition sv_next (it : sv_iter) : sv_iter :=
  {| svi_size := svi_size it; svi_last := svi_last it + 1; svi_old := svi_last it |}.

(** the current element: sparseVector.go:337 and 360 *)
Definition sv_cur (s : svec) (it : sv_iter) : res (Z * Z * V) :=
  i <- zget (sv_indices s) (svi_old it) ;;
  v <- zget (sv_values s) (svi_old it) ;;
  Ok (i, 0, v).

(** sparseVector.go:361-365, the write half of [Map] *)
Definition sv_map_put (s : svec) (it : sv_iter) (value : V) : res svec :=
  if negb (isz value) then
    vs <- zset (sv_values s) (svi_old it) value ;;
    Ok {| sv_l := sv_l s; sv_values := vs; sv_indices := sv_indices s |}
  else sv_remove s (svi_old it).

End SparseVec.
Arguments svec : clear implicits.

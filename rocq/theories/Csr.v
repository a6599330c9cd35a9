(** Model of csrMatrix.go. *)
From Verif Require Import GoBase Num SparseVec.

Section Csr.
Context {N : num}.
Notation V := (T N).

(** csrMatrix.go:21-27 [CSRMatrix] *)
Record csr : Type := MkCSR {
  csr_r : Z;
  csr_c : Z;
  csr_values : list V;
  csr_cols : list Z;
  csr_rowStart : list Z;
}.

(** csrMatrix.go:47-56 [newCSRMatrix] *)
Definition newCSRMatrix (r c l : Z) : res csr :=
  values <- make_slice n0 l ;;
  cols <- make_slice 0 l ;;
  rowStart <- make_slice 0 (r + 1) ;;
  Ok {| csr_r := r; csr_c := c; csr_values := values; csr_cols := cols;
        csr_rowStart := rowStart |}.

(** csrMatrix.go:30-32 [NewCSRMatrix] *)
Definition NewCSRMatrix (r c : Z) : res csr := newCSRMatrix r c 0.

(** csrMatrix.go:59-66 [Columns], [Rows] *)
Definition csr_Columns (s : csr) : Z := csr_c s.
(** csrMatrix.go:64-66 *)
Definition csr_Rows (s : csr) : Z := csr_r s.

(** csrMatrix.go:213-222 [columnIndex], the binary-search loop *)
Fixpoint csr_search (fuel : nat) (cols : list Z) (c start end_ : Z) : res (Z * Z) :=
  match fuel with
  | O => Diverge
  | S fuel' =>
      if start <? end_ then
        let p := Z.quot (start + end_) 2 in
        x <- zget cols p ;;
        if x >? c then csr_search fuel' cols c start p
        else if x <? c then csr_search fuel' cols c (p + 1) end_
        else Ok (p, end_)
      else Ok (start, end_)
  end.

(** csrMatrix.go:200-225 [columnIndex] *)
Definition csr_columnIndex (s : csr) (r c : Z) : res (Z * Z) :=
  start <- zget (csr_rowStart s) r ;;
  end_ <- zget (csr_rowStart s) (r + 1) ;;
  if start - end_ =? 0 then Ok (start, end_)
  else
    x <- zget (csr_cols s) (end_ - 1) ;;
    if c >? x then Ok (end_, end_)
    else csr_search (S (Z.to_nat (end_ - start))) (csr_cols s) c start end_.

(** csrMatrix.go:184-186 and 195-197: [for i := r+1; i <= s.r; i++ { rowStart[i] += d }] *)
Definition csr_shift (d : Z) (rowStart : list Z) (r rows : Z) : res (list Z) :=
  rfold (fun rs i => x <- zget rs i ;; zset rs i (x + d)) rowStart (zrange (r + 1) (rows + 1)).

(** csrMatrix.go:176-189 [insert]; returns its int result and the new state *)
Definition csr_insert (s : csr) (pointer r c : Z) (value : V) : res (Z * csr) :=
  if isz value then Ok (0, s)
  else
    c1 <- slice_to (csr_cols s) pointer ;;
    c2 <- slice_from (csr_cols s) pointer ;;
    v1 <- slice_to (csr_values s) pointer ;;
    v2 <- slice_from (csr_values s) pointer ;;
    rs <- csr_shift 1 (csr_rowStart s) r (csr_r s) ;;
    Ok (csr_r s,
        {| csr_r := csr_r s; csr_c := csr_c s;
           csr_values := v1 ++ ([value] ++ v2);
           csr_cols := c1 ++ ([c] ++ c2);
           csr_rowStart := rs |}).

(** csrMatrix.go:191-198 [remove] *)
Definition csr_remove (s : csr) (pointer r : Z) : res csr :=
  c1 <- slice_to (csr_cols s) pointer ;;
  c2 <- slice_from (csr_cols s) (pointer + 1) ;;
  v1 <- slice_to (csr_values s) pointer ;;
  v2 <- slice_from (csr_values s) (pointer + 1) ;;
  rs <- csr_shift (-1) (csr_rowStart s) r (csr_r s) ;;
  Ok {| csr_r := csr_r s; csr_c := csr_c s;
        csr_values := v1 ++ v2; csr_cols := c1 ++ c2; csr_rowStart := rs |}.

(** [pointerStart < pointerEnd && s.cols[pointerStart] == c] (lines 84, 131)
    (csrMatrix.go:84, 131) *)
Definition csr_hit (s : csr) (pointerStart pointerEnd c : Z) : res bool :=
  if pointerStart <? pointerEnd then
    x <- zget (csr_cols s) pointerStart ;; Ok (x =? c)
  else Ok false.

(** csrMatrix.go:73-96 [UpdateReturnPointer]; returns the callback's captured
    result, the (pointer, start) pair and the new state *)
Definition csr_UpdateReturnPointer {W} (s : csr) (r c : Z) (f : V -> W * V)
  : res (W * (Z * Z) * csr) :=
  if (r <? 0) || (r >=? csr_r s) then Panic
  else if (c <? 0) || (c >=? csr_c s) then Panic
  else
    '(ps, pe) <- csr_columnIndex s r c ;;
    hit <- csr_hit s ps pe c ;;
    if hit then
      v <- zget (csr_values s) ps ;;
      let '(w, value) := f v in
      if isz value then
        s' <- csr_remove s ps r ;; Ok (w, (ps, 0), s')
      else
        vs <- zset (csr_values s) ps value ;;
        Ok (w, (ps, 0),
            {| csr_r := csr_r s; csr_c := csr_c s; csr_values := vs;
               csr_cols := csr_cols s; csr_rowStart := csr_rowStart s |})
    else
      let '(w, value) := f n0 in
      '(row, s') <- csr_insert s ps r c value ;;
      Ok (w, (ps, row), s').

(** csrMatrix.go:69-71 [Update] *)
Definition csr_Update {W} (s : csr) (r c : Z) (f : V -> W * V) : res (W * csr) :=
  '(w, _, s') <- csr_UpdateReturnPointer s r c f ;; Ok (w, s').

(** csrMatrix.go:99-106 [At] *)
Definition csr_At (s : csr) (r c : Z) : res (V * csr) := csr_Update s r c (fun v => (v, v)).

(** csrMatrix.go:109-113 [Set] *)
Definition csr_Set (s : csr) (r c : Z) (value : V) : res csr :=
  '(_, s') <- csr_Update s r c (fun _ => (tt, value)) ;; Ok s'.

(** csrMatrix.go:115-119 [SetReturnPointer] *)
Definition csr_SetReturnPointer (s : csr) (r c : Z) (value : V) : res ((Z * Z) * csr) :=
  '(_, p, s') <- csr_UpdateReturnPointer s r c (fun _ => (tt, value)) ;; Ok (p, s').

(** csrMatrix.go:404-411 [Element] *)
Definition csr_Element (s : csr) (r c : Z) : res (bool * csr) :=
  csr_Update s r c (fun v => (ngtb v n0, v)).

(** csrMatrix.go:35-45 [NewCSRMatrixFromArray] *)
Definition NewCSRMatrixFromArray (data : list (list V)) : res csr :=
  let r := zlen data in
  row0 <- zget data 0 ;;
  let c := zlen row0 in
  s <- newCSRMatrix r c 0 ;;
  rfold (fun s i =>
           rfold (fun s k =>
                    row <- zget data i ;;
                    v <- zget row k ;;
                    csr_Set s i k v) s (zrange 0 c))
        s (zrange 0 r).

(** csrMatrix.go:122-138 [ColumnsAt]; [range s.rowStart[:s.r]] *)
Definition csr_ColumnsAt (s : csr) (c : Z) : res (svec N) :=
  if (c <? 0) || (c >=? csr_c s) then Panic
  else
    columns <- NewSparseVector (csr_r s) ;;
    rs <- slice_to (csr_rowStart s) (csr_r s) ;;
    rfold (fun columns r =>
             '(ps, pe) <- csr_columnIndex s r c ;;
             hit <- csr_hit s ps pe c ;;
             if hit then v <- zget (csr_values s) ps ;; sv_SetVec columns r v
             else Ok columns)
          columns (zrange 0 (zlen rs)).

(** csrMatrix.go:141-156 [RowsAt] *)
Definition csr_RowsAt (s : csr) (r : Z) : res (svec N) :=
  if (r <? 0) || (r >=? csr_r s) then Panic
  else
    rows <- NewSparseVector (csr_c s) ;;
    start <- zget (csr_rowStart s) r ;;
    end_ <- zget (csr_rowStart s) (r + 1) ;;
    rfold (fun rows i =>
             k <- zget (csr_cols s) i ;;
             v <- zget (csr_values s) i ;;
             sv_SetVec rows k v)
          rows (zrange start end_).

(** csrMatrix.go:159-174 [RowsAtToArray] *)
Definition csr_RowsAtToArray (s : csr) (r : Z) : res (list V) :=
  if (r <? 0) || (r >=? csr_Rows s) then Panic
  else
    rows <- make_slice n0 (csr_c s) ;;
    start <- zget (csr_rowStart s) r ;;
    end_ <- zget (csr_rowStart s) (r + 1) ;;
    rfold (fun rows i =>
             k <- zget (csr_cols s) i ;;
             v <- zget (csr_values s) i ;;
             zset rows k v)
          rows (zrange start end_).

(** csrMatrix.go:232-245 [Copy] *)
Definition csr_Copy (s : csr) : res csr :=
  t <- newCSRMatrix (csr_r s) (csr_c s) (zlen (csr_values s)) ;;
  t <- rfold (fun t i =>
                v <- zget (csr_values s) i ;;
                vs <- zset (csr_values t) i v ;;
                k <- zget (csr_cols s) i ;;
                cs <- zset (csr_cols t) i k ;;
                Ok {| csr_r := csr_r t; csr_c := csr_c t; csr_values := vs;
                      csr_cols := cs; csr_rowStart := csr_rowStart t |})
             t (zrange 0 (zlen (csr_values s))) ;;
  rfold (fun t i =>
           x <- zget (csr_rowStart s) i ;;
           rs <- zset (csr_rowStart t) i x ;;
           Ok {| csr_r := csr_r t; csr_c := csr_c t; csr_values := csr_values t;
                 csr_cols := csr_cols t; csr_rowStart := rs |})
        t (zrange 0 (zlen (csr_rowStart s))).

(** csrMatrix.go:298-300 [Size], as a 64-bit product *)
Definition csr_Size (s : csr) : Z := wrap true 64 (csr_Rows s * csr_Columns s).

(** csrMatrix.go:303-305 [Values] *)
Definition csr_Values (s : csr) : Z := zlen (csr_values s).

(** csrMatrix.go:308-312 [Clear] *)
Definition csr_Clear (s : csr) : res csr :=
  rs <- make_slice 0 (csr_r s + 1) ;;
  Ok {| csr_r := csr_r s; csr_c := csr_c s; csr_values := []; csr_cols := [];
        csr_rowStart := rs |}.

(** csrMatrix.go:319-329 [cSRMatrixIterator] without the matrix pointer *)
Record csr_iter : Type := MkCSRI {
  cri_size : Z;
  cri_last : Z;
  cri_c : Z;
  cri_r : Z;
  cri_cIndex : Z;
  cri_index : Z;
  cri_ps : Z;
  cri_pe : Z;
}.

(** csrMatrix.go:331-338 [iterator] *)
Definition csr_iterator (s : csr) : csr_iter :=
  {| cri_size := zlen (csr_values s); cri_last := 0; cri_c := 0; cri_r := -1;
     cri_cIndex := 0; cri_index := 0; cri_ps := 0; cri_pe := 0 |}.

(** csrMatrix.go:363-368 [HasNext] *)
Definition csr_HasNext (it : csr_iter) : bool :=
  if cri_last it >=? cri_size it then false else true.

(** csrMatrix.go:342-347 [next], first loop.  Each round advances the row, and
    a row beyond the end panics, so [len(rowStart)+1] rounds suffice. *)
Fixpoint csr_next_row (fuel : nat) (s : csr) (it : csr_iter) : res csr_iter :=
  if cri_ps it =? cri_pe it then
    match fuel with
    | O => Diverge
    | S fuel' =>
        let r := cri_r it + 1 in
        ps <- zget (csr_rowStart s) r ;;
        pe <- zget (csr_rowStart s) (r + 1) ;;
        ci <- zget (csr_cols s) ps ;;
        csr_next_row fuel' s
          {| cri_size := cri_size it; cri_last := cri_last it; cri_c := cri_c it;
             cri_r := r; cri_cIndex := ci; cri_index := cri_index it;
             cri_ps := ps; cri_pe := pe |}
    end
  else Ok it.

(** csrMatrix.go:349-359 [next], second loop: advance [cIndex] until it meets
    the column of the entry at [pointerStart].  The fuel covers the distance; if
    [cIndex] is already past that column the Go loop does not terminate
    (before the counter wraps around). *)
Fixpoint csr_next_col (fuel : nat) (s : csr) (it : csr_iter) : res csr_iter :=
  if cri_ps it <? cri_pe it then
    x <- zget (csr_cols s) (cri_ps it) ;;
    if x =? cri_cIndex it then
      Ok {| cri_size := cri_size it; cri_last := cri_last it + 1; cri_c := cri_cIndex it;
            cri_r := cri_r it; cri_cIndex := cri_cIndex it + 1; cri_index := cri_ps it;
            cri_ps := cri_ps it + 1; cri_pe := cri_pe it |}
    else
      match fuel with
      | O => Diverge
      | S fuel' =>
          csr_next_col fuel' s
            {| cri_size := cri_size it; cri_last := cri_last it; cri_c := cri_c it;
               cri_r := cri_r it; cri_cIndex := cri_cIndex it + 1;
               cri_index := cri_index it; cri_ps := cri_ps it; cri_pe := cri_pe it |}
      end
  else Ok it.

(** csrMatrix.go:200-225: rounds the search loop needs; see DESIGN.md on fuel *)
Definition csr_col_fuel (s : csr) (it : csr_iter) : nat :=
  match zget (csr_cols s) (cri_ps it) with
  | Ok x => Z.to_nat (x - cri_cIndex it)
  | _ => O
  end.

(** csrMatrix.go:340-360 [next] *)
Definition csr_next (s : csr) (it : csr_iter) : res csr_iter :=
  it <- csr_next_row (S (length (csr_rowStart s))) s it ;;
  csr_next_col (csr_col_fuel s it) s it.

(** the current element: csrMatrix.go:373 and 395 *)
Definition csr_cur (s : csr) (it : csr_iter) : res (Z * Z * V) :=
  v <- zget (csr_values s) (cri_index it) ;;
  Ok (cri_r it, cri_c it, v).

(** csrMatrix.go:396-400, the write half of [Map] *)
Definition csr_map_put (s : csr) (it : csr_iter) (value : V) : res csr :=
  if negb (isz value) then
    vs <- zset (csr_values s) (cri_index it) value ;;
    Ok {| csr_r := csr_r s; csr_c := csr_c s; csr_values := vs;
          csr_cols := csr_cols s; csr_rowStart := csr_rowStart s |}
  else csr_remove s (cri_index it) (cri_r it).

End Csr.
Arguments csr : clear implicits.

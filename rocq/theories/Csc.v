(** Model of cscMatrix.go. *)
From Verif Require Import GoBase Num SparseVec.

Section Csc.
Context {N : num}.
Notation V := (T N).

(** cscMatrix.go:22-28 [CSCMatrix] *)
Record csc : Type := MkCSC {
  csc_r : Z;
  csc_c : Z;
  csc_values : list V;
  csc_rows : list Z;
  csc_colStart : list Z;
}.

(** cscMatrix.go:50-62 [newCSCMatrix] *)
Definition newCSCMatrix (r c l : Z) : res csc :=
  values <- make_slice n0 l ;;
  rows <- make_slice 0 l ;;
  colStart <- make_slice 0 (c + 1) ;;
  Ok {| csc_r := r; csc_c := c; csc_values := values; csc_rows := rows;
        csc_colStart := colStart |}.

(** cscMatrix.go:31-33 [NewCSCMatrix] *)
Definition NewCSCMatrix (r c : Z) : res csc := newCSCMatrix r c 0.

(** cscMatrix.go:65-72 [Columns], [Rows] *)
Definition csc_Columns (s : csc) : Z := csc_c s.
(** cscMatrix.go:70-72 *)
Definition csc_Rows (s : csc) : Z := csc_r s.

(** cscMatrix.go:220-229 [rowIndex], the binary-search loop *)
Fixpoint csc_search (fuel : nat) (rows : list Z) (r start end_ : Z) : res (Z * Z) :=
  match fuel with
  | O => Diverge
  | S fuel' =>
      if start <? end_ then
        let p := Z.quot (start + end_) 2 in
        x <- zget rows p ;;
        if x >? r then csc_search fuel' rows r start p
        else if x <? r then csc_search fuel' rows r (p + 1) end_
        else Ok (p, end_)
      else Ok (start, end_)
  end.

(** cscMatrix.go:207-232 [rowIndex] *)
Definition csc_rowIndex (s : csc) (r c : Z) : res (Z * Z) :=
  start <- zget (csc_colStart s) c ;;
  end_ <- zget (csc_colStart s) (c + 1) ;;
  if start - end_ =? 0 then Ok (start, end_)
  else
    x <- zget (csc_rows s) (end_ - 1) ;;
    if r >? x then Ok (end_, end_)
    else csc_search (S (Z.to_nat (end_ - start))) (csc_rows s) r start end_.

(** cscMatrix.go:191-193 and 202-204: [for i := c+1; i <= s.c; i++ { colStart[i] += d }] *)
Definition csc_shift (d : Z) (colStart : list Z) (c cols : Z) : res (list Z) :=
  rfold (fun cs i => x <- zget cs i ;; zset cs i (x + d)) colStart (zrange (c + 1) (cols + 1)).

(** cscMatrix.go:183-196 [insert] *)
Definition csc_insert (s : csc) (pointer r c : Z) (value : V) : res (Z * csc) :=
  if isz value then Ok (0, s)
  else
    r1 <- slice_to (csc_rows s) pointer ;;
    r2 <- slice_from (csc_rows s) pointer ;;
    v1 <- slice_to (csc_values s) pointer ;;
    v2 <- slice_from (csc_values s) pointer ;;
    cs <- csc_shift 1 (csc_colStart s) c (csc_c s) ;;
    Ok (csc_c s,
        {| csc_r := csc_r s; csc_c := csc_c s;
           csc_values := v1 ++ ([value] ++ v2);
           csc_rows := r1 ++ ([r] ++ r2);
           csc_colStart := cs |}).

(** cscMatrix.go:198-205 [remove] *)
Definition csc_remove (s : csc) (pointer c : Z) : res csc :=
  r1 <- slice_to (csc_rows s) pointer ;;
  r2 <- slice_from (csc_rows s) (pointer + 1) ;;
  v1 <- slice_to (csc_values s) pointer ;;
  v2 <- slice_from (csc_values s) (pointer + 1) ;;
  cs <- csc_shift (-1) (csc_colStart s) c (csc_c s) ;;
  Ok {| csc_r := csc_r s; csc_c := csc_c s;
        csc_values := v1 ++ v2; csc_rows := r1 ++ r2; csc_colStart := cs |}.

(** [pointerStart < pointerEnd && s.rows[pointerStart] == r] (lines 90, 157, 175)
    (cscMatrix.go:90, 157, 175) *)
Definition csc_hit (s : csc) (pointerStart pointerEnd r : Z) : res bool :=
  if pointerStart <? pointerEnd then
    x <- zget (csc_rows s) pointerStart ;; Ok (x =? r)
  else Ok false.

(** cscMatrix.go:79-104 [UpdateReturnPointer] *)
Definition csc_UpdateReturnPointer {W} (s : csc) (r c : Z) (f : V -> W * V)
  : res (W * (Z * Z) * csc) :=
  if (r <? 0) || (r >=? csc_r s) then Panic
  else if (c <? 0) || (c >=? csc_c s) then Panic
  else
    '(ps, pe) <- csc_rowIndex s r c ;;
    hit <- csc_hit s ps pe r ;;
    if hit then
      v <- zget (csc_values s) ps ;;
      let '(w, value) := f v in
      if isz value then
        s' <- csc_remove s ps c ;; Ok (w, (ps, 0), s')
      else
        vs <- zset (csc_values s) ps value ;;
        Ok (w, (ps, 0),
            {| csc_r := csc_r s; csc_c := csc_c s; csc_values := vs;
               csc_rows := csc_rows s; csc_colStart := csc_colStart s |})
    else
      let '(w, value) := f n0 in
      '(col, s') <- csc_insert s ps r c value ;;
      Ok (w, (ps, col), s').

(** cscMatrix.go:75-77 [Update] *)
Definition csc_Update {W} (s : csc) (r c : Z) (f : V -> W * V) : res (W * csc) :=
  '(w, _, s') <- csc_UpdateReturnPointer s r c f ;; Ok (w, s').

(** cscMatrix.go:107-114 [At] *)
Definition csc_At (s : csc) (r c : Z) : res (V * csc) := csc_Update s r c (fun v => (v, v)).

(** cscMatrix.go:117-121 [Set] *)
Definition csc_Set (s : csc) (r c : Z) (value : V) : res csc :=
  '(_, s') <- csc_Update s r c (fun _ => (tt, value)) ;; Ok s'.

(** cscMatrix.go:123-127 [SetReturnPointer] *)
Definition csc_SetReturnPointer (s : csc) (r c : Z) (value : V) : res ((Z * Z) * csc) :=
  '(_, p, s') <- csc_UpdateReturnPointer s r c (fun _ => (tt, value)) ;; Ok (p, s').

(** cscMatrix.go:414-421 [Element] *)
Definition csc_Element (s : csc) (r c : Z) : res (bool * csc) :=
  csc_Update s r c (fun v => (ngtb v n0, v)).

(** cscMatrix.go:36-48 [NewCSCMatrixFromArray] *)
Definition NewCSCMatrixFromArray (data : list (list V)) : res csc :=
  let r := zlen data in
  row0 <- zget data 0 ;;
  let c := zlen row0 in
  s <- newCSCMatrix r c 0 ;;
  rfold (fun s i =>
           rfold (fun s k =>
                    row <- zget data i ;;
                    v <- zget row k ;;
                    csc_Set s i k v) s (zrange 0 c))
        s (zrange 0 r).

(** cscMatrix.go:130-145 [ColumnsAt] *)
Definition csc_ColumnsAt (s : csc) (c : Z) : res (svec N) :=
  if (c <? 0) || (c >=? csc_c s) then Panic
  else
    columns <- NewSparseVector (csc_r s) ;;
    start <- zget (csc_colStart s) c ;;
    end_ <- zget (csc_colStart s) (c + 1) ;;
    rfold (fun columns i =>
             k <- zget (csc_rows s) i ;;
             v <- zget (csc_values s) i ;;
             sv_SetVec columns k v)
          columns (zrange start end_).

(** cscMatrix.go:148-163 [RowsAt]; [range s.colStart[:s.c]] *)
Definition csc_RowsAt (s : csc) (r : Z) : res (svec N) :=
  if (r <? 0) || (r >=? csc_r s) then Panic
  else
    rows <- NewSparseVector (csc_c s) ;;
    cs <- slice_to (csc_colStart s) (csc_c s) ;;
    rfold (fun rows c =>
             '(ps, pe) <- csc_rowIndex s r c ;;
             hit <- csc_hit s ps pe r ;;
             if hit then v <- zget (csc_values s) ps ;; sv_SetVec rows c v
             else Ok rows)
          rows (zrange 0 (zlen cs)).

(** cscMatrix.go:166-181 [RowsAtToArray] *)
Definition csc_RowsAtToArray (s : csc) (r : Z) : res (list V) :=
  if (r <? 0) || (r >=? csc_Rows s) then Panic
  else
    rows <- make_slice n0 (csc_c s) ;;
    cs <- slice_to (csc_colStart s) (csc_c s) ;;
    rfold (fun rows c =>
             '(ps, pe) <- csc_rowIndex s r c ;;
             hit <- csc_hit s ps pe r ;;
             if hit then v <- zget (csc_values s) ps ;; zset rows c v
             else Ok rows)
          rows (zrange 0 (zlen cs)).

(** cscMatrix.go:239-252 [Copy] *)
Definition csc_Copy (s : csc) : res csc :=
  t <- newCSCMatrix (csc_r s) (csc_c s) (zlen (csc_values s)) ;;
  t <- rfold (fun t i =>
                v <- zget (csc_values s) i ;;
                vs <- zset (csc_values t) i v ;;
                k <- zget (csc_rows s) i ;;
                rs <- zset (csc_rows t) i k ;;
                Ok {| csc_r := csc_r t; csc_c := csc_c t; csc_values := vs;
                      csc_rows := rs; csc_colStart := csc_colStart t |})
             t (zrange 0 (zlen (csc_values s))) ;;
  rfold (fun t i =>
           x <- zget (csc_colStart s) i ;;
           cs <- zset (csc_colStart t) i x ;;
           Ok {| csc_r := csc_r t; csc_c := csc_c t; csc_values := csc_values t;
                 csc_rows := csc_rows t; csc_colStart := cs |})
        t (zrange 0 (zlen (csc_colStart s))).

(** cscMatrix.go:308-310 [Size], as a 64-bit product *)
Definition csc_Size (s : csc) : Z := wrap true 64 (csc_Rows s * csc_Columns s).

(** cscMatrix.go:313-315 [Values] *)
Definition csc_Values (s : csc) : Z := zlen (csc_values s).

(** cscMatrix.go:318-322 [Clear] *)
Definition csc_Clear (s : csc) : res csc :=
  cs <- make_slice 0 (csc_c s + 1) ;;
  Ok {| csc_r := csc_r s; csc_c := csc_c s; csc_values := []; csc_rows := [];
        csc_colStart := cs |}.

(** cscMatrix.go:338-348 [cSCMatrixIterator] without the matrix pointer *)
Record csc_iter : Type := MkCSCI {
  cci_size : Z;
  cci_last : Z;
  cci_c : Z;
  cci_r : Z;
  cci_rIndex : Z;
  cci_index : Z;
  cci_ps : Z;
  cci_pe : Z;
}.

(** cscMatrix.go:329-336 [iterator] *)
Definition csc_iterator (s : csc) : csc_iter :=
  {| cci_size := zlen (csc_values s); cci_last := 0; cci_c := -1; cci_r := 0;
     cci_rIndex := 0; cci_index := 0; cci_ps := 0; cci_pe := 0 |}.

(** cscMatrix.go:351-356 [HasNext] *)
Definition csc_HasNext (it : csc_iter) : bool :=
  if cci_last it >=? cci_size it then false else true.

(** cscMatrix.go:360-365 [next], first loop *)
Fixpoint csc_next_col (fuel : nat) (s : csc) (it : csc_iter) : res csc_iter :=
  if cci_ps it =? cci_pe it then
    match fuel with
    | O => Diverge
    | S fuel' =>
        let c := cci_c it + 1 in
        ps <- zget (csc_colStart s) c ;;
        pe <- zget (csc_colStart s) (c + 1) ;;
        ri <- zget (csc_rows s) ps ;;
        csc_next_col fuel' s
          {| cci_size := cci_size it; cci_last := cci_last it; cci_c := c;
             cci_r := cci_r it; cci_rIndex := ri; cci_index := cci_index it;
             cci_ps := ps; cci_pe := pe |}
    end
  else Ok it.

(** cscMatrix.go:367-377 [next], second loop *)
Fixpoint csc_next_row (fuel : nat) (s : csc) (it : csc_iter) : res csc_iter :=
  if cci_ps it <? cci_pe it then
    x <- zget (csc_rows s) (cci_ps it) ;;
    if x =? cci_rIndex it then
      Ok {| cci_size := cci_size it; cci_last := cci_last it + 1; cci_c := cci_c it;
            cci_r := cci_rIndex it; cci_rIndex := cci_rIndex it + 1; cci_index := cci_ps it;
            cci_ps := cci_ps it + 1; cci_pe := cci_pe it |}
    else
      match fuel with
      | O => Diverge
      | S fuel' =>
          csc_next_row fuel' s
            {| cci_size := cci_size it; cci_last := cci_last it; cci_c := cci_c it;
               cci_r := cci_r it; cci_rIndex := cci_rIndex it + 1;
               cci_index := cci_index it; cci_ps := cci_ps it; cci_pe := cci_pe it |}
      end
  else Ok it.

(** cscMatrix.go:207-232: rounds the search loop needs; see DESIGN.md on fuel *)
Definition csc_row_fuel (s : csc) (it : csc_iter) : nat :=
  match zget (csc_rows s) (cci_ps it) with
  | Ok x => Z.to_nat (x - cci_rIndex it)
  | _ => O
  end.

(** cscMatrix.go:358-378 [next] *)
Definition csc_next (s : csc) (it : csc_iter) : res csc_iter :=
  it <- csc_next_col (S (length (csc_colStart s))) s it ;;
  csc_next_row (csc_row_fuel s it) s it.

(** the current element: cscMatrix.go:383 and 405 *)
Definition csc_cur (s : csc) (it : csc_iter) : res (Z * Z * V) :=
  v <- zget (csc_values s) (cci_index it) ;;
  Ok (cci_r it, cci_c it, v).

(** cscMatrix.go:406-410, the write half of [Map] *)
Definition csc_map_put (s : csc) (it : csc_iter) (value : V) : res csc :=
  if negb (isz value) then
    vs <- zset (csc_values s) (cci_index it) value ;;
    Ok {| csc_r := csc_r s; csc_c := csc_c s; csc_values := vs;
          csc_rows := csc_rows s; csc_colStart := csc_colStart s |}
  else csc_remove s (cci_index it) (cci_c it).

End Csc.
Arguments csc : clear implicits.

(** The methods of the five storage types as sequences of accesses to memory, and
    goroutines using a [MutexMatrix] at that level.

    A method is a [prog]: a tree of reads and writes of the fields of the struct, of
    the lengths of its slices and of the elements of their arrays.  Memory private to the call
    (results being built, the caller's function) is not shared and not accessed through [prog].
    Simplifications: a slice field and the array it points to are seen as one list, so a
    write through a stale slice header is not told from one through the current header, which only
    makes a difference in programs with a race on that header.  Whether an [append] finds
    room in the array is a parameter of the call; the slot beyond the length that it
    fills then becomes visible with the new length. *)
From Verif Require Import GoBase Num SparseVec Csr Csc DenseVec DenseMat Mat Mutex.

Section Access.
Context {N : num}.
Notation V := (T N).
Notation mat := (mat N).
Notation ret := (ret N).

(** which struct (csrMatrix.go:21-27, cscMatrix.go:22-28, denseMatrix.go:16-20,
    denseVector.go:16-19, sparseVector.go:25-29) *)
Inductive storage : Type := SCSR | SCSC | SDM | SDV | SSV.

(** the fields of the struct, under common names: [m_r], [m_c] the dimensions (a vector
    has its length in [m_r]); [m_vals] the values; [m_idxs] the cols, rows or indices;
    [m_starts] the rowStart or colStart; [m_data] the rows of a DenseMatrix
    (csrMatrix.go:21-27, cscMatrix.go:22-28, denseMatrix.go:16-20, denseVector.go:16-19,
    sparseVector.go:25-29) *)
Record mem : Type := MkMem {
  m_kind : storage;
  m_r : Z; m_c : Z;
  m_vals : list V; m_idxs : list Z; m_starts : list Z;
  m_data : list (list V);
}.

(** the same structs as in Csr.v, Csc.v, DenseMat.v, DenseVec.v, SparseVec.v
    (csrMatrix.go:21-27, cscMatrix.go:22-28, denseMatrix.go:16-20, denseVector.go:16-19,
    sparseVector.go:25-29) *)
Definition flat (m : mat) : mem :=
  match m with
  | MCSR s => MkMem SCSR (csr_r s) (csr_c s) (csr_values s) (csr_cols s) (csr_rowStart s) []
  | MCSC s => MkMem SCSC (csc_r s) (csc_c s) (csc_values s) (csc_rows s) (csc_colStart s) []
  | MDM s => MkMem SDM (dm_r s) (dm_c s) [] [] [] (dm_data s)
  | MDV s => MkMem SDV (dv_l s) 1 (dv_values s) [] [] []
  | MSV s => MkMem SSV (sv_l s) 1 (sv_values s) (sv_indices s) [] []
  end.

(** memory locations: fields (a slice field holds pointer, length and capacity) and elements *)
Inductive loc : Type :=
| LR | LC | LVals | LIdxs | LStarts | LData
| LVal (i : Z) | LIdx (i : Z) | LStart (i : Z) | LRow (i : Z) | LCell (i j : Z).

(** reading an integer field, the length of a slice, or an integer element *)
Inductive zloc : Type := ZR | ZC | ZVals | ZIdxs | ZStarts | ZData | ZIdx (i : Z) | ZStart (i : Z) | ZRow (i : Z).
(** reading a number *)
Inductive vloc : Type := VAtVal (i : Z) | VAtCell (i j : Z).
(** writing: an element; a slice field, which is set to a new array ([UVals] etc.), to a
    shorter part of its array ([...To]) or to one more element of it ([...Push]) *)
Inductive upd : Type :=
| UVal (i : Z) (v : V) | UIdx (i : Z) (z : Z) | UStart (i : Z) (z : Z) | UCell (i j : Z) (v : V) | URow (i : Z) (l : list V)
| UVals (l : list V) | UValsTo (n : Z) | UValsPush (v : V)
| UIdxs (l : list Z) | UIdxsTo (n : Z) | UIdxsPush (z : Z)
| UStarts (l : list Z) | UData (l : list (list V)).

Definition loc_z (l : zloc) : loc :=
  match l with
  | ZR => LR | ZC => LC | ZVals => LVals | ZIdxs => LIdxs | ZStarts => LStarts | ZData => LData
  | ZIdx i => LIdx i | ZStart i => LStart i | ZRow i => LRow i
  end.
Definition loc_v (l : vloc) : loc := match l with VAtVal i => LVal i | VAtCell i j => LCell i j end.
Definition loc_u (u : upd) : loc :=
  match u with
  | UVal i _ => LVal i | UIdx i _ => LIdx i | UStart i _ => LStart i | UCell i j _ => LCell i j | URow i _ => LRow i
  | UVals _ | UValsTo _ | UValsPush _ => LVals
  | UIdxs _ | UIdxsTo _ | UIdxsPush _ => LIdxs
  | UStarts _ => LStarts | UData _ => LData
  end.

(** what the memory holds *)
Definition rd_z (x : mem) (l : zloc) : res Z :=
  match l with
  | ZR => Ok (m_r x) | ZC => Ok (m_c x)
  | ZVals => Ok (zlen (m_vals x)) | ZIdxs => Ok (zlen (m_idxs x)) | ZStarts => Ok (zlen (m_starts x)) | ZData => Ok (zlen (m_data x))
  | ZIdx i => zget (m_idxs x) i | ZStart i => zget (m_starts x) i
  | ZRow i => row <- zget (m_data x) i ;; Ok (zlen row)
  end.
Definition rd_v (x : mem) (l : vloc) : res V :=
  match l with
  | VAtVal i => zget (m_vals x) i
  | VAtCell i j => row <- zget (m_data x) i ;; zget row j
  end.
Definition wr_vals (x : mem) (l : list V) : mem := MkMem (m_kind x) (m_r x) (m_c x) l (m_idxs x) (m_starts x) (m_data x).
Definition wr_idxs (x : mem) (l : list Z) : mem := MkMem (m_kind x) (m_r x) (m_c x) (m_vals x) l (m_starts x) (m_data x).
Definition wr_starts (x : mem) (l : list Z) : mem := MkMem (m_kind x) (m_r x) (m_c x) (m_vals x) (m_idxs x) l (m_data x).
Definition wr_data (x : mem) (l : list (list V)) : mem := MkMem (m_kind x) (m_r x) (m_c x) (m_vals x) (m_idxs x) (m_starts x) l.
Definition wr (x : mem) (u : upd) : res mem :=
  match u with
  | UVal i v => l <- zset (m_vals x) i v ;; Ok (wr_vals x l)
  | UIdx i z => l <- zset (m_idxs x) i z ;; Ok (wr_idxs x l)
  | UStart i z => l <- zset (m_starts x) i z ;; Ok (wr_starts x l)
  | UCell i j v => row <- zget (m_data x) i ;; row' <- zset row j v ;; l <- zset (m_data x) i row' ;; Ok (wr_data x l)
  | URow i row => l <- zset (m_data x) i row ;; Ok (wr_data x l)
  | UVals l => Ok (wr_vals x l)
  | UValsTo n => l <- slice_to (m_vals x) n ;; Ok (wr_vals x l)
  | UValsPush v => Ok (wr_vals x (m_vals x ++ [v]))
  | UIdxs l => Ok (wr_idxs x l)
  | UIdxsTo n => l <- slice_to (m_idxs x) n ;; Ok (wr_idxs x l)
  | UIdxsPush z => Ok (wr_idxs x (m_idxs x ++ [z]))
  | UStarts l => Ok (wr_starts x l)
  | UData l => Ok (wr_data x l)
  end.

(** ** programs *)
Inductive prog (A : Type) : Type :=
| PRet (a : A)
| PStop                                  (* panic *)
| PHang                                  (* never ends *)
| PRdZ (l : zloc) (k : Z -> prog A)
| PRdV (l : vloc) (k : V -> prog A)
| PWr (u : upd) (k : prog A).
Arguments PRet {A}. Arguments PStop {A}. Arguments PHang {A}. Arguments PRdZ {A}. Arguments PRdV {A}. Arguments PWr {A}.

Fixpoint pbind {A B} (p : prog A) (k : A -> prog B) : prog B :=
  match p with
  | PRet a => k a
  | PStop => PStop
  | PHang => PHang
  | PRdZ l f => PRdZ l (fun z => pbind (f z) k)
  | PRdV l f => PRdV l (fun v => pbind (f v) k)
  | PWr u q => PWr u (pbind q k)
  end.
Notation "x <~ m ;; k" := (pbind m (fun x => k)) (at level 61, m at next level, right associativity).
Notation "' p <~ m ;; k" := (pbind m (fun p => k)) (at level 61, p pattern, m at next level, right associativity).

(** computation on private memory *)
Definition plift {A} (r : res A) : prog A := match r with Ok a => PRet a | Panic => PStop | Diverge => PHang end.
Definition pz (l : zloc) : prog Z := PRdZ l PRet.
Definition pv (l : vloc) : prog V := PRdV l PRet.
Definition pw (u : upd) : prog unit := PWr u (PRet tt).
Fixpoint pfold {S I} (body : S -> I -> prog S) (s : S) (l : list I) : prog S :=
  match l with
  | [] => PRet s
  | i :: rest => s' <~ body s i ;; pfold body s' rest
  end.

(** a program run alone: the memory left and the outcome *)
Fixpoint prun {A} (p : prog A) (x : mem) : mem * res A :=
  match p with
  | PRet a => (x, Ok a)
  | PStop => (x, Panic)
  | PHang => (x, Diverge)
  | PRdZ l k => match rd_z x l with Ok z => prun (k z) x | Panic => (x, Panic) | Diverge => (x, Diverge) end
  | PRdV l k => match rd_v x l with Ok v => prun (k v) x | Panic => (x, Panic) | Diverge => (x, Diverge) end
  | PWr u k => match wr x u with Ok y => prun k y | Panic => (x, Panic) | Diverge => (x, Diverge) end
  end.

(** [s.values[i]] and so on: the slice field, then the element *)
Definition elem {A} (hdr : zloc) (at_ : prog A) (i : Z) : prog A :=
  n <~ pz hdr ;; if (i <? 0) || (n <=? i) then PStop else at_.
Definition val (i : Z) : prog V := elem ZVals (pv (VAtVal i)) i.
Definition idx (i : Z) : prog Z := elem ZIdxs (pz (ZIdx i)) i.
Definition start (i : Z) : prog Z := elem ZStarts (pz (ZStart i)) i.
Definition cell (i j : Z) : prog V := elem ZData (elem (ZRow i) (pv (VAtCell i j)) j) i.
(** assignments to elements *)
Definition set_elem (hdr : zloc) (u : upd) (i : Z) : prog unit :=
  n <~ pz hdr ;; if (i <? 0) || (n <=? i) then PStop else pw u.

(** [s.x = append(s.x[:p], append([]A{a}, s.x[p:]...)...)] and
    [s.x = append(s.x[:p], s.x[p+1:]...)], for the two slices (csrMatrix.go:181-182,
    192-193; cscMatrix.go:188-189, 199-200; sparseVector.go:180-181, 185-186).  The reads of a
    slice part come first; with room in the array its tail is overwritten, without room
    the whole is copied to a new array. *)
Section Slice.
Context {A : Type} (hdr : zloc) (get : Z -> prog A) (put : Z -> A -> upd) (to_ : Z -> upd) (push : A -> upd) (fresh : list A -> upd).
Definition reads (is_ : list Z) : prog (list A) := pfold (fun l i => a <~ get i ;; PRet (l ++ [a])) [] is_.
Definition writes (p : Z) (l : list A) : prog unit :=
  pfold (fun _ ia => pw (put (fst ia) (snd ia))) tt (combine (zrange p (p + zlen l)) l).
Definition put_in (room : bool) (p : Z) (a : A) : prog unit :=
  n <~ pz hdr ;;
  if (p <? 0) || (n <? p) then PStop
  else
    tail <~ reads (zrange p n) ;;
    if room then
      _ <~ writes p (removelast (a :: tail)) ;;
      pw (push (last tail a))
    else
      front <~ reads (zrange 0 p) ;;
      pw (fresh (front ++ a :: tail)).
Definition take_out (p : Z) : prog unit :=
  n <~ pz hdr ;;
  if (p <? 0) || (n <? p + 1) then PStop
  else
    tail <~ reads (zrange (p + 1) n) ;;
    _ <~ writes p tail ;;
    pw (to_ (n - 1)).
End Slice.

Definition put_idx := put_in ZIdxs (fun i => pz (ZIdx i)) UIdx UIdxsPush UIdxs.
Definition put_val := put_in ZVals (fun i => pv (VAtVal i)) UVal UValsPush UVals.
Definition out_idx := take_out ZIdxs (fun i => pz (ZIdx i)) UIdx UIdxsTo.
Definition out_val := take_out ZVals (fun i => pv (VAtVal i)) UVal UValsTo.

(** *** compressed matrices: [a] is the index of the row of a CSR matrix or the column of a CSC
    matrix, [b] the other index *)

(** csrMatrix.go:213-222, cscMatrix.go:220-229 *)
Fixpoint a_search (fuel : nat) (b s e : Z) : prog (Z * Z) :=
  match fuel with
  | O => PHang
  | S fuel' =>
      if s <? e then
        let p := Z.quot (s + e) 2 in
        x <~ idx p ;;
        if x >? b then a_search fuel' b s p
        else if x <? b then a_search fuel' b (p + 1) e
        else PRet (p, e)
      else PRet (s, e)
  end.
(** csrMatrix.go:200-225 [columnIndex], cscMatrix.go:207-232 [rowIndex] *)
Definition a_index (a b : Z) : prog (Z * Z) :=
  s <~ start a ;;
  e <~ start (a + 1) ;;
  if s - e =? 0 then PRet (s, e)
  else
    x <~ idx (e - 1) ;;
    if b >? x then PRet (e, e) else a_search (S (Z.to_nat (e - s))) b s e.
(** csrMatrix.go:184-186, 195-197; cscMatrix.go:191-193, 202-204 *)
Definition a_shift (d a : Z) (count : zloc) : prog unit :=
  n <~ pz count ;;
  pfold (fun _ i => x <~ start i ;; set_elem ZStarts (UStart i (x + d)) i) tt (zrange (a + 1) (n + 1)).
(** csrMatrix.go:176-189, cscMatrix.go:183-196 [insert] *)
Definition a_insert (room : bool * bool) (count : zloc) (p a b : Z) (v : V) : prog unit :=
  if isz v then PRet tt
  else
    _ <~ put_idx (fst room) p b ;;
    _ <~ put_val (snd room) p v ;;
    a_shift 1 a count.
(** csrMatrix.go:191-198, cscMatrix.go:198-205 [remove] *)
Definition a_remove (count : zloc) (p a : Z) : prog unit :=
  _ <~ out_idx p ;;
  _ <~ out_val p ;;
  a_shift (-1) a count.
(** csrMatrix.go:84, 131; cscMatrix.go:90, 157, 175 *)
Definition a_hit (ps pe b : Z) : prog bool :=
  if ps <? pe then x <~ idx ps ;; PRet (x =? b) else PRet false.
(** csrMatrix.go:73-96, cscMatrix.go:79-104 [UpdateReturnPointer]; [f] is the caller's
    function, [None] if it panics *)
Definition a_update {W} (room : bool * bool) (count : zloc) (r c a b : Z) (f : V -> option (W * V)) : prog W :=
  nr <~ pz ZR ;;
  if (r <? 0) || (r >=? nr) then PStop
  else
  nc <~ pz ZC ;;
  if (c <? 0) || (c >=? nc) then PStop
  else
    '(ps, pe) <~ a_index a b ;;
    hit <~ a_hit ps pe b ;;
    if hit then
      v <~ val ps ;;
      match f v with
      | None => PStop
      | Some (w, v') =>
          if isz v' then _ <~ a_remove count ps a ;; PRet w
          else _ <~ set_elem ZVals (UVal ps v') ps ;; PRet w
      end
    else
      match f n0 with
      | None => PStop
      | Some (w, v') => _ <~ a_insert room count ps a b v' ;; PRet w
      end.
(** csrMatrix.go:141-156 [RowsAt], cscMatrix.go:130-145 [ColumnsAt]: the entries of one row of
    a CSR or column of a CSC matrix, put where [add] says *)
Definition a_along {S} (a : Z) (add : S -> Z -> V -> res S) (init : res S) : prog S :=
  t <~ plift init ;;
  s <~ start a ;;
  e <~ start (a + 1) ;;
  pfold (fun t i => k <~ idx i ;; v <~ val i ;; plift (add t k v)) t (zrange s e).
(** csrMatrix.go:122-138 [ColumnsAt], cscMatrix.go:148-181 [RowsAt], [RowsAtToArray]: one
    search in every row of a CSR or column of a CSC matrix; [count]: number of these *)
Definition a_across {S} (count : zloc) (b : Z) (add : S -> Z -> V -> res S) (init : res S) : prog S :=
  t <~ plift init ;;
  n <~ pz count ;;
  m <~ pz ZStarts ;;
  if (n <? 0) || (m <? n) then PStop
  else
    pfold (fun t a =>
             '(ps, pe) <~ a_index a b ;;
             hit <~ a_hit ps pe b ;;
             if hit then v <~ val ps ;; plift (add t a v) else PRet t) t (zrange 0 n).
(** [range]: the check of one index *)
Definition in_range (count : zloc) (i : Z) {A} (p : prog A) : prog A :=
  n <~ pz count ;; if (i <? 0) || (i >=? n) then PStop else p.
(** csrMatrix.go:232-245, cscMatrix.go:239-252 [Copy] *)
Definition a_copy {S} (init : Z -> Z -> Z -> res S) (put2 : S -> Z -> V -> Z -> res S) (put3 : S -> Z -> Z -> res S) : prog S :=
  r <~ pz ZR ;; c <~ pz ZC ;; n <~ pz ZVals ;;
  t <~ plift (init r c n) ;;
  t <~ pfold (fun t i => v <~ val i ;; k <~ idx i ;; plift (put2 t i v k)) t (zrange 0 n) ;;
  m <~ pz ZStarts ;;
  pfold (fun t i => x <~ start i ;; plift (put3 t i x)) t (zrange 0 m).

(** *** sparse vectors *)

(** sparseVector.go:198-207 *)
Fixpoint s_search (fuel : nat) (i s e : Z) : prog Z :=
  match fuel with
  | O => PHang
  | S fuel' =>
      if s <? e then
        let p := Z.quot (s + e) 2 in
        x <~ idx p ;;
        if x >? i then s_search fuel' i s p
        else if x <? i then s_search fuel' i (p + 1) e
        else PRet p
      else PRet s
  end.
(** sparseVector.go:189-210 [index] *)
Definition s_index (i : Z) : prog (Z * Z) :=
  n <~ pz ZIdxs ;;
  if i >? n then PRet (n, n)
  else p <~ s_search (S (Z.to_nat n)) i 0 n ;; PRet (p, n).
(** sparseVector.go:58-70 [AtVec] *)
Definition s_AtVec (i : Z) : prog V :=
  in_range ZR i ('(p, n) <~ s_index i ;; hit <~ a_hit p n i ;; if hit then val p else PRet n0).
(** sparseVector.go:73-89 [SetVec], 175-187 [insert], [remove] *)
Definition s_SetVec (room : bool * bool) (i : Z) (v : V) : prog unit :=
  in_range ZR i
    ('(p, n) <~ s_index i ;;
     hit <~ a_hit p n i ;;
     if hit then
       if isz v then _ <~ out_idx p ;; out_val p else set_elem ZVals (UVal p v) p
     else
       if isz v then PRet tt else _ <~ put_idx (fst room) p i ;; put_val (snd room) p v).
(** sparseVector.go:102-113 [Update]; denseVector.go:118-129 has the same text *)
Definition vec_update {W} (at_ : Z -> prog V) (set_ : Z -> V -> prog unit) (r c : Z) (f : V -> option (W * V)) : prog W :=
  in_range ZR r
    (if (c <? 0) || (c >=? 1) then PStop
     else
       v <~ at_ r ;;
       match f v with None => PStop | Some (w, v') => _ <~ set_ r v' ;; PRet w end).
(** sparseVector.go:126-136, denseVector.go:137-147 [Set] *)
Definition vec_set (set_ : Z -> V -> prog unit) (r c : Z) (v : V) : prog unit :=
  in_range ZR r (if (c <? 0) || (c >=? 1) then PStop else set_ r v).
(** sparseVector.go:212-221 [copy] *)
Definition s_copy : prog (svec N) :=
  l <~ pz ZR ;; n <~ pz ZIdxs ;;
  t <~ plift (newSparseVector l n) ;;
  m <~ pz ZVals ;;
  pfold (fun t i => v <~ val i ;; x <~ idx i ;;
           plift (vs <- zset (sv_values t) i v ;; xs <- zset (sv_indices t) i x ;;
                  Ok {| sv_l := sv_l t; sv_values := vs; sv_indices := xs |})) t (zrange 0 m).

(** *** dense storage *)

(** denseVector.go:65-80 [AtVec], [SetVec] *)
Definition d_AtVec (i : Z) : prog V := in_range ZR i (val i).
(** denseVector.go:74-80 *)
Definition d_SetVec (i : Z) (v : V) : prog unit := in_range ZR i (set_elem ZVals (UVal i v) i).
(** denseVector.go:186-212 [copy], [Copy] *)
Definition d_copy : prog (dvec N) :=
  l <~ pz ZR ;;
  t <~ plift (newDenseVector l) ;;
  n <~ pz ZVals ;;
  pfold (fun t i => v <~ val i ;; plift (dv_SetVec t i v)) t (zrange 0 n).
(** [s.data[r][c] = v] (denseMatrix.go:99, 127) *)
Definition set_cell (r c : Z) (v : V) : prog unit :=
  n <~ pz ZData ;; if (r <? 0) || (n <=? r) then PStop else set_elem (ZRow r) (UCell r c v) c.
(** denseMatrix.go:91-97, 106-112, 119-125: the checks *)
Definition both_in_range (r c : Z) {A} (p : prog A) : prog A := in_range ZR r (in_range ZC c p).
(** denseMatrix.go:90-102 [Update] *)
Definition dm_update {W} (r c : Z) (f : V -> option (W * V)) : prog W :=
  both_in_range r c (v <~ cell r c ;; match f v with Some (w, v') => _ <~ set_cell r c v' ;; PRet w | None => PStop end).
(** denseMatrix.go:176-208 [CopyLogical], [Copy] *)
Definition dm_copy : prog (dense N) :=
  r <~ pz ZR ;; c <~ pz ZC ;;
  t <~ plift (make_slice [] r) ;;
  t <~ pfold (fun t i =>
      row <~ plift (make_slice n0 c) ;;
      cols <~ pz ZC ;;
      row <~ pfold (fun row j => v <~ cell i j ;; plift (zset row j v)) row (zrange 0 cols) ;;
      plift (zset t i row)) t (zrange 0 r) ;;
  PRet {| dm_c := c; dm_r := r; dm_data := t |}.

(** ** the methods of [MutexMatrix] *)

(** calls of the wrapper; [WReads] stands for Scalar, Multiply, Add, Subtract, Negative,
    Transpose, Equal, NotEqual (mutexMatrix.go:93-155): any sequence of reads, ending with any
    result *)
Inductive wcall : Type :=
| WAt (r c : Z) | WElement (r c : Z) | WColumnsAt (c : Z) | WRowsAt (r : Z) | WRowsAtToArray (r : Z) | WCopy
| WReads (p : prog ret)
| WSet (r c : Z) (v : V) | WUpdate (r c : Z) (f : V -> option V)
| WRows | WColumns | WSize | WClear | WValues.

(** mutexMatrix.go:27-191: the lock each method takes *)
Definition wlock (k : wcall) : lock :=
  match k with
  | WAt _ _ | WElement _ _ | WColumnsAt _ | WRowsAt _ | WRowsAtToArray _ | WCopy | WReads _ | WClear => LRead
  | WSet _ _ _ | WUpdate _ _ _ => LWrite
  | WRows | WColumns | WSize | WValues => LNone
  end.

(** the function given to [Update] by At, Element and Set (csrMatrix.go:99-113, 404-411;
    cscMatrix.go:107-121, 414-421; sparseVector.go:116-123) and by the caller *)
Definition f_at (v : V) : option (ret * V) := Some (VVal v, v).
Definition f_element (v : V) : option (ret * V) := Some (VBool (ngtb v n0), v).
Definition f_set (x : V) (v : V) : option (ret * V) := Some (VUnit, x).
Definition f_update (f : V -> option V) (v : V) : option (ret * V) := match f v with Some v' => Some (VUnit, v') | None => None end.

(** the accesses made by the wrapped method, for each struct: csrMatrix.go:64-312,
    cscMatrix.go:70-322, denseMatrix.go:80-366, denseVector.go:65-355, sparseVector.go:53-371 *)
Definition method (s : storage) (room : bool * bool) (k : wcall) : prog ret :=
  match s with
  | SCSR =>
      match k with
      | WAt r c => a_update room ZR r c r c f_at
      | WElement r c => a_update room ZR r c r c f_element
      | WSet r c v => a_update room ZR r c r c (f_set v)
      | WUpdate r c f => a_update room ZR r c r c (f_update f)
      | WColumnsAt c => in_range ZC c (n <~ pz ZR ;; v <~ a_across ZR c sv_SetVec (NewSparseVector n) ;; PRet (VMat (MSV v)))
      | WRowsAt r => in_range ZR r (n <~ pz ZC ;; v <~ a_along r sv_SetVec (NewSparseVector n) ;; PRet (VMat (MSV v)))
      | WRowsAtToArray r => in_range ZR r (n <~ pz ZC ;; l <~ a_along r (fun t k v => zset t k v) (make_slice n0 n) ;; PRet (VArr l))
      | WCopy => t <~ a_copy newCSRMatrix
            (fun t i v k => vs <- zset (csr_values t) i v ;; cs <- zset (csr_cols t) i k ;; Ok {| csr_r := csr_r t; csr_c := csr_c t; csr_values := vs; csr_cols := cs; csr_rowStart := csr_rowStart t |})
            (fun t i x => rs <- zset (csr_rowStart t) i x ;; Ok {| csr_r := csr_r t; csr_c := csr_c t; csr_values := csr_values t; csr_cols := csr_cols t; csr_rowStart := rs |}) ;;
          PRet (VMat (MCSR t))
      | WClear => _ <~ pw (UVals []) ;; _ <~ pw (UIdxs []) ;; n <~ pz ZR ;; l <~ plift (make_slice 0 (n + 1)) ;; _ <~ pw (UStarts l) ;; PRet VUnit
      | WValues => n <~ pz ZVals ;; PRet (VInt n)
      | WRows => n <~ pz ZR ;; PRet (VInt n)
      | WColumns => n <~ pz ZC ;; PRet (VInt n)
      | WSize => n <~ pz ZR ;; m <~ pz ZC ;; PRet (VInt (wrap true 64 (n * m)))
      | WReads p => p
      end
  | SCSC =>
      match k with
      | WAt r c => a_update room ZC r c c r f_at
      | WElement r c => a_update room ZC r c c r f_element
      | WSet r c v => a_update room ZC r c c r (f_set v)
      | WUpdate r c f => a_update room ZC r c c r (f_update f)
      | WColumnsAt c => in_range ZC c (n <~ pz ZR ;; v <~ a_along c sv_SetVec (NewSparseVector n) ;; PRet (VMat (MSV v)))
      | WRowsAt r => in_range ZR r (n <~ pz ZC ;; v <~ a_across ZC r sv_SetVec (NewSparseVector n) ;; PRet (VMat (MSV v)))
      | WRowsAtToArray r => in_range ZR r (n <~ pz ZC ;; l <~ a_across ZC r (fun t k v => zset t k v) (make_slice n0 n) ;; PRet (VArr l))
      | WCopy => t <~ a_copy newCSCMatrix
            (fun t i v k => vs <- zset (csc_values t) i v ;; rs <- zset (csc_rows t) i k ;; Ok {| csc_r := csc_r t; csc_c := csc_c t; csc_values := vs; csc_rows := rs; csc_colStart := csc_colStart t |})
            (fun t i x => cs <- zset (csc_colStart t) i x ;; Ok {| csc_r := csc_r t; csc_c := csc_c t; csc_values := csc_values t; csc_rows := csc_rows t; csc_colStart := cs |}) ;;
          PRet (VMat (MCSC t))
      | WClear => _ <~ pw (UVals []) ;; _ <~ pw (UIdxs []) ;; n <~ pz ZC ;; l <~ plift (make_slice 0 (n + 1)) ;; _ <~ pw (UStarts l) ;; PRet VUnit
      | WValues => n <~ pz ZVals ;; PRet (VInt n)
      | WRows => n <~ pz ZR ;; PRet (VInt n)
      | WColumns => n <~ pz ZC ;; PRet (VInt n)
      | WSize => n <~ pz ZR ;; m <~ pz ZC ;; PRet (VInt (wrap true 64 (n * m)))
      | WReads p => p
      end
  | SDM =>
      match k with
      | WAt r c => both_in_range r c (v <~ cell r c ;; PRet (VVal v))
      | WElement r c => both_in_range r c (v <~ cell r c ;; PRet (VBool (ngtb v n0)))
      | WSet r c v => both_in_range r c (_ <~ set_cell r c v ;; PRet VUnit)
      | WUpdate r c f => dm_update r c (f_update f)
      | WColumnsAt c => in_range ZC c
          (n <~ pz ZR ;; t <~ plift (newDenseVector n) ;; t <~ pfold (fun t r => v <~ cell r c ;; plift (dv_SetVec t r v)) t (zrange 0 n) ;; PRet (VMat (MDV t)))
      | WRowsAt r => in_range ZR r
          (n <~ pz ZC ;; t <~ plift (newDenseVector n) ;; t <~ pfold (fun t i => v <~ cell r i ;; plift (dv_SetVec t i v)) t (zrange 0 n) ;; PRet (VMat (MDV t)))
      | WRowsAtToArray r => in_range ZR r
          (n <~ pz ZC ;; t <~ plift (make_slice n0 n) ;; t <~ pfold (fun t i => v <~ cell r i ;; plift (zset t i v)) t (zrange 0 n) ;; PRet (VArr t))
      | WCopy => t <~ dm_copy ;; PRet (VMat (MDM t))
      | WClear =>
          n <~ pz ZR ;; l <~ plift (make_slice [] n) ;; _ <~ pw (UData l) ;;
          _ <~ pfold (fun _ i => m <~ pz ZC ;; row <~ plift (make_slice n0 m) ;; set_elem ZData (URow i row) i) tt (zrange 0 n) ;; PRet VUnit
      | WRows => n <~ pz ZR ;; PRet (VInt n)
      | WColumns => n <~ pz ZC ;; PRet (VInt n)
      | WSize | WValues => n <~ pz ZR ;; m <~ pz ZC ;; PRet (VInt (wrap true 64 (n * m)))
      | WReads p => p
      end
  | SDV =>
      match k with
      | WAt r c => v <~ d_AtVec r ;; PRet (VVal v)
      | WElement r c => v <~ d_AtVec r ;; PRet (VBool (ngtb v n0))
      | WSet r c v => _ <~ vec_set d_SetVec r c v ;; PRet VUnit
      | WUpdate r c f => vec_update d_AtVec d_SetVec r c (f_update f)
      | WColumnsAt c => if (c <? 0) || (c >=? 1) then PStop else (t <~ d_copy ;; PRet (VMat (MDV t)))
      | WRowsAt r => in_range ZR r (t <~ plift (newDenseVector 1) ;; v <~ d_AtVec r ;; t <~ plift (dv_SetVec t 0 v) ;; PRet (VMat (MDV t)))
      | WRowsAtToArray r => in_range ZR r (t <~ plift (make_slice n0 1) ;; v <~ d_AtVec r ;; t <~ plift (zset t 0 v) ;; PRet (VArr t))
      | WCopy => t <~ d_copy ;; PRet (VMat (MDV t))
      | WClear => n <~ pz ZR ;; l <~ plift (make_slice n0 n) ;; _ <~ pw (UVals l) ;; PRet VUnit
      | WRows | WSize | WValues => n <~ pz ZR ;; PRet (VInt n)
      | WColumns => PRet (VInt 1)
      | WReads p => p
      end
  | SSV =>
      match k with
      | WAt r c => vec_update s_AtVec (s_SetVec room) r c f_at
      | WElement r c => v <~ s_AtVec r ;; PRet (VBool (ngtb v n0))
      | WSet r c v => _ <~ vec_set (s_SetVec room) r c v ;; PRet VUnit
      | WUpdate r c f => vec_update s_AtVec (s_SetVec room) r c (f_update f)
      | WColumnsAt c => if (c <? 0) || (c >=? 1) then PStop else (t <~ s_copy ;; PRet (VMat (MSV t)))
      | WRowsAt r => in_range ZR r (t <~ plift (NewSparseVector 1) ;; v <~ s_AtVec r ;; t <~ plift (sv_SetVec t 0 v) ;; PRet (VMat (MSV t)))
      | WRowsAtToArray r => in_range ZR r (t <~ plift (make_slice n0 1) ;; v <~ s_AtVec r ;; t <~ plift (zset t 0 v) ;; PRet (VArr t))
      | WCopy => t <~ s_copy ;; PRet (VMat (MSV t))
      | WClear => _ <~ pw (UVals []) ;; _ <~ pw (UIdxs []) ;; PRet VUnit
      | WValues => n <~ pz ZVals ;; PRet (VInt n)
      | WRows | WSize => n <~ pz ZR ;; PRet (VInt n)
      | WColumns => PRet (VInt 1)
      | WReads p => p
      end
  end.
End Access.
Arguments PRet {N A}. Arguments PStop {N A}. Arguments PHang {N A}. Arguments PRdZ {N A}. Arguments PRdV {N A}. Arguments PWr {N A}.

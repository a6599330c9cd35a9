(** Go slices with their backing arrays, and the storage types on top of them.

    The other models keep the content of a slice as a list.  Here a slice is what Go makes
    it, a window into an array that other slices may share, and the functions that write
    are given again on that level: csrMatrix.go, cscMatrix.go, sparseVector.go,
    denseVector.go, denseMatrix.go.  SlicesProofs.v shows when the two agree. *)
From Verif Require Import GoBase Num SparseVec Csr Csc DenseVec DenseMat Mat.

Section Slice.
Context {A : Type}.

(** a slice: array, offset, length, capacity *)
Record slice : Type := MkSlice { s_arr : nat; s_off : nat; s_len : nat; s_cap : nat }.

(** the arrays of one element type; an array never changes its length *)
Definition mem : Type := list (list A).
(** the elements of an array *)
Definition array (m : mem) (a : nat) : list A := nth a m [].
(** the elements of the slice *)
Definition contents (m : mem) (s : slice) : list A := firstn (s_len s) (skipn (s_off s) (array m (s_arr s))).

(** a new array, and the slice of its first elements *)
Definition fresh (slack : list A) (m : mem) (xs : list A) : mem * slice :=
  (m ++ [xs ++ slack], MkSlice (length m) 0 (length xs) (length xs + length slack)).

(** [s[i]] and [s[i] = x] *)
Definition sget (m : mem) (s : slice) (i : Z) : res A := zget (contents m s) i.
(** see sget *)
Definition sset (m : mem) (s : slice) (i : Z) (x : A) : res mem :=
  if (i <? 0) || (Z.of_nat (s_len s) <=? i) then Panic
  else Ok (list_set m (s_arr s) (list_set (array m (s_arr s)) (s_off s + Z.to_nat i) x)).

(** [s[:p]]: up to the capacity; [s[p:]]: up to the length *)
Definition to (s : slice) (p : Z) : res slice :=
  if (p <? 0) || (Z.of_nat (s_cap s) <? p) then Panic
  else Ok (MkSlice (s_arr s) (s_off s) (Z.to_nat p) (s_cap s)).
(** see to *)
Definition from (s : slice) (p : Z) : res slice :=
  if (p <? 0) || (Z.of_nat (s_len s) <? p) then Panic
  else Ok (MkSlice (s_arr s) (s_off s + Z.to_nat p) (s_len s - Z.to_nat p) (s_cap s - Z.to_nat p)).

(** [copy] of elements into an array *)
Definition write_at (l : list A) (k : nat) (xs : list A) : list A := firstn k l ++ xs ++ skipn (k + length xs) l.

(** [append(s, xs...)]: in place if the capacity allows, else into a new array with [slack]
    cells to spare (Go does not say how many), whose content does not matter *)
Definition append (slack : list A) (m : mem) (s : slice) (xs : list A) : mem * slice :=
  let n := (s_len s + length xs)%nat in
  if Nat.leb n (s_cap s)
  then (list_set m (s_arr s) (write_at (array m (s_arr s)) (s_off s + s_len s) xs), MkSlice (s_arr s) (s_off s) n (s_cap s))
  else fresh slack m (contents m s ++ xs).

(** [append(s[:p], append([]T{x}, s[p:]...)...)]; two appends, each with its slack *)
Definition insert (slack1 slack2 : list A) (m : mem) (s : slice) (p : Z) (x : A) : res (mem * slice) :=
  s1 <- to s p ;;
  s2 <- from s p ;;
  let '(m1, f) := fresh [] m [x] in
  let '(m2, g) := append slack1 m1 f (contents m1 s2) in
  Ok (append slack2 m2 s1 (contents m2 g)).

(** [append(s[:p], s[p+1:]...)] *)
Definition remove (slack : list A) (m : mem) (s : slice) (p : Z) : res (mem * slice) :=
  s1 <- to s p ;;
  s2 <- from s (p + 1) ;;
  Ok (append slack m s1 (contents m s2)).
End Slice.
Arguments mem : clear implicits.

Section Stores.
Context {N : num}.
Notation V := (T N).

(** the arrays of a program: of elements, of indices, and of rows *)
Record store : Type := MkStore { st_v : mem V; st_z : mem Z; st_o : mem slice }.

(** the five storage types over slices (the structs of the five files) (csrMatrix.go:21-27,
    cscMatrix.go:22-28, denseMatrix.go:16-20, denseVector.go:16-19, sparseVector.go:25-29)
    *)
Inductive sobj : Type :=
| SCSR (r c : Z) (values cols rowStart : slice)
| SCSC (r c : Z) (values rows colStart : slice)
| SSV (l : Z) (values indices : slice)
| SDV (l : Z) (values : slice)
| SDM (c r : Z) (data : slice).

(** the rows of a dense matrix, denseMatrix.go:19 *)
Definition rows_of (st : store) (data : slice) : list slice := contents (st_o st) data.

(** the object as the other models see it *)
Definition view (st : store) (o : sobj) : mat N :=
  match o with
  | SCSR r c v k s => MCSR (MkCSR r c (contents (st_v st) v) (contents (st_z st) k) (contents (st_z st) s))
  | SCSC r c v k s => MCSC (MkCSC r c (contents (st_v st) v) (contents (st_z st) k) (contents (st_z st) s))
  | SSV l v k => MSV (MkSV l (contents (st_v st) v) (contents (st_z st) k))
  | SDV l v => MDV (MkDV l (contents (st_v st) v))
  | SDM c r d => MDM (MkDense c r (map (contents (st_v st)) (rows_of st d)))
  end.

(** how much every [append] allocates in excess; arbitrary *)
Record spare : Type := MkSpare { sp_v1 : list V; sp_v2 : list V; sp_z1 : list Z; sp_z2 : list Z }.
Variable sp : spare.

(** csrMatrix.go:184-186, 195-197, cscMatrix.go:191-193, 202-204: the loop over the starts *)
Definition s_shift (d : Z) (m : mem Z) (s : slice) (lo hi : Z) : res (mem Z) :=
  rfold (fun m i => x <- sget m s i ;; sset m s i (x + d)) m (zrange (lo + 1) (hi + 1)).

(** csrMatrix.go:176-189 and cscMatrix.go:183-196 [insert]: indices, then values, then starts *)
Definition s_insert (st : store) (v k s : slice) (pointer line lines x : Z) (value : V) : res (store * (slice * slice)) :=
  if isz value then Ok (st, (v, k))
  else
    '(z1, k') <- insert (sp_z1 sp) (sp_z2 sp) (st_z st) k pointer x ;;
    '(v1, v') <- insert (sp_v1 sp) (sp_v2 sp) (st_v st) v pointer value ;;
    z2 <- s_shift 1 z1 s line lines ;;
    Ok (MkStore v1 z2 (st_o st), (v', k')).

(** csrMatrix.go:191-198 and cscMatrix.go:198-205 [remove] *)
Definition s_remove (st : store) (v k s : slice) (pointer line lines : Z) : res (store * (slice * slice)) :=
  '(z1, k') <- remove (sp_z1 sp) (st_z st) k pointer ;;
  '(v1, v') <- remove (sp_v1 sp) (st_v st) v pointer ;;
  z2 <- s_shift (-1) z1 s line lines ;;
  Ok (MkStore v1 z2 (st_o st), (v', k')).

(** csrMatrix.go:73-96 [UpdateReturnPointer] and csrMatrix.go:69-71 [Update].  Looking for
    the entry only reads, and reading a slice is reading its content. *)
Definition s_csr_Update {W} (st : store) (r c : Z) (v k s : slice) (i j : Z) (f : V -> W * V) : res (W * store * sobj) :=
  let lists := MkCSR r c (contents (st_v st) v) (contents (st_z st) k) (contents (st_z st) s) in
  if (i <? 0) || (i >=? r) then Panic
  else if (j <? 0) || (j >=? c) then Panic
  else
    '(ps, pe) <- csr_columnIndex lists i j ;;
    hit <- csr_hit lists ps pe j ;;
    if hit then
      x <- sget (st_v st) v ps ;;
      let '(w, value) := f x in
      if isz value then
        '(st', (v', k')) <- s_remove st v k s ps i r ;; Ok (w, st', SCSR r c v' k' s)
      else
        m <- sset (st_v st) v ps value ;; Ok (w, MkStore m (st_z st) (st_o st), SCSR r c v k s)
    else
      let '(w, value) := f n0 in
      '(st', (v', k')) <- s_insert st v k s ps i r j value ;; Ok (w, st', SCSR r c v' k' s).

(** cscMatrix.go:79-102 [UpdateReturnPointer], 75-77 [Update] *)
Definition s_csc_Update {W} (st : store) (r c : Z) (v k s : slice) (i j : Z) (f : V -> W * V) : res (W * store * sobj) :=
  let lists := MkCSC r c (contents (st_v st) v) (contents (st_z st) k) (contents (st_z st) s) in
  if (i <? 0) || (i >=? r) then Panic
  else if (j <? 0) || (j >=? c) then Panic
  else
    '(ps, pe) <- csc_rowIndex lists i j ;;
    hit <- csc_hit lists ps pe i ;;
    if hit then
      x <- sget (st_v st) v ps ;;
      let '(w, value) := f x in
      if isz value then
        '(st', (v', k')) <- s_remove st v k s ps j c ;; Ok (w, st', SCSC r c v' k' s)
      else
        m <- sset (st_v st) v ps value ;; Ok (w, MkStore m (st_z st) (st_o st), SCSC r c v k s)
    else
      let '(w, value) := f n0 in
      '(st', (v', k')) <- s_insert st v k s ps j c i value ;; Ok (w, st', SCSC r c v' k' s).

(** sparseVector.go:175-187 [insert], [remove]; 73-89 [SetVec] *)
Definition s_sv_SetVec (st : store) (l : Z) (v k : slice) (i : Z) (value : V) : res (store * sobj) :=
  let lists := MkSV l (contents (st_v st) v) (contents (st_z st) k) in
  if (i <? 0) || (i >=? l) then Panic
  else
    '(pointer, length) <- sv_index lists i ;;
    hit <- sv_hit lists pointer length i ;;
    if hit then
      if isz value then
        '(z, k') <- remove (sp_z1 sp) (st_z st) k pointer ;;
        '(m, v') <- remove (sp_v1 sp) (st_v st) v pointer ;;
        Ok (MkStore m z (st_o st), SSV l v' k')
      else
        m <- sset (st_v st) v pointer value ;; Ok (MkStore m (st_z st) (st_o st), SSV l v k)
    else if isz value then Ok (st, SSV l v k)
    else
      '(z, k') <- insert (sp_z1 sp) (sp_z2 sp) (st_z st) k pointer i ;;
      '(m, v') <- insert (sp_v1 sp) (sp_v2 sp) (st_v st) v pointer value ;;
      Ok (MkStore m z (st_o st), SSV l v' k').
(** sparseVector.go:102-113 [Update] *)
Definition s_sv_Update {W} (st : store) (l : Z) (v k : slice) (i j : Z) (f : V -> W * V) : res (W * store * sobj) :=
  if (i <? 0) || (i >=? l) then Panic
  else if (j <? 0) || (j >=? 1) then Panic
  else
    x <- sv_AtVec (MkSV l (contents (st_v st) v) (contents (st_z st) k)) i ;;
    let '(w, x') := f x in
    '(st', o) <- s_sv_SetVec st l v k i x' ;;
    Ok (w, st', o).

(** denseVector.go:118-129 [Update] *)
Definition s_dv_Update {W} (st : store) (l : Z) (v : slice) (i j : Z) (f : V -> W * V) : res (W * store * sobj) :=
  if (i <? 0) || (i >=? l) then Panic
  else if (j <? 0) || (j >=? 1) then Panic
  else
    x <- sget (st_v st) v i ;;
    let '(w, x') := f x in
    m <- sset (st_v st) v i x' ;;
    Ok (w, MkStore m (st_z st) (st_o st), SDV l v).

(** denseMatrix.go:90-102 [Update] *)
Definition s_dm_Update {W} (st : store) (c r : Z) (d : slice) (i j : Z) (f : V -> W * V) : res (W * store * sobj) :=
  if (i <? 0) || (i >=? r) then Panic
  else if (j <? 0) || (j >=? c) then Panic
  else
    row <- sget (st_o st) d i ;;
    x <- sget (st_v st) row j ;;
    let '(w, x') := f x in
    m <- sset (st_v st) row j x' ;;
    Ok (w, MkStore m (st_z st) (st_o st), SDM c r d).

(** csrMatrix.go:69-96, cscMatrix.go:75-104, denseMatrix.go:90-102, denseVector.go:118-129, sparseVector.go:102-113 *)
Definition s_Update {W} (st : store) (o : sobj) (i j : Z) (f : V -> W * V) : res (W * store * sobj) :=
  match o with
  | SCSR r c v k s => s_csr_Update st r c v k s i j f
  | SCSC r c v k s => s_csc_Update st r c v k s i j f
  | SSV l v k => s_sv_Update st l v k i j f
  | SDV l v => s_dv_Update st l v i j f
  | SDM c r d => s_dm_Update st c r d i j f
  end.

(** the calls [Set], [SetVec] of every type: csrMatrix.go:109-113, cscMatrix.go:115-119,
    sparseVector.go:126-136, denseVector.go:137-147, denseMatrix.go:118-128 *)
Definition s_SetVec (st : store) (o : sobj) (i : Z) (x : V) : res (store * sobj) :=
  match o with
  | SSV l v k => s_sv_SetVec st l v k i x
  | SDV l v =>
      if (i <? 0) || (i >=? l) then Panic
      else m <- sset (st_v st) v i x ;; Ok (MkStore m (st_z st) (st_o st), SDV l v)
  | _ => Panic
  end.
(** csrMatrix.go:109-113, cscMatrix.go:117-121, denseMatrix.go:118-128, denseVector.go:137-147, sparseVector.go:126-136 *)
Definition s_Set (st : store) (o : sobj) (i j : Z) (x : V) : res (store * sobj) :=
  match o with
  | SCSR _ _ _ _ _ | SCSC _ _ _ _ _ =>
      '(_, st', o') <- s_Update st o i j (fun _ => (tt, x)) ;; Ok (st', o')
  | SSV l _ _ | SDV l _ =>
      if (i <? 0) || (i >=? l) then Panic
      else if (j <? 0) || (j >=? 1) then Panic
      else s_SetVec st o i x
  | SDM c r d =>
      if (i <? 0) || (i >=? r) then Panic
      else if (j <? 0) || (j >=? c) then Panic
      else
        row <- sget (st_o st) d i ;;
        m <- sset (st_v st) row j x ;;
        Ok (MkStore m (st_z st) (st_o st), SDM c r d)
  end.

(** [At]: the sparse types go through [Update], the dense types only read
    (csrMatrix.go:99-106, cscMatrix.go:107-114, denseMatrix.go:105-115,
    denseVector.go:132-134, sparseVector.go:116-123) *)
Definition s_At (st : store) (o : sobj) (i j : Z) : res (V * store * sobj) :=
  match o with
  | SDV _ _ | SDM _ _ _ => '(x, _) <- mat_At (view st o) i j ;; Ok (x, st, o)
  | _ => s_Update st o i j (fun v => (v, v))
  end.

(** the write half of [Map]: csrMatrix.go:396-400, cscMatrix.go:406-410,
    sparseVector.go:361-365, denseVector.go:349, denseMatrix.go:356 *)
Definition s_put (st : store) (o : sobj) (it : iter) (x : V) : res (store * sobj) :=
  match o, it with
  | SCSR r c v k s, ICSR i =>
      if negb (isz x) then m <- sset (st_v st) v (cri_index i) x ;; Ok (MkStore m (st_z st) (st_o st), o)
      else '(st', (v', k')) <- s_remove st v k s (cri_index i) (cri_r i) r ;; Ok (st', SCSR r c v' k' s)
  | SCSC r c v k s, ICSC i =>
      if negb (isz x) then m <- sset (st_v st) v (cci_index i) x ;; Ok (MkStore m (st_z st) (st_o st), o)
      else '(st', (v', k')) <- s_remove st v k s (cci_index i) (cci_c i) c ;; Ok (st', SCSC r c v' k' s)
  | SSV l v k, ISV i =>
      if negb (isz x) then m <- sset (st_v st) v (svi_old i) x ;; Ok (MkStore m (st_z st) (st_o st), o)
      else
        '(z, k') <- remove (sp_z1 sp) (st_z st) k (svi_old i) ;;
        '(m, v') <- remove (sp_v1 sp) (st_v st) v (svi_old i) ;;
        Ok (MkStore m z (st_o st), SSV l v' k')
  | SDV _ _, IDV i => s_SetVec st o (dvi_rOld i) x
  | SDM _ _ _, IDM i => s_Set st o (dmi_r i) (dmi_cOld i) x
  | _, _ => Panic
  end.

(** denseVector.go:88-100 [ReSize]: growing appends in place when there is room, shrinking
    appends to a nil slice *)
Definition s_ReSize (st : store) (o : sobj) (size : Z) : res (store * sobj) :=
  match o with
  | SDV l v =>
      '(m, v') <- (if size >? l then
                     arr <- make_slice n0 (size - l) ;; Ok (append (sp_v1 sp) (st_v st) v arr)
                   else if size <? l then
                     w <- to v (l - size) ;;
                     Ok (fresh (sp_v1 sp) (st_v st) (contents (st_v st) w))
                   else Ok (st_v st, v)) ;;
      Ok (MkStore m (st_z st) (st_o st), SDV (Z.of_nat (s_len v')) v')
  | _ => Panic
  end.

(** one new array for every row *)
Fixpoint fresh_rows (m : mem V) (rows : list (list V)) : mem V * list slice :=
  match rows with
  | [] => (m, [])
  | row :: rest =>
      let '(m1, s) := fresh [] m row in
      let '(m2, ss) := fresh_rows m1 rest in
      (m2, s :: ss)
  end.

(** A new object.  A function that makes one (New..., New...FromArray of the sparse types,
    Copy, RowsAt, ColumnsAt, Clear) writes only to arrays it has made itself; [build] makes
    them with their final content. *)
Definition build (st : store) (M : mat N) : store * sobj :=
  match M with
  | MCSR a =>
      let '(m, v) := fresh (sp_v1 sp) (st_v st) (csr_values a) in
      let '(z1, k) := fresh (sp_z1 sp) (st_z st) (csr_cols a) in
      let '(z2, s) := fresh [] z1 (csr_rowStart a) in
      (MkStore m z2 (st_o st), SCSR (csr_r a) (csr_c a) v k s)
  | MCSC a =>
      let '(m, v) := fresh (sp_v1 sp) (st_v st) (csc_values a) in
      let '(z1, k) := fresh (sp_z1 sp) (st_z st) (csc_rows a) in
      let '(z2, s) := fresh [] z1 (csc_colStart a) in
      (MkStore m z2 (st_o st), SCSC (csc_r a) (csc_c a) v k s)
  | MSV a =>
      let '(m, v) := fresh (sp_v1 sp) (st_v st) (sv_values a) in
      let '(z1, k) := fresh (sp_z1 sp) (st_z st) (sv_indices a) in
      (MkStore m z1 (st_o st), SSV (sv_l a) v k)
  | MDV a =>
      let '(m, v) := fresh [] (st_v st) (dv_values a) in
      (MkStore m (st_z st) (st_o st), SDV (dv_l a) v)
  | MDM a =>
      let '(m, rows) := fresh_rows (st_v st) (dm_data a) in
      let '(om, d) := fresh [] (st_o st) rows in
      (MkStore m (st_z st) om, SDM (dm_c a) (dm_r a) d)
  end.

(** ** Programs

    A program holds objects, slices [[]T] and slices of slices [[][]T], and names them by
    their number. *)
Inductive thing : Type := TObj (o : sobj) | TArr (s : slice) | TArr2 (d : slice).
(** the storage types *)
Inductive kind : Type := FCSR | FCSC | FDM | FDV | FSV.

(** the library calls are named at their clause in [do]; [AMake], [AMake2], [ASub], [APoke] and [APoke2] are the caller making, subslicing and writing slices *)
Inductive act : Type :=
(** the caller's own slices: new ones, a part of one, a write *)
| AMake (xs extra : list V) | AMake2 (xss : list (list V))
| ASub (t : nat) (lo hi : Z) | APoke (t : nat) (i : Z) (x : V) | APoke2 (t : nat) (i j : Z) (x : V)
(** constructors *)
| ANew (k : kind) (r c : Z) | AFrom (k : kind) (t : nat)
(** functions that return a new object or slice, and [RawMatrix] (denseMatrix.go:281-283) *)
| ACopy (t : nat) | ARow (t : nat) (r : Z) | ACol (t : nat) (c : Z) | ARowArr (t : nat) (r : Z) | ARaw (t : nat)
(** functions that change an object *)
| AUpdate (t : nat) (i j : Z) (f : V -> V) | ASet (t : nat) (i j : Z) (x : V) | AAt (t : nat) (i j : Z)
| ASetVec (t : nat) (i : Z) (x : V) | APut (t : nat) (it : iter) (x : V)
| AClear (t : nat) | AReSize (t : nat) (size : Z).

(** the thing of number [t], if it is of this sort *)
Definition the_obj (ts : list thing) (t : nat) : res sobj :=
  match nth_error ts t with Some (TObj o) => Ok o | _ => Panic end.
(** see the_obj *)
Definition the_arr (ts : list thing) (t : nat) : res slice :=
  match nth_error ts t with Some (TArr s) => Ok s | _ => Panic end.
(** see the_obj *)
Definition the_arr2 (ts : list thing) (t : nat) : res slice :=
  match nth_error ts t with Some (TArr2 s) => Ok s | _ => Panic end.

(** the constructors New... (a vector has no use for the second number) *)
Definition new_mat (k : kind) (r c : Z) : res (mat N) :=
  match k with
  | FCSR => rmap MCSR (NewCSRMatrix r c)
  | FCSC => rmap MCSC (NewCSCMatrix r c)
  | FDM => rmap MDM (newMatrix r c)
  | FDV => rmap MDV (newDenseVector r)
  | FSV => rmap MSV (NewSparseVector r)
  end.

(** the rows behind a slice of slices *)
Definition grid (st : store) (d : slice) : list (list V) := map (contents (st_v st)) (rows_of st d).

(** a new thing *)
Definition add (ts : list thing) (p : store * sobj) : store * list thing := (fst p, ts ++ [TObj (snd p)]).
(** a changed object *)
Definition put (ts : list thing) (t : nat) (p : store * sobj) : store * list thing := (fst p, list_set ts t (TObj (snd p))).

(** the step of a program (csrMatrix.go, cscMatrix.go, denseMatrix.go, denseVector.go,
    sparseVector.go: see s_Update, s_Set etc. and Mat.v; RawMatrix: denseMatrix.go:281-283;
    FromArray: denseMatrix.go:36-51, denseVector.go:31-46) *)
Definition do (st : store) (ts : list thing) (a : act) : res (store * list thing) :=
  match a with
  | AMake xs extra =>
      let '(m, s) := fresh extra (st_v st) xs in Ok (MkStore m (st_z st) (st_o st), ts ++ [TArr s])
  | AMake2 xss =>
      let '(m, rows) := fresh_rows (st_v st) xss in
      let '(om, d) := fresh [] (st_o st) rows in
      Ok (MkStore m (st_z st) om, ts ++ [TArr2 d])
  | ASub t lo hi =>
      s <- the_arr ts t ;; s1 <- to s hi ;; s2 <- from s1 lo ;; Ok (st, ts ++ [TArr s2])
  | APoke t i x =>
      s <- the_arr ts t ;; m <- sset (st_v st) s i x ;; Ok (MkStore m (st_z st) (st_o st), ts)
  | APoke2 t i j x =>
      d <- the_arr2 ts t ;; row <- sget (st_o st) d i ;; m <- sset (st_v st) row j x ;;
      Ok (MkStore m (st_z st) (st_o st), ts)
  | ANew k r c => M <- new_mat k r c ;; Ok (add ts (build st M))
  | AFrom FCSR t => d <- the_arr2 ts t ;; M <- NewCSRMatrixFromArray (grid st d) ;; Ok (add ts (build st (MCSR M)))
  | AFrom FCSC t => d <- the_arr2 ts t ;; M <- NewCSCMatrixFromArray (grid st d) ;; Ok (add ts (build st (MCSC M)))
  | AFrom FSV t => s <- the_arr ts t ;; M <- NewSparseVectorFromArray (contents (st_v st) s) ;; Ok (add ts (build st (MSV M)))
  (* denseVector.go:31-46, denseMatrix.go:36-51: the array made for the new object is dropped
     and the caller's is kept *)
  | AFrom FDV t => s <- the_arr ts t ;; Ok (st, ts ++ [TObj (SDV (Z.of_nat (s_len s)) s)])
  | AFrom FDM t =>
      d <- the_arr2 ts t ;; row0 <- sget (st_o st) d 0 ;;
      Ok (st, ts ++ [TObj (SDM (Z.of_nat (s_len row0)) (Z.of_nat (s_len d)) d)])
  | ACopy t => o <- the_obj ts t ;; M <- mat_Copy (view st o) ;; Ok (add ts (build st M))
  | ARow t r => o <- the_obj ts t ;; M <- mat_RowsAt (view st o) r ;; Ok (add ts (build st M))
  | ACol t c => o <- the_obj ts t ;; M <- mat_ColumnsAt (view st o) c ;; Ok (add ts (build st M))
  | ARowArr t r =>
      o <- the_obj ts t ;; xs <- mat_RowsAtToArray (view st o) r ;;
      let '(m, s) := fresh [] (st_v st) xs in Ok (MkStore m (st_z st) (st_o st), ts ++ [TArr s])
  | ARaw t => o <- the_obj ts t ;; match o with SDM _ _ d => Ok (st, ts ++ [TArr2 d]) | _ => Panic end
  | AUpdate t i j f =>
      o <- the_obj ts t ;; '(_, st', o') <- s_Update st o i j (fun x => (tt, f x)) ;; Ok (put ts t (st', o'))
  | ASet t i j x => o <- the_obj ts t ;; p <- s_Set st o i j x ;; Ok (put ts t p)
  | AAt t i j => o <- the_obj ts t ;; '(_, st', o') <- s_At st o i j ;; Ok (put ts t (st', o'))
  | ASetVec t i x => o <- the_obj ts t ;; p <- s_SetVec st o i x ;; Ok (put ts t p)
  | APut t it x => o <- the_obj ts t ;; p <- s_put st o it x ;; Ok (put ts t p)
  | AClear t => o <- the_obj ts t ;; M <- mat_Clear (view st o) ;; Ok (put ts t (build st M))
  | AReSize t size => o <- the_obj ts t ;; p <- s_ReSize st o size ;; Ok (put ts t p)
  end.

(** ** The same programs over values: every object and slice has its own content *)
Inductive lthing : Type := LObj (m : mat N) | LArr (xs : list V) | LArr2 (xss : list (list V)).

(** what a thing shows *)
Definition see (st : store) (t : thing) : lthing :=
  match t with
  | TObj o => LObj (view st o)
  | TArr s => LArr (contents (st_v st) s)
  | TArr2 d => LArr2 (grid st d)
  end.

(** the thing of number [t], if it is of this sort *)
Definition l_obj (ts : list lthing) (t : nat) : res (mat N) :=
  match nth_error ts t with Some (LObj o) => Ok o | _ => Panic end.
(** see l_obj *)
Definition l_arr (ts : list lthing) (t : nat) : res (list V) :=
  match nth_error ts t with Some (LArr s) => Ok s | _ => Panic end.
(** see l_obj *)
Definition l_arr2 (ts : list lthing) (t : nat) : res (list (list V)) :=
  match nth_error ts t with Some (LArr2 s) => Ok s | _ => Panic end.

(** the step of a program over values *)
Definition l_step (ts : list lthing) (a : act) : res (list lthing) :=
  match a with
  | AMake xs _ => Ok (ts ++ [LArr xs])
  | AMake2 xss => Ok (ts ++ [LArr2 xss])
  | ASub t lo hi => s <- l_arr ts t ;; s1 <- slice_to s hi ;; s2 <- slice_from s1 lo ;; Ok (ts ++ [LArr s2])
  | APoke t i x => s <- l_arr ts t ;; s' <- zset s i x ;; Ok (list_set ts t (LArr s'))
  | APoke2 t i j x =>
      d <- l_arr2 ts t ;; row <- zget d i ;; row' <- zset row j x ;; d' <- zset d i row' ;; Ok (list_set ts t (LArr2 d'))
  | ANew k r c => M <- new_mat k r c ;; Ok (ts ++ [LObj M])
  | AFrom FCSR t => d <- l_arr2 ts t ;; M <- NewCSRMatrixFromArray d ;; Ok (ts ++ [LObj (MCSR M)])
  | AFrom FCSC t => d <- l_arr2 ts t ;; M <- NewCSCMatrixFromArray d ;; Ok (ts ++ [LObj (MCSC M)])
  | AFrom FSV t => s <- l_arr ts t ;; M <- NewSparseVectorFromArray s ;; Ok (ts ++ [LObj (MSV M)])
  | AFrom FDV t => s <- l_arr ts t ;; M <- NewDenseVectorFromArray s ;; Ok (ts ++ [LObj (MDV M)])
  | AFrom FDM t => d <- l_arr2 ts t ;; M <- NewDenseMatrixFromArray d ;; Ok (ts ++ [LObj (MDM M)])
  | ACopy t => o <- l_obj ts t ;; M <- mat_Copy o ;; Ok (ts ++ [LObj M])
  | ARow t r => o <- l_obj ts t ;; M <- mat_RowsAt o r ;; Ok (ts ++ [LObj M])
  | ACol t c => o <- l_obj ts t ;; M <- mat_ColumnsAt o c ;; Ok (ts ++ [LObj M])
  | ARowArr t r => o <- l_obj ts t ;; xs <- mat_RowsAtToArray o r ;; Ok (ts ++ [LArr xs])
  | ARaw t => o <- l_obj ts t ;; match o with MDM s => Ok (ts ++ [LArr2 (dm_data s)]) | _ => Panic end
  | AUpdate t i j f => o <- l_obj ts t ;; M <- mat_Update o i j f ;; Ok (list_set ts t (LObj M))
  | ASet t i j x => o <- l_obj ts t ;; M <- mat_Set o i j x ;; Ok (list_set ts t (LObj M))
  | AAt t i j => o <- l_obj ts t ;; '(_, M) <- mat_At o i j ;; Ok (list_set ts t (LObj M))
  | ASetVec t i x => o <- l_obj ts t ;; M <- mat_SetVec o i x ;; Ok (list_set ts t (LObj M))
  | APut t it x => o <- l_obj ts t ;; M <- mat_map_put o it x ;; Ok (list_set ts t (LObj M))
  | AClear t => o <- l_obj ts t ;; M <- mat_Clear o ;; Ok (list_set ts t (LObj M))
  | AReSize t size =>
      o <- l_obj ts t ;;
      match o with MDV s => '(_, s') <- dv_ReSize s size ;; Ok (list_set ts t (LObj (MDV s'))) | _ => Panic end
  end.
End Stores.
Arguments store : clear implicits.
Arguments spare : clear implicits.
Arguments lthing : clear implicits.
Arguments act : clear implicits.

(** ** Whole programs; the spare room of every step is given *)
Section Runs.
Context {N : num}.
(** a program from a given state *)
Fixpoint do_all (sp : nat -> spare N) (st : store N) (ts : list thing) (p : list (act N)) : res (store N * list thing) :=
  match p with
  | [] => Ok (st, ts)
  | a :: p' => '(st', ts') <- do (sp O) st ts a ;; do_all (fun n => sp (Datatypes.S n)) st' ts' p'
  end.
(** a program from the beginning *)
Definition run (sp : nat -> spare N) (p : list (act N)) : res (store N * list thing) := do_all sp (MkStore [] [] []) [] p.
(** a program over values *)
Definition l_run (p : list (act N)) : res (list (lthing N)) := rfold l_step [] p.
End Runs.

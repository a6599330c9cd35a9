(** Functions given to [Update] and to an iterator's [Map] that do more than compute: they
    may call the API, on the same object or others, and they may panic.  In the other
    files they are pure functions.  Here the methods are written as the code does it: look
    for the element, call the function, then write with what was found before the call. *)
From Coq Require Import String.
From Verif Require Import GoBase Num SparseVec Csr Csc DenseVec DenseMat Mat World Ops Spec Api Iters.

Section Callbacks.
Context {N : num}.
Notation V := (T N).
Notation mat := (mat N).
Notation ent := (Z * Z * V)%type.
Notation world := (world N).
Notation M := (M N).
Implicit Types w : world.
Implicit Types m : mat.

(** ** The program *)

(** the local variables of [Update] at the time of the call of [f]: [pointerStart], and
    which branch it is in (csrMatrix.go:82-93, cscMatrix.go:90-101).  The other types keep
    nothing but [r] and [c]. *)
Inductive found : Type := FHit (pointer : Z) | FMiss (pointer : Z) | FCell.

(** [Update] up to the call of [f]; also the argument of [f]: csrMatrix.go:73-85, 93,
    cscMatrix.go:81-93, 101, denseMatrix.go:90-99, denseVector.go:118-127,
    sparseVector.go:102-111 *)
Definition mat_find m (r c : Z) : res (found * V) :=
  match m with
  | MCSR s =>
      if (r <? 0) || (r >=? csr_r s) then Panic
      else if (c <? 0) || (c >=? csr_c s) then Panic
      else
        '(ps, pe) <- csr_columnIndex s r c ;;
        hit <- csr_hit s ps pe c ;;
        if hit then v <- zget (csr_values s) ps ;; Ok (FHit ps, v) else Ok (FMiss ps, n0)
  | MCSC s =>
      if (r <? 0) || (r >=? csc_r s) then Panic
      else if (c <? 0) || (c >=? csc_c s) then Panic
      else
        '(ps, pe) <- csc_rowIndex s r c ;;
        hit <- csc_hit s ps pe r ;;
        if hit then v <- zget (csc_values s) ps ;; Ok (FHit ps, v) else Ok (FMiss ps, n0)
  | MDM s =>
      if (r <? 0) || (r >=? dm_Rows s) then Panic
      else if (c <? 0) || (c >=? dm_Columns s) then Panic
      else v <- dm_read s r c ;; Ok (FCell, v)
  | MDV s =>
      if (r <? 0) || (r >=? dv_Rows s) then Panic
      else if (c <? 0) || (c >=? dv_Columns s) then Panic
      else v <- dv_AtVec s r ;; Ok (FCell, v)
  | MSV s =>
      if (r <? 0) || (r >=? sv_Rows s) then Panic
      else if (c <? 0) || (c >=? sv_Columns s) then Panic
      else v <- sv_AtVec s r ;; Ok (FCell, v)
  end.

(** [Update] after [f] has returned [value]; [m] is what the object is by then:
    csrMatrix.go:86-93, cscMatrix.go:94-101, denseMatrix.go:99, denseVector.go:128,
    sparseVector.go:112.  In [s.data[r][c] = f(s.data[r][c])] Go does not say whether
    [s.data[r]] on the left is evaluated before the call; this matters only to a function
    that calls [Clear] on the same matrix, and is taken to be after it. *)
Definition mat_finish m (r c : Z) (fd : found) (value : V) : res mat :=
  match m, fd with
  | MCSR s, FHit ps =>
      if isz value then rmap MCSR (csr_remove s ps r)
      else vs <- zset (csr_values s) ps value ;;
           Ok (MCSR {| csr_r := csr_r s; csr_c := csr_c s; csr_values := vs;
                       csr_cols := csr_cols s; csr_rowStart := csr_rowStart s |})
  | MCSR s, FMiss ps => '(_, s') <- csr_insert s ps r c value ;; Ok (MCSR s')
  | MCSC s, FHit ps =>
      if isz value then rmap MCSC (csc_remove s ps c)
      else vs <- zset (csc_values s) ps value ;;
           Ok (MCSC {| csc_r := csc_r s; csc_c := csc_c s; csc_values := vs;
                       csc_rows := csc_rows s; csc_colStart := csc_colStart s |})
  | MCSC s, FMiss ps => '(_, s') <- csc_insert s ps r c value ;; Ok (MCSC s')
  | MDM s, FCell => rmap MDM (dm_write s r c value)
  | MDV s, FCell => rmap MDV (dv_SetVec s r value)
  | MSV s, FCell => rmap MSV (sv_SetVec s r value)
  | _, _ => Panic (* an object does not change its type *)
  end.

(** [p.Update(r, c, f)] (the lines above) *)
Definition p_UpdateM (p : ptr) (r c : Z) (f : V -> M V) : M unit :=
  let! m := load p in
  let! '(fd, v) := mlift (mat_find m r c) in
  let! x := f v in
  let! m1 := load p in
  let! m2 := mlift (mat_finish m1 r c fd x) in
  store p m2.

(** [it.Map(f)] (csrMatrix.go:393-401, cscMatrix.go:403-411, denseMatrix.go:353-357,
    denseVector.go:346-350, sparseVector.go:357-366): the world, the iterator and the
    outcome afterwards.  The iterator has moved when [f] is called.  An iterator whose
    [next] has panicked is not described further. *)
Definition p_MapM (p : ptr) (it : iter) (f : Z -> Z -> V -> M V) w : world * iter * res unit :=
  match nth_error (w_heap w) p with
  | None => (w, it, Panic)
  | Some m =>
      match mat_Next m it with
      | Ok (e, it') =>
          let '(w', out) :=
            (let! x := f (fst (fst e)) (snd (fst e)) (snd e) in
             let! m1 := load p in
             let! m2 := mlift (mat_map_put m1 it' x) in
             store p m2) w in
          (w', it', out)
      | Panic => (w, it, Panic)
      | Diverge => (w, it, Diverge)
      end
  end.

(** [for it.HasNext() { it.Map(f) }] with at most [fuel] rounds, as the program may write
    it (the code does in operators.go:337-350, 382-390, 559-565) *)
Fixpoint p_MapAllM (fuel : nat) (p : ptr) (it : iter) (f : Z -> Z -> V -> M V) w : world * res unit :=
  if mat_HasNext it then
    match fuel with
    | O => (w, Diverge)
    | S fuel' =>
        match p_MapM p it f w with
        | (w', it', Ok _) => p_MapAllM fuel' p it' f w'
        | (w', _, Panic) => (w', Panic)
        | (w', _, Diverge) => (w', Diverge)
        end
    end
  else (w, Ok tt).

(** ** Specification *)

(** [w1] comes from [w] by allowed calls: what a function may do.  [P] holds after each. *)
Inductive later (P : world -> Prop) : world -> world -> Prop :=
| later_refl w : later P w w
| later_call w w1 c : later P w w1 -> allowed w1 c -> P (after c w1) -> later P w (after c w1).

(** there are as many elements before [q] as there were, and [q] is stored if it was;
    nothing is asked of objects that are not CSR or CSC matrices *)
Definition same_slot m (l l1 : list ent) (q : Z * Z) : Prop :=
  lined m = true ->
  length (filter (precedes m q) l1) = length (filter (precedes m q) l) /\
  (In q (map fst l1) <-> In q (map fst l)).

End Callbacks.

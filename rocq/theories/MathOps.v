(** The packages under math/: symmetric, skewsymmetric, reduced (row echelon form)
    and strassen. *)
From Coq Require Import String.
From Verif Require Import GoBase Num SparseVec Csr Csc DenseVec DenseMat Mat World Ops.

Section MathOps.
Context {N : num}.
Notation V := (T N).
Notation M := (M N).

(** math/symmetric/symmetric.go:14-23 [Symmetric] *)
Definition Symmetric (E : env) (s : ptr) : M bool :=
  let! r := p_Rows s in
  let! c := p_Columns s in
  if negb (r =? c) then mret false
  else
    let! t := m_Transpose E s in
    m_Equal E t (Some s).

(** math/skewsymmetric/skewSymmetric.go:14-24 [SkewSymmetric] *)
Definition SkewSymmetric (E : env) (s : ptr) : M bool :=
  let! r := p_Rows s in
  let! c := p_Columns s in
  if negb (r =? c) then mret false
  else
    let! n := m_Negative E s in
    let! t := m_Transpose E n in
    m_Equal E t (Some s).

(** ** math/reduced/reduced.go *)

(** reduced.go:25-35, the search for a pivot: [Some (i, lead)], or [None] when
    the last column is passed (the function returns).  The loop is given [fuel]
    rounds. *)
Fixpoint pivot_search (fuel : nat) (m : ptr) (rowCount columnCount r i lead : Z) : M (option (Z * Z)) :=
  match fuel with
  | O => mdiverge
  | S fuel' =>
      let! v := p_At m i lead in
      if neqb v n0 then
        if rowCount =? i + 1 then
          if columnCount =? lead + 1 then mret None
          else pivot_search fuel' m rowCount columnCount r r (lead + 1)
        else pivot_search fuel' m rowCount columnCount r (i + 1) lead
      else mret (Some (i, lead))
  end.

(** [for c := 0; c < len(v); c++ { body(c, v[c]) }] (math/reduced/reduced.go:15-77) *)
Definition for_values (v : list V) (body : Z -> V -> M unit) : M unit :=
  let! _ := for_list (R := unit) (zrange 0 (zlen v)) (fun c =>
    let! x := mlift (zget v c) in
    body c x ;!; mret None) in
  mret tt.

(** reduced.go:37-48, exchanging rows [i] and [r] *)
Definition swap_rows (m : ptr) (i r : Z) : M unit :=
  if negb (i =? r) then
    let! v1 := p_RowsAtToArray m i in
    let! v2 := p_RowsAtToArray m r in
    for_values v1 (fun c x => p_Set m r c x) ;!;
    for_values v2 (fun c x => p_Set m i c x)
  else mret tt.

(** reduced.go:50-57, dividing row [r] by its pivot *)
Definition scale_row (m : ptr) (r lead : Z) : M unit :=
  let! x := p_At m r lead in
  let! f := mlift (ndiv n1 x) in
  let! vector := p_RowsAtToArray m r in
  for_values vector (fun c value => p_Set m r c (nmul value f)).

(** reduced.go:59-72, clearing column [lead] in the other rows *)
Definition clear_column (m : ptr) (rowCount r lead : Z) : M unit :=
  let! _ := for_list (R := unit) (zrange 0 rowCount) (fun i =>
    if negb (i =? r) then
      let! f := p_At m i lead in
      let! vector := p_RowsAtToArray m r in
      for_values vector (fun c value => p_Update m i c (fun v => nsub v (nmul value f))) ;!;
      mret None
    else mret None) in
  mret tt.

(** reduced.go:21-74, the loop over the rows; [n] rows are left *)
Fixpoint reduce_rows (fuel : nat) (m : ptr) (rowCount columnCount : Z) (n : nat) (r lead : Z) : M unit :=
  match n with
  | O => mret tt
  | S n' =>
      if lead >=? columnCount then mret tt
      else
        let! o := pivot_search fuel m rowCount columnCount r r lead in
        match o with
        | None => mret tt
        | Some (i, lead) =>
            swap_rows m i r ;!;
            scale_row m r lead ;!;
            clear_column m rowCount r lead ;!;
            reduce_rows fuel m rowCount columnCount n' (r + 1) (lead + 1)
        end
  end.

(** math/reduced/reduced.go:15-77 [Reduced] *)
Definition Reduced (E : env) (s : ptr) : M ptr :=
  let! m := p_Copy s in
  let! rowCount := p_Rows m in
  let! columnCount := p_Columns m in
  reduce_rows (e_fuel E) m rowCount columnCount (Z.to_nat rowCount) 0 0 ;!;
  mret m.

(** ** math/strassen/strassen.go *)

(** [dst.Set(r', c', src.At(r, c))], strassen.go:54-62, 98-101 *)
Definition copy_cell (dst src : ptr) (r c r' c' : Z) : M unit :=
  let! v := p_At src r c in
  p_Set dst r' c' v.

(** [for r := 0; r < rows; r++ { for c := 0; c < columns; c++ { select { case <-ctx.Done():
    break; default: body } } }]; the [break] only leaves the select
    (math/strassen/strassen.go:23-107) *)
Definition grid (E : env) (rows columns : Z) (body : Z -> Z -> M unit) : M unit :=
  let! _ := for_list (R := unit) (zrange 0 rows) (fun r =>
    for_list (zrange 0 columns) (fun c =>
      let! d := poll E in
      (if d then mret tt else body r c) ;!; mret None)) in
  mret tt.

(** math/strassen/strassen.go:23-107: NewDenseMatrixN *)
Definition new_dense (r c : Z) : M ptr :=
  let! d := mlift (newMatrix r c) in alloc (MDM d).

(** the pointer received under number [i]; a nil entry of the array panics when used
    (math/strassen/strassen.go:23-107) *)
Fixpoint received (i : Z) (l : list (Z * ptr)) : M ptr :=
  match l with
  | [] => mpanic
  | (j, p) :: rest => if j =? i then mret p else received i rest
  end.

(** strassen.go:67-81, the seven goroutines and the loop that collects their
    results, in the order of arrival [order].  Simplification: each goroutine's
    computation is one step.  The goroutines share no object that any of them
    modifies (they read the operands and modify only objects they allocate), and
    the operands are computed by the caller before the goroutines start.
    FineStrassen.v has the steps of the goroutines one by one. *)
Definition gather (run : Z -> M ptr) : list Z -> M (list (Z * ptr)) :=
  fix go order :=
    match order with
    | [] => mret []
    | i :: rest =>
        let! p := run i in
        let! l := go rest in
        mret ((i, p) :: l)
    end.

(** strassen.go:37-75: dividing the operands and computing the operands of the
    seven sub-products; the result maps a sub-product's number to its operands *)
Definition operands (E : env) (size : Z) (a b : ptr) : M (Z -> ptr * ptr) :=
  let! a11 := new_dense size size in
  let! a12 := new_dense size size in
  let! a21 := new_dense size size in
  let! a22 := new_dense size size in
  let! b11 := new_dense size size in
  let! b12 := new_dense size size in
  let! b21 := new_dense size size in
  let! b22 := new_dense size size in
  grid E size size (fun r c =>
    copy_cell a11 a r c r c ;!;
    copy_cell a12 a r (c + size) r c ;!;
    copy_cell a21 a (r + size) c r c ;!;
    copy_cell a22 a (r + size) (c + size) r c ;!;
    copy_cell b11 b r c r c ;!;
    copy_cell b12 b r (c + size) r c ;!;
    copy_cell b21 b (r + size) c r c ;!;
    copy_cell b22 b (r + size) (c + size) r c) ;!;
  let! x1 := m_Add E a11 a22 in
  let! y1 := m_Add E b11 b22 in
  let! x2 := m_Add E a21 a22 in
  let! y3 := m_Subtract E b12 b22 in
  let! y4 := m_Subtract E b21 b11 in
  let! x5 := m_Add E a11 a12 in
  let! x6 := m_Subtract E a21 a11 in
  let! y6 := m_Add E b11 b12 in
  let! x7 := m_Subtract E a12 a22 in
  let! y7 := m_Add E b21 b22 in
  mret (fun i =>
    if i =? 1 then (x1, y1)
    else if i =? 2 then (x2, b11)
    else if i =? 3 then (a11, y3)
    else if i =? 4 then (a22, y4)
    else if i =? 5 then (x5, b22)
    else if i =? 6 then (x6, y6)
    else (x7, y7)).

(** strassen.go:83-106: putting the received sub-products together *)
Definition combine (E : env) (m : list (Z * ptr)) : M ptr :=
  let! m1 := received 1 m in
  let! m2 := received 2 m in
  let! m3 := received 3 m in
  let! m4 := received 4 m in
  let! m5 := received 5 m in
  let! m6 := received 6 m in
  let! m7 := received 7 m in
  let! u := m_Add E m1 m4 in
  let! u := m_Subtract E u m5 in
  let! c11 := m_Add E u m7 in
  let! c12 := m_Add E m3 m5 in
  let! c21 := m_Add E m2 m4 in
  let! u := m_Subtract E m1 m2 in
  let! u := m_Add E u m3 in
  let! c22 := m_Add E u m6 in
  let! shift := p_Rows c11 in
  let! matrix := new_dense (shift * 2) (shift * 2) in
  let! columns := p_Columns c11 in
  grid E shift columns (fun r c =>
    copy_cell matrix c11 r c r c ;!;
    copy_cell matrix c12 r c r (c + shift) ;!;
    copy_cell matrix c21 r c (r + shift) c ;!;
    copy_cell matrix c22 r c (r + shift) (c + shift)) ;!;
  mret matrix.

(** strassen.go:23-107 [MultiplyCrossoverPoint], strassen.go:109-114 [subMatrixM].
    [sched path] is the order in which the seven sub-products arrive in the call
    reached from the first call by the sub-product numbers [path].  The recursion
    is given [fuel] levels. *)
Fixpoint strassen (fuel : nat) (E : env) (sched : list Z -> list Z) (path : list Z) (a b : ptr) (crossover : Z) : M ptr :=
  let! ac := p_Columns a in
  let! br := p_Rows b in
  if negb (ac =? br) then mpanic
  else
    let! n := p_Rows b in
    if n <=? crossover then
      let! ar := p_Rows a in
      let! bc := p_Columns b in
      let! matrix := new_dense ar bc in
      MatrixMatrixMultiply E a b MNil matrix ;!;
      mret matrix
    else
      match fuel with
      | O => mdiverge
      | S fuel' =>
          let! ops := operands E (Z.quot n 2) a b in
          let! m := gather (fun i => strassen fuel' E sched (i :: path) (fst (ops i)) (snd (ops i)) crossover) (sched path) in
          combine E m
      end.

(** math/strassen/strassen.go:23-107 *)
Definition MultiplyCrossoverPoint (E : env) (sched : list Z -> list Z) (a b : ptr) (crossover : Z) : M ptr :=
  strassen (e_fuel E) E sched [] a b crossover.

(** strassen.go:17-19 [Multiply] *)
Definition strassen_Multiply (E : env) (sched : list Z -> list Z) (a b : ptr) : M ptr :=
  MultiplyCrossoverPoint E sched a b 64.

End MathOps.

(** Breadth-first search (breadthfirst/breadthFirst.go). *)
From Verif Require Import GoBase Num SparseVec Csr Csc DenseVec DenseMat Mat World Ops.

Section Bfs.
Context {N : num}.
Notation mat := (mat N).
Notation M := (M N).

(** breadthfirst/breadthFirst.go:30-43, the loop with [k] rounds left, the
    [d]-th call of [c] next.

    The callback is a function of the number of the call and of the vector it
    is shown (a Go callback is an arbitrary closure; in one run its answers are
    some function of the call's number).  It only looks at the vector.

    The list returned is not part of the Go code: it records the vectors [c]
    was shown. *)
Fixpoint search_loop (E : env) (a : ptr) (c : nat -> mat -> bool) (visited result : ptr) (k d : nat) (frontier : ptr)
    : M (list mat) :=
  match k with
  | O => mret []
  | S k' =>
      MatrixVectorMultiply E a frontier (MObj visited) result ;!;
      let! shown := load result in
      if c d shown then mret [shown]
      else
        ElementWiseVectorAdd E visited result MNil visited ;!;
        let! frontier' := p_Copy result in
        p_Clear result ;!;
        let! rest := search_loop E a c visited result k' (S d) frontier' in
        mret (shown :: rest)
  end.

(** breadthfirst/breadthFirst.go:16-46 [Search]; [n], the number of rounds, is
    [a.Rows()], which is never negative *)
Definition Search (E : env) (a : ptr) (s : Z) (c : nat -> mat -> bool) : M (ptr * list mat) :=
  let! n := p_Rows a in
  let! f := mlift (newDenseVector n) in
  let! frontier := alloc (MDV f) in
  p_SetVec frontier s n1 ;!;
  let! visited := p_Copy frontier in
  let! r := mlift (newDenseVector n) in
  let! result := alloc (MDV r) in
  let! trace := search_loop E a c visited result (Z.to_nat n) 1 frontier in
  mret (result, trace).
End Bfs.

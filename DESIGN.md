# Formal model of rossmerr/graphblas in Rocq (Coq 8.16.1)

The Go source was read as text only; nothing was built or run.  `properties.jsonl` lists what
is claimed, `MANIFEST.json` which theorems say it, `rocq/theories` contains model and proofs,
`seeded/LOG.jsonl` the attempts to break the theorems with wrong programs.

## How to read a result

* A property with status `proved` holds of the model as stated.
* A property with status `partial` is either false of the code or proved with a restriction.
  If it is false there is a theorem `Cxx_..._refuted` (a computed witness, or a general
  statement of the failure), and theorems `Cxx_..._partial` that say exactly what the code
  does instead or under which condition the claim holds.  The note in the manifest says which.
* Every property file (`Prop*.v`) contains only theorems closed by `exact`, each followed by
  `Print Assumptions`, and concrete cases (`Example Cxx_case`) that meet the hypotheses.

## Trusted base

* Coq's kernel (8.16.1) and its standard library.  No axioms are used: `Print Assumptions`
  answers "Closed under the global context" for every property theorem.  (Loading the
  library also loads the seven declarations of `Coq.ssr.ssrunder`; no theorem uses them.)
* `vm_compute` is used for concrete cases; it is part of the kernel.
* That the definitions in the model files say what the Go code says.  Each definition cites
  file and lines and mentions its simplifications; they are collected below.
* That the statements in the `Prop*.v` files, with the definitions in `Spec.v` they use, say
  what `properties.jsonl` says.

## Layout (rocq/theories)

| file | content |
|---|---|
| `GoBase.v` | outcomes `res` (`Ok`/`Panic`/`Diverge`), checked slice accesses |
| `Num.v` | element types: the record `num`; int8..int64, int, uint8..uint64, uint, uintptr with wrap-around, float32 and float64 (IEEE 754, `SpecFloat`), exact integers and rationals |
| `SparseVec.v` `Csr.v` `Csc.v` `DenseMat.v` `DenseVec.v` | the storage types, function by function |
| `Mat.v` | interface dispatch over the five storage types; the registry as a set of names |
| `World.v` | heap of objects, masks, contexts, the state monad (the state survives a panic) |
| `Ops.v` | operators.go and the methods that call it |
| `Api.v` | histories of calls: `call`, `perform`, `reachable` |
| `ReduceConc.v` | the three goroutines of ReduceMatrixToScalarWithMonoID, step by step |
| `MathOps.v` `Bfs.v` `SortModel.v` | math/*, breadthfirst, sort |
| `Mutex.v` `MutexNest.v` | MutexMatrix under concurrency; calls made during other calls |
| `Wrapped.v` | a caller's type that wraps a matrix, as operand or output of the operators |
| `Access.v` `AccessConc.v` | the methods as sequences of memory accesses; goroutines interleaving them; data races |
| `Fine.v` `FineConc.v` | the functions as trees of steps; goroutines that call them at the same time, without locks |
| `FineStrassen.v` `FineCancel.v` | the goroutines of Strassen's multiplication, step by step; the context becoming done meanwhile |
| `Registry.v` `Ctx.v` `Operators.v` | matrixRegistry.go, context.go, the built-in operators |
| `Iters.v` | iterators held open during a history of calls |
| `Callbacks.v` `BfsCall.v` `ApplyMem.v` `MaskMem.v` | functions given to Update, Map and Search that call the API; functions given to Apply, and masks, that keep memory |
| `Foreign.v` | operands of the caller's own matrix types |
| `Sink.v` | outputs of the caller's own matrix types |
| `Shared.v` | masks, outputs and functions of the caller's that share memory |
| `Refuse.v` | specification for operands of the caller's whose methods panic or do not return |
| `Judge.v` | Compare, Less, Greater and String of matrices of the caller's types; specification of comparisons |
| `Inplace.v` | Negative, and Apply in place, with a matrix of the caller's type |
| `Slices.v` | the storage types over slices of shared arrays, programs of calls and slice accesses |
| `Spec.v` `VecHist.v` | the specifications used in theorem statements |
| `*Proofs.v` `*Thms.v` `*Props.v` `*Witness.v` `Steps.v` `ReduceVec.v` `ReduceSv.v` `ReduceFormat.v` `SlicesRoom.v` `*More.v` `Access{Race,Clash,Sim}.v` `FineRel.v` `FineCalm.v` `FineStrassen{Rel,Inv,Step}.v` `FineSafe.v` `FineSame.v` `FineAlone.v` `FineCells.v` `IterKin.v` `IterPut.v` `MaskMem{Sim,Ops}.v` `ForeignOps.v` `SinkLib.v` `SharedLib.v` `RefuseLib.v` | lemmas and witnesses |
| `Laws.v` | expressions of dense matrices, their meaning, the laws of matrix algebra |
| `InPlace.v` `InPlaceWitness.v` | operators whose output is one of their operands |
| `Prop*.v` | the property theorems |

## What is modelled

All of csrMatrix.go, cscMatrix.go, sparseVector.go, denseMatrix.go, denseVector.go,
operators.go, mask.go, mutexMatrix.go, matrixRegistry.go, context.go, default.go,
binaryop/, operators/, math/symmetric, math/skewsymmetric, math/strassen, math/reduced,
breadthfirst, sort/bubble.go.  The files in centrality/, clustering/ and shortestPath/ hold
only a package clause.

Not modelled: the text of panic messages and logging; matrix types written by the caller,
except those that pass every method on (`Wrapped.v`), operands with pure methods
(`Foreign.v`, C80; `Refuse.v`, C83, if some do not return; `Judge.v`, C84, for comparisons) and outputs that do not call the library (`Sink.v`, C81; with masks and functions that share their memory `Shared.v`, C82; written through their Map iterator `Inplace.v`, C85; elsewhere operands and outputs are the library's five storage types); unaryop/ and the interface files matrix.go,
vector.go, enumerate.go, map.go as such (their content is the dispatch in `Mat.v`);
time, memory consumption and running out of memory.

## Modelling decisions

* **Numbers.** Indices are unbounded `Z`; slices cannot have 2^63 elements, and where the code
  multiplies dimensions (`make` of rows*columns, iterator sizes) the theorems carry the
  hypothesis that the product is below 2^63.  Element values belong to a `num`, an arbitrary
  record of operations, so a theorem for all `num` covers wrap-around integers and floats
  with NaN and -0.  Laws are hypotheses only where used: `sane` (zero is zero, negation keeps
  non-zeros: proved for every Go type), `eq_ok` (== is equality: integers), `cmp_ok`,
  `ring_ok`, `order_ok` (integers), `field_ok` (exact rationals), `counting` (BFS).
  Floats follow IEEE 754 operation by operation; Go may fuse a multiplication and an
  addition into one rounding on some platforms, which is not modelled.
* **Outcomes.** Index out of range, `log.Panicf`, nil dereference and integer division by zero
  are `Panic`.  Loops over iterators carry fuel; theorems hold for all sufficiently large
  fuel, and "does not terminate" means `Diverge` for every fuel.
* **Objects** live in a heap and operators take pointers, so identity tests (`m == matrix`),
  aliasing of operands, masks and outputs, and mutation during iteration are modelled.  A
  pointer to nothing stands for nil.
* **Histories.** `reachable w`: `w` arises from the empty heap by any sequence of calls (the
  constructors, methods and operators of `Api.v`), with any arguments and any aliasing; a
  panic is recovered and the history goes on.  Restrictions (`allowed`): sizes are not
  negative and within int64, arrays for dense matrices are rectangular, and a function
  mapped in place over a sparse matrix takes out only elements that are the last stored ones
  of their line (row of a CSR, column of a CSC matrix) or in the last line that has any (C16,
  C55 show what happens otherwise).
* **Contexts.** Within the operators a context is "never done" or "found done from the k-th
  test on", with k arbitrary.  `Ctx.v` treats nesting of contexts.
* **Callbacks** are pure functions of their arguments; a user-defined mask is a pure predicate
  (a MutexMatrix, which can serve as a mask, is one while nobody writes to it).  Except in
  `Callbacks.v` (C75): there the functions given to Update and to an iterator's Map may make any
  allowed calls and may panic.  The order of evaluation that Go leaves open (the operands of
  `s.data[r][c] = f(...)` and of `Set(s.r, s.cOld, f(...))`) is taken to be "after the call"; it
  matters only to functions that Clear the same dense matrix or move the same iterator.  The
  function given to Apply in `ApplyMem.v` (C78) may keep memory of any type and may panic or not
  return, but does not call the library.  The
  callback of BFS in `BfsCall.v` (C76) may be any program that leaves alone the objects it has no
  access to.  The mask of an
  operator in `MaskMem.v` (C79) may keep memory, panic or not return, but does not call the library.
  The functions of UnaryOp and BinaryOp, and masks everywhere else, stay pure.
* **Panics inside a method** leave the object as it was before the method (the storage
  methods check before they write); an operator that panics half way keeps its partial writes.
* **Slices** are lists in all files but `Slices.v`.  There an object holds slices (array,
  offset, length, capacity) of arrays in a store, `append` writes in place when there is room
  and otherwise allocates with arbitrary spare room, and programs mix library calls with the
  caller's own reads and writes.  C64 proves that programs that share nothing behave as in the
  list models, and that no program sees the spare room unless it resizes to a negative size.  Constructors, copies, rows, columns and Clear build their arrays in one step
  with the final contents; operators and the other functions built from these calls are not
  repeated at this level.
* **DenseMatrix/DenseMatrixNumber** and DenseVector/DenseVectorNumber are merged: same
  representation, same behaviour of the shared methods.  Go's type checker keeps them apart: the
  results of Transpose, RowsAt, ColumnsAt and CopyLogical of dense types have no arithmetic methods
  and cannot be operands or outputs of the arithmetic operators.  The model allows them to be, so
  the theorems cover more programs than there are; the witnesses of refutations use none of these.
  The name under which the registry looks up either is that of DenseMatrix (DenseVector) in the
  model, a difference only to programs that register a dense type as sparse.
* **Strassen**: in `MathOps.v` each of the seven goroutines runs as one step, in an arbitrary
  order of arrival chosen separately for every call.  In `FineStrassen.v` the goroutines of all
  levels take turns step by step (the steps of `Fine.v`, the `go` statements, the receives from
  the unbuffered channel); C72 proves that this makes no difference when the context is never
  done or done from the start.  In `FineCancel.v` the context becomes done at any moment of such
  an execution (C73), for all goroutines of the call at once.
* **Reduction**: every step of the three goroutines (channel operations, selects, reads of the
  operand and the mask) interleaves freely; nobody else changes the operand meanwhile.
* **MutexMatrix**: the RWMutex follows its documented behaviour, including writer preference.
  In `Mutex.v` the body of a locked call is two steps (read the object, change it).  In
  `Access.v`, `AccessConc.v` every read and write of a field, slice header or element is a step
  of its own; C69 proves that the outcomes are still sequential ones, C68 says which calls race
  in the sense of the Go memory model.  A slice field and its array are one list there, so a write
  through a stale slice header is not told from one through the current header (a difference only
  in programs that race on the header).  Reads see the last write, also in programs with a race.
  `WReads p` stands for the methods that only look at the wrapped matrix (Scalar, Multiply, Add,
  Subtract, Negative, Transpose, Equal and NotEqual); Add, Equal and NotEqual
  of sparse types the registry does not know (C52) call At on it, which writes back.
* **Wrapped matrices** (C77): `Wrapped.v` has the operators that can tell a caller's wrapper from the
  matrix inside (by the name of its type or by `==`), with wrappers, nested or not, by pointer or by
  value, for operands and outputs.  One name stands for one type, and a wrapper has no field but
  the matrix when it is compared by value.
* **Goroutines without locks** (`Fine.v`, `FineConc.v`): the functions of World, Ops, MathOps
  (without Strassen), Bfs and Api are repeated as trees of steps; a step tests the context, reads
  an object, writes an object, or allocates one, and `FineProofs.v` proves the trees equal to the
  sequential functions.  At and Element that write back are two steps.  A method that changes an
  object is two steps (read, write), not one per element.  Every goroutine counts its own
  tests of the context.
* **BFS**: in `Bfs.v` the callback only looks at the vector it is given; in `BfsCall.v` it may do
  more, but then the context is never done.
* **Sort**: runes are integers; Compare's text is built as UTF-8 with replacement of invalid
  runes; growth of the builder is not limited.
* **reflect**: a type is told by package, name and element type.

* **Iterators** (C74): an iterator is the pointer of its object and its counters; histories
  may hold any number of them while other calls go on.  A panicked iterator is not used
  again.  Map with a zero result is left out where the iterator is within a line whose counts
  no longer fit: it would remove an element of another line and leave the row starts wrong.
  Map is two events, moving on and writing back, with the effects of its function in between.

## How the proofs go

Storage (C01-C16, C55): refinement of the arrays to a sorted association list per row or
column, then to a total map (`denotes`); induction on the history.  Loops that take elements
out (`MapLag.v`, `MapZero*.v`): the iterator with its stale counters is related to the
iterator that would have seen the shorter matrix from the start.  Open iterators (C74): an
invariant relates the counters of each to a place described without them, along the history.
Functions that call the API (C75): the search before the call and the write after it are
lemmas of their own; the write is at a remembered place of whatever matrix is there by then.
Operators (C17-C31, C35,
C36, C56-C58): loop lemmas reduce an iterator loop to a fold over the entries; where the code
violates the property, a witness is computed and the exact result is proved.  Apply with memory (C78): the same
loops, with the memory threaded through.  Masks with memory (C79): a simulation between the operator
that writes down the answers and the operator with a predicate that gives them; the order of the
questions by induction on the elements.  Foreign operands (C80): the loop over a library object is
turned into the loop over the list of its elements, and one invariant gives the cells of the output
after each prefix of the list.  Foreign outputs (C81): each piece of code is matched with the list of calls it makes, and
pieces compose by appending the lists; a simulation carries this over to the library's own objects as outputs.  Shared memory (C82): the same with
questions and calls in one list; the simulation is with the operators of `MaskMem.v`.
Refusals (C83): as C82, with a count of the questions to the context before each thing done.  Reductions
(C32-C34, C59, C61): an invariant with a measure on the transition system.  Math (C37-C42):
Strassen by induction on the recursion for every arrival order; reduced row echelon form by
loop invariants over a field.  Expressions
(C66): structural induction with one lemma per method, the laws by ring sums.  Output = operand (C67): induction on the positions in the order visited, the invariant giving the cells as they are after a prefix.  BFS (C43, C44, C65): induction on the levels, counting walks;
for cancellation also counting the questions asked to the context (`until_done`, `in_time`); with a callback that acts (C76), induction on the rounds, with an
invariant of the callback that only depends on objects it knows.
Sort (C45-C48): exchange-sort invariant, and UTF-8 keeps the order of code points.  MutexMatrix
(C49, C50, C60): the order in which the locks are taken gives a sequential execution; access by access (C69)
the machine is simulated by the coarse one, and every race (C68) involves a call whose accesses its lock does not cover.  A wrapped matrix
given to an operator (C77): the loops of C20-C31 with the answers of the two tests as parameters.  Sharing
(C62-C64): every object owns valid slices, and arrays are shared within groups only; each call
is simulated by the list model.  For C64 two runs with different spare room are related by pairing the arrays whose length the program determines; an
array made by `append` belongs to one vector alone.  Goroutines without locks (C70, C71): each goroutine of an interleaving
tracks a run of its own alone, related by a renaming of the objects.  Strassen's goroutines (C72): the same, with an
invariant over the tree of calls (who may change which objects, what each sub-product will return); results that depend on
dense operands only are the same in every world that has these operands.  With a context that becomes done (C73): no goroutine
fails as long as the objects it looks at keep their sizes, and until the flag changes the execution is one of C72's; after that the
loops that fill the result fill nothing.

## Testing the theorems

`seeded/LOG.jsonl` has one line per wrong program: the definition edited, the edit, the claim
it breaks, and the theorems that no longer hold (a theorem counts as failed if its proof, or
the proof of a lemma it depends on, breaks).  Edits that repair a bug are included: they must
break the corresponding `_refuted` theorem.

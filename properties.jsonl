{"id": "C01", "title": "CSR matrix behaves as a total map from cells to values", "statement": "Starting from NewCSRMatrix(r,c), after any sequence of Set, Update, At, Element and Clear calls, every call with in-range indices succeeds and At(i,j) returns the last value written to (i,j) (the zero value if none, or if the written value compares equal to zero); no call changes any other cell or the dimensions.", "quantifier": "every element type, every shape, every sequence of operations of any length, every in-range cell", "why_tests_cant": "the compressed arrays are edited by splice and binary search; correctness depends on the whole history of inserts and removals, which tests only sample", "anchors": ["csrMatrix.go: NewCSRMatrix, UpdateReturnPointer, At, Set, insert, remove, columnIndex, Clear, Element"]}
{"id": "C02", "title": "CSC matrix behaves as a total map from cells to values", "statement": "Same as C01 for NewCSCMatrix: any history of Set, Update, At, Element and Clear is observationally a map from cells to values with default zero.", "quantifier": "every element type, shape, operation sequence and in-range cell", "why_tests_cant": "column-compressed arrays are edited by splice and binary search; the history space is infinite", "anchors": ["cscMatrix.go: NewCSCMatrix, UpdateReturnPointer, At, Set, insert, remove, rowIndex, Clear, Element"]}
{"id": "C03", "title": "Sparse storage keeps exactly the non-zero cells", "statement": "After any sequence of operations on a CSR or CSC matrix, Values() equals the number of cells whose At is non-zero, and no stored entry is zero (writing zero removes the entry).", "quantifier": "every element type, shape and operation sequence", "why_tests_cant": "depends on the parity of insertions/removals over unbounded histories", "anchors": ["csrMatrix.go: Values, insert, remove", "cscMatrix.go: Values, insert, remove"]}
{"id": "C04", "title": "Out-of-range access panics and changes nothing; in-range access never panics", "statement": "For CSR, CSC, dense matrices and dense/sparse vectors, At, Set, Update, RowsAt, ColumnsAt and RowsAtToArray with an index outside the dimensions panic and leave every object unchanged; with indices inside the dimensions they do not panic on any reachable matrix.", "quantifier": "every reachable matrix, every integer index pair (negative included)", "why_tests_cant": "absence of internal slice index panics must hold for all reachable internal layouts", "anchors": ["csrMatrix.go: UpdateReturnPointer, ColumnsAt, RowsAt, RowsAtToArray", "cscMatrix.go", "denseMatrix.go: Update, At, Set", "denseVector.go", "sparseVector.go"]}
{"id": "C05", "title": "Dense matrix behaves as a total map from cells to values", "statement": "After any sequence of Set, Update, At, Clear on NewDenseMatrix(r,c) (or a rectangular NewDenseMatrixFromArray), At(i,j) returns the last value written (exactly, bit for bit) and nothing else changes.", "quantifier": "every element type, shape, operation sequence and in-range cell", "why_tests_cant": "infinite history space", "anchors": ["denseMatrix.go: NewDenseMatrix, Update, At, Set, Clear, newMatrix"]}
{"id": "C06", "title": "Dense vector behaves as a total map from positions to values", "statement": "After any sequence of SetVec, Set, Update, AtVec, At, Clear on NewDenseVector(l), AtVec(i) returns the last value written at i.", "quantifier": "every element type, length, operation sequence", "why_tests_cant": "infinite history space", "anchors": ["denseVector.go: NewDenseVector, AtVec, SetVec, Update, At, Set, Clear"]}
{"id": "C07", "title": "Sparse vector behaves as a total map from positions to values", "statement": "After any sequence of SetVec/AtVec calls on NewSparseVector(l), AtVec(i) returns the last value written at i.", "quantifier": "every element type, length, operation sequence", "why_tests_cant": "depends on the whole insertion history; the repository tests only fill vectors densely from index 0, the single pattern for which the search shortcut is harmless", "anchors": ["sparseVector.go: AtVec, SetVec, index, insert, remove"]}
{"id": "C08", "title": "Sparse vectors built in ascending order enumerate exactly their non-zero entries", "statement": "A sparse vector built by NewSparseVectorFromArray (or returned by RowsAt/ColumnsAt of a sparse matrix) enumerates exactly the non-zero entries in ascending index order and Values() is their number; AtVec(i) returns the true entry exactly when i <= Values() or the entry is zero, and zero otherwise.", "quantifier": "every array / every sparse matrix row or column", "why_tests_cant": "exact characterisation over all sparsity patterns", "anchors": ["sparseVector.go: NewSparseVectorFromArray, index, AtVec, iterator, Next, Values"]}
{"id": "C09", "title": "CSR enumeration is complete, duplicate-free and in row-major order", "statement": "On every reachable CSR matrix, looping HasNext/Next yields each non-zero cell exactly once with its coordinates and value, in row-major order, performs exactly Values() steps, and never panics or loops forever.", "quantifier": "every reachable CSR matrix of any shape and sparsity pattern", "why_tests_cant": "iterator skips empty rows and scans columns with data-dependent loops; termination and completeness must hold for all patterns", "anchors": ["csrMatrix.go: Enumerate, iterator, next, HasNext, Next"]}
{"id": "C10", "title": "CSC enumeration is complete, duplicate-free and in column-major order", "statement": "Same as C09 for CSC matrices with column-major order.", "quantifier": "every reachable CSC matrix", "why_tests_cant": "data-dependent loops over all sparsity patterns", "anchors": ["cscMatrix.go: Enumerate, iterator, next, HasNext, Next"]}
{"id": "C11", "title": "Dense enumeration visits every cell exactly once", "statement": "Enumerating a dense matrix (vector) visits every cell once in row-major (index) order and returns its current value.", "quantifier": "every shape including empty ones, every content", "why_tests_cant": "must hold for all shapes", "anchors": ["denseMatrix.go: iterator, next, HasNext, Next", "denseVector.go: iterator, next, HasNext, Next"]}
{"id": "C12", "title": "Construction from an array", "statement": "NewCSRMatrixFromArray, NewCSCMatrixFromArray and NewDenseMatrixFromArray(N) of a rectangular non-empty array give a matrix with len(data) rows and len(data[0]) columns whose At(i,k) is data[i][k]; an empty array panics.", "quantifier": "every rectangular array of any element type", "why_tests_cant": "all contents, including explicit zeros", "anchors": ["csrMatrix.go: NewCSRMatrixFromArray", "cscMatrix.go: NewCSCMatrixFromArray", "denseMatrix.go: NewDenseMatrixFromArray, NewDenseMatrixFromArrayN"]}
{"id": "C13", "title": "Row and column extraction agree with At", "statement": "RowsAtToArray(r), and for dense matrices RowsAt(r) and ColumnsAt(c), contain exactly At(r,0..c-1) (resp. At(0..r-1,c)); for CSR/CSC RowsAt(r)/ColumnsAt(c) enumerate exactly the non-zero cells of that row/column.", "quantifier": "every reachable matrix and every row/column", "why_tests_cant": "CSC rows and CSR columns are gathered by one binary search per column/row over all sparsity patterns", "anchors": ["csrMatrix.go: ColumnsAt, RowsAt, RowsAtToArray", "cscMatrix.go: ColumnsAt, RowsAt, RowsAtToArray", "denseMatrix.go: ColumnsAt, RowsAt, RowsAtToArray"]}
{"id": "C14", "title": "Copies are faithful and independent", "statement": "Copy()/CopyLogical() returns a matrix with the same dimensions and cells, and any later sequence of operations on either one leaves the other unchanged.", "quantifier": "every reachable matrix of every kind, every later operation history on the original and on the copy", "why_tests_cant": "independence quantifies over all future histories", "anchors": ["csrMatrix.go: Copy", "cscMatrix.go: Copy", "denseMatrix.go: Copy, CopyLogical", "denseVector.go: copy, Copy", "sparseVector.go: copy"]}
{"id": "C15", "title": "Reads are pure", "statement": "At, AtVec, Element, Rows, Columns, Size, Values, RowsAt, ColumnsAt, Enumerate never change any matrix, although sparse At/Element are implemented through Update with an identity callback.", "quantifier": "every reachable matrix, every in-range cell", "why_tests_cant": "an identity Update could remove or insert entries for some layout; must be excluded for all layouts", "anchors": ["csrMatrix.go: At, Element", "cscMatrix.go: At, Element", "sparseVector.go: At"]}
{"id": "C16", "title": "Map rewrites every element once", "statement": "Looping HasNext/Map(f) on a matrix replaces every visited element v at (i,j) by f(i,j,v): all cells for dense, all stored cells for sparse (a cell mapped to zero becomes zero).", "quantifier": "every reachable matrix and every callback", "why_tests_cant": "removal during iteration shifts the arrays under the iterator; must hold for all sequences of callback results", "anchors": ["csrMatrix.go: cSRMatrixMap.Map", "cscMatrix.go: cSCMatrixMap.Map", "denseMatrix.go: denseMatrixMap.Map", "sparseVector.go: sparseVectorMap.Map", "denseVector.go: denseVectorMap.Map"]}
{"id": "C17", "title": "Dense matrix multiplication computes the matrix product", "statement": "For dense A (p x q) and dense B (q x s), MatrixMatrixMultiply / A.Multiply(B) stores at (i,j) the sum over l of A(i,l)*B(l,j) in index order starting from zero, for every cell not covered by the mask, keeps the previous content of masked cells, leaves A and B unchanged, and panics if inner dimensions differ; MatrixVectorMultiply likewise.", "quantifier": "all shapes, all contents, all masks, all element types (floats bit-exact, in evaluation order)", "why_tests_cant": "unbounded sizes and values", "anchors": ["operators.go: multiply, MatrixMatrixMultiply, MatrixVectorMultiply", "denseMatrix.go: Multiply"]}
{"id": "C18", "title": "Sparse matrix multiplication computes the matrix product", "statement": "For CSR/CSC operands, Multiply / MatrixMatrixMultiply stores the same product as for dense operands with the same cells.", "quantifier": "all shapes and sparsity patterns", "why_tests_cant": "repository tests only multiply completely full sparse matrices", "anchors": ["operators.go: multiply", "csrMatrix.go: Multiply, RowsAt, ColumnsAt", "cscMatrix.go: Multiply", "sparseVector.go: AtVec, index"]}
{"id": "C19", "title": "Dense addition and subtraction are cell-wise", "statement": "For dense A, B of the same shape, A.Add(B) and A.Subtract(B) return a new matrix whose (i,j) cell is A(i,j)+B(i,j) (resp. A(i,j)-B(i,j)), leaving the operands unchanged; shape mismatches panic.", "quantifier": "all shapes, contents and element types", "why_tests_cant": "unbounded sizes and values", "anchors": ["operators.go: Add, Subtract", "denseMatrix.go: Add, Subtract"]}
{"id": "C20", "title": "Sparse addition is cell-wise", "statement": "For CSR/CSC A and any same-shape B, A.Add(B) returns a matrix whose (i,j) cell is A(i,j)+B(i,j) for every cell.", "quantifier": "all shapes, sparsity patterns, element types", "why_tests_cant": "repository tests only add sparse matrices without zero cells", "anchors": ["operators.go: Add", "csrMatrix.go: Add", "cscMatrix.go: Add"]}
{"id": "C21", "title": "Sparse subtraction is cell-wise", "statement": "For CSR/CSC matrices and sparse vectors, A.Subtract(B) returns a matrix whose (i,j) cell is A(i,j)-B(i,j).", "quantifier": "all shapes, sparsity patterns", "why_tests_cant": "tests only use full operands, and Equal against a sparse left operand hides the difference for vectors", "anchors": ["operators.go: Subtract", "csrMatrix.go: Subtract", "cscMatrix.go: Subtract", "sparseVector.go: Subtract"]}
{"id": "C22", "title": "Negation", "statement": "m.Negative() returns a matrix whose every cell is the negation of m's cell, m unchanged; Negative(ctx,s,mask,matrix) stores -s(i,j) into matrix at cells not covered by the mask.", "quantifier": "all matrices of all kinds, all masks", "why_tests_cant": "unbounded sizes and values", "anchors": ["operators.go: Negative", "csrMatrix.go: Negative", "cscMatrix.go: Negative", "denseMatrix.go: Negative"]}
{"id": "C23", "title": "Scalar multiplication", "statement": "m.Scalar(alpha) returns a matrix whose every cell is alpha*m(i,j), for every alpha, leaving m unchanged.", "quantifier": "all matrices of all kinds, all alpha", "why_tests_cant": "products equal to zero delete entries while iterating; must hold for all contents and alphas", "anchors": ["operators.go: Scalar", "csrMatrix.go: cSRMatrixMap.Map"]}
{"id": "C24", "title": "Transpose swaps indices", "statement": "m.Transpose(), TransposeToCSR and TransposeToCSC return a c x r matrix with result(j,i)=m(i,j) for every cell, m unchanged; transposing twice gives back the same cells.", "quantifier": "all matrices of all kinds, shapes and contents", "why_tests_cant": "unbounded sizes, cross-format conversion over all sparsity patterns", "anchors": ["operators.go: Transpose, TransposeToCSR, TransposeToCSC", "csrMatrix.go: Transpose", "cscMatrix.go: Transpose", "denseMatrix.go: Transpose", "denseVector.go: Transpose"]}
{"id": "C25", "title": "Masked transpose respects the mask of the output", "statement": "Transpose(ctx,s,mask,matrix), where the mask has the output's dimensions, writes matrix(j,i)=s(i,j) exactly for those output cells (j,i) not covered by the mask.", "quantifier": "all shapes, masks and contents", "why_tests_cant": "needs all mask/shape combinations; untested in the repository", "anchors": ["operators.go: Transpose"]}
{"id": "C26", "title": "Apply maps a unary operator over a matrix", "statement": "Apply(ctx,in,mask,u,matrix) stores u(in(i,j)) at matrix(i,j) for cells not covered by the mask, both for a separate output and in place (in == matrix).", "quantifier": "all matrices, masks and unary operators", "why_tests_cant": "untested; must hold for all shapes and both aliasing cases", "anchors": ["operators.go: Apply"]}
{"id": "C27", "title": "Equal decides equality for operands of the same storage class", "statement": "For two dense matrices/vectors, or two CSR/CSC matrices of element type float64, Equal returns true iff the dimensions agree and all cells compare equal (==); it is symmetric, and both operands are unchanged.", "quantifier": "all pairs of reachable matrices", "why_tests_cant": "the sparse case relies on a counting argument (equal entry counts plus one-sided inclusion)", "anchors": ["operators.go: Equal", "csrMatrix.go: Equal", "cscMatrix.go: Equal", "denseMatrix.go: Equal"]}
{"id": "C28", "title": "Equal decides equality across storage classes and element types", "statement": "Equal(s,m) returns true iff the dimensions agree and all cells are equal, whatever the storage formats (sparse against dense, any element type).", "quantifier": "all pairs of reachable matrices of different formats", "why_tests_cant": "tests only compare matrices that are really equal, or differ in stored cells", "anchors": ["operators.go: Equal", "matrixRegistry.go: IsSparseMatrix"]}
{"id": "C29", "title": "NotEqual is the negation of Equal, nil handling", "statement": "NotEqual(s,m) = !Equal(s,m) on every pair, Equal(nil,nil) is true, Equal of nil and a matrix is false, matrices of different shape are never Equal.", "quantifier": "all pairs, including nil", "why_tests_cant": "all pairs", "anchors": ["operators.go: Equal, NotEqual"]}
{"id": "C30", "title": "Element-wise addition", "statement": "ElementWiseMatrixAdd / ElementWiseVectorAdd store the element-wise sum of the operands: where both are non-zero the sum, where one is non-zero that value.", "quantifier": "all operands of equal shape, masks, in-place and separate outputs", "why_tests_cant": "tests only use 0/1 patterns in which overlapping cells carry equal values", "anchors": ["operators.go: elementWiseAdd, ElementWiseMatrixAdd, ElementWiseVectorAdd"]}
{"id": "C31", "title": "Element-wise multiplication", "statement": "ElementWiseMatrixMultiply / ElementWiseVectorMultiply store the element-wise product of two operands of the same shape.", "quantifier": "all operands of equal shape", "why_tests_cant": "tests only use 0/1 patterns on square matrices", "anchors": ["operators.go: elementWiseMultiply, ElementWiseMatrixMultiply, ElementWiseVectorMultiply"]}
{"id": "C32", "title": "Reduction equals the left fold, for every goroutine schedule", "statement": "ReduceMatrixToScalarWithMonoID with a context that is never cancelled always terminates and returns the left fold of the monoid over the unmasked enumerated elements in enumeration order, whatever the interleaving of the producer, reducer and caller goroutines.", "quantifier": "all matrices, masks, monoids, all goroutine interleavings", "why_tests_cant": "schedules cannot be enumerated by tests", "anchors": ["operators.go: ReduceMatrixToScalarWithMonoID, ReduceMatrixToScalar", "binaryop/monoID.go: Reduce"]}
{"id": "C33", "title": "Reduction under cancellation returns", "statement": "ReduceMatrixToScalarWithMonoID returns (possibly early) when its context is cancelled; if it returns, the value is the fold of all unmasked elements, never a partial one.", "quantifier": "all cancellation instants and schedules", "why_tests_cant": "cancellation can strike at any poll", "anchors": ["operators.go: ReduceMatrixToScalarWithMonoID", "binaryop/monoID.go: Reduce"]}
{"id": "C34", "title": "Column reduction gives the column maximum", "statement": "ReduceMatrixToVector returns a vector of length Columns() whose c-th entry is the maximum of column c.", "quantifier": "all matrices", "why_tests_cant": "tests use only non-negative contents, for which the zero unit of the monoid is invisible", "anchors": ["operators.go: ReduceMatrixToVector, ReduceMatrixToVectorWithMonoID", "default.go: DefaultMonoIDMaximum"]}
{"id": "C35", "title": "Cancellation leaves a prefix of the work", "statement": "If the context is cancelled, multiply, Add, Subtract, Transpose, elementWise operations and Apply return without panicking and the output holds exactly the updates for a prefix of the iteration, all other cells keeping their previous content; operands are unchanged. Equal returns false.", "quantifier": "all operands, all cancellation instants", "why_tests_cant": "a cancellation can strike at any of unboundedly many polls", "anchors": ["operators.go: multiply, Add, Subtract, Transpose, elementWiseAdd, Equal"]}
{"id": "C36", "title": "Scalar multiplication terminates under cancellation", "statement": "Scalar(ctx,s,alpha) terminates for every context, also when it is cancelled before or during the loop.", "quantifier": "all matrices, all cancellation instants", "why_tests_cant": "non-termination cannot be observed by a finite test", "anchors": ["operators.go: Scalar"]}
{"id": "C37", "title": "Symmetry test", "statement": "Symmetric(m) is true iff m is square and m(i,j)=m(j,i) for all cells (comparisons with ==), for dense, CSR and CSC matrices of any element type.", "quantifier": "all matrices", "why_tests_cant": "all shapes and contents", "anchors": ["math/symmetric/symmetric.go: Symmetric"]}
{"id": "C38", "title": "Skew-symmetry test", "statement": "SkewSymmetric(m) is true iff m is square and m(j,i) = -m(i,j) for all cells (comparisons with ==), for dense, CSR and CSC matrices of any element type.", "quantifier": "all matrices", "why_tests_cant": "all shapes and contents", "anchors": ["math/skewsymmetric/skewSymmetric.go: SkewSymmetric"]}
{"id": "C39", "title": "Strassen multiplication equals ordinary multiplication", "statement": "strassen.Multiply / MultiplyCrossoverPoint returns the ordinary product A*B for square dense matrices (square matrices of any storage when the size exceeds the crossover) whose size is a power of two times a base not larger than the crossover, over every commutative ring of values (all Go integer types with wrap-around), independently of the order in which the seven sub-products arrive.", "quantifier": "all sizes 2^k*m, contents, crossovers, arrival orders at every recursion level", "why_tests_cant": "unbounded recursion depth, 5040 arrival orders per level", "anchors": ["math/strassen/strassen.go: Multiply, MultiplyCrossoverPoint, subMatrixM"]}
{"id": "C40", "title": "Strassen multiplication for every size", "statement": "strassen.MultiplyCrossoverPoint returns the ordinary product for every pair of conformable matrices and every crossover, and always terminates.", "quantifier": "all shapes, crossovers", "why_tests_cant": "tests use one 4x4 example", "anchors": ["math/strassen/strassen.go: MultiplyCrossoverPoint"]}
{"id": "C41", "title": "Reduced row echelon form over exact fields", "statement": "If the element arithmetic is that of a field (exact division), Reduced(m) terminates, is in reduced row echelon form, has the same solution set (row space) as m, and m is unchanged; for dense, CSR and CSC storage.", "quantifier": "all matrices over all fields", "why_tests_cant": "unbounded sizes; correctness of elimination is an inductive invariant", "anchors": ["math/reduced/reduced.go: Reduced"]}
{"id": "C42", "title": "Reduced row echelon form for Go element types", "statement": "For Go integer and floating-point element types Reduced(m) is in reduced row echelon form.", "quantifier": "all matrices of Go numeric types", "why_tests_cant": "rounding and truncation depend on the values", "anchors": ["math/reduced/reduced.go: Reduced"]}
{"id": "C43", "title": "Breadth-first search visits vertices by distance", "statement": "In Search(ctx,a,s,c) with a dense adjacency matrix a (a(i,j)>0 iff edge j->i, no negative entries, exact arithmetic), at the d-th call of c the vector is positive exactly at the vertices at distance d from s and zero elsewhere; if c accepts, that vector is returned; c is called at most n times; if c never accepts the result is all zero.", "quantifier": "all graphs, sources, callbacks", "why_tests_cant": "all graphs; inductive argument over levels", "anchors": ["breadthfirst/breadthFirst.go: Search", "operators.go: multiply, elementWiseAdd"]}
{"id": "C44", "title": "Breadth-first search is independent of storage and element type", "statement": "Search gives the same levels for a CSR/CSC adjacency matrix, and for fixed-width element types, as for a dense one over exact integers.", "quantifier": "all graphs, formats and element types", "why_tests_cant": "path counts may overflow and sparse products may drop entries only for some patterns", "anchors": ["breadthfirst/breadthFirst.go: Search"]}
{"id": "C45", "title": "Bubble sort sorts rows and columns", "statement": "BubbleRow (BubbleColumns) of a dense rune matrix returns a matrix whose rows (columns) are a permutation of the input's, in non-decreasing lexicographic order by code point, leaving the input unchanged (for valid code points, context not cancelled).", "quantifier": "all dense rune matrices", "why_tests_cant": "all sizes and contents", "anchors": ["sort/bubble.go: BubbleRow, BubbleColumns", "operators.go: Compare, Less, String"]}
{"id": "C46", "title": "Bubble sort under cancellation permutes", "statement": "Even when the context is cancelled at an arbitrary instant, BubbleRow/BubbleColumns of a dense matrix returns a permutation of the input rows/columns (no row is lost or merged).", "quantifier": "all dense rune matrices, all cancellation instants", "why_tests_cant": "cancellation can strike between or inside comparisons", "anchors": ["sort/bubble.go: BubbleRow, BubbleColumns", "operators.go: Compare, String"]}
{"id": "C47", "title": "Bubble sort on sparse rune matrices", "statement": "BubbleRow/BubbleColumns of a CSR/CSC rune matrix returns a permutation of the input rows/columns.", "quantifier": "all sparse rune matrices", "why_tests_cant": "only dense matrices are tested", "anchors": ["sort/bubble.go: BubbleRow, BubbleColumns"]}
{"id": "C48", "title": "Compare is the lexicographic order", "statement": "For dense rune vectors/matrices of the same shape with valid code points, Compare returns 0 iff equal, -1 iff s precedes m in code-point lexicographic order, +1 otherwise; in particular it is antisymmetric and transitive; Less and Greater agree with it.", "quantifier": "all pairs of dense rune matrices of the same shape", "why_tests_cant": "UTF-8 byte order has to agree with code-point order for all strings", "anchors": ["operators.go: Compare, Less, Greater, String"]}
{"id": "C49", "title": "MutexMatrix serialises writers", "statement": "In every interleaving of goroutines calling At, Set, Update, Element on one MutexMatrix, a Set/Update never overlaps any other such call, the lock is released also when the wrapped call panics, and the outcome equals that of some sequential order of the calls consistent with lock acquisition.", "quantifier": "all numbers of goroutines, all programs, all interleavings", "why_tests_cant": "interleavings cannot be enumerated", "anchors": ["mutexMatrix.go: Update, At, Set, Element"]}
{"id": "C50", "title": "MutexMatrix.Clear and iteration are safe under concurrency", "statement": "Clear, Map, Enumerate and Values on a MutexMatrix exclude concurrent readers and writers.", "quantifier": "all interleavings", "why_tests_cant": "races show up only in rare interleavings", "anchors": ["mutexMatrix.go: Clear, Map, Enumerate, Values"]}
{"id": "C51", "title": "ReSize sets the length", "statement": "DenseVector.ReSize(n) with n >= 0 returns n and afterwards Length() is n, the first min(n,old length) entries are kept and new entries are zero.", "quantifier": "all vectors and sizes", "why_tests_cant": "all length/size combinations; untested", "anchors": ["denseVector.go: ReSize"]}
{"id": "C52", "title": "Sparse-matrix registry", "statement": "IsSparseMatrix(m) is true iff m is a CSR, CSC matrix or sparse vector, for every element type; registering the same type twice panics, registering distinct types makes exactly those types sparse.", "quantifier": "all matrix kinds, element types and registration histories", "why_tests_cant": "tests only cover float64", "anchors": ["matrixRegistry.go: RegisterMatrix, IsSparseMatrix", "csrMatrix.go: init"]}
{"id": "C53", "title": "Blocking mode travels with the context", "statement": "BlockingMode(NewContext(ctx,mode)) = (mode,true) for every ctx and mode, and BlockingMode of any other context is (Blocking,false).", "quantifier": "all contexts and modes", "why_tests_cant": "all nestings of contexts", "anchors": ["context.go: NewContext, BlockingMode, Mode"]}
{"id": "C54", "title": "Built-in binary operators satisfy the monoid laws they are used with", "statement": "Addition with unit 0, Multiplication with unit 1, LOR with false, LAND with true, LXOR with false are commutative monoids, Minimum and Maximum are associative, commutative and idempotent, FirstArgument/SecondArgument are associative, for all Go integer types with wrap-around; hence Reduce over them does not depend on how the sequence is split, and delivers what its name says: the sum or product modulo 2^bits, the least or greatest element, the first or last argument, or/and/parity. The comparison operators compare the integers; with NaN only NotEqual holds.", "quantifier": "all operand values, all integer widths", "why_tests_cant": "2^64-sized domains", "anchors": ["binaryop/monoID.go: Reduce", "binaryop/operators.go", "operators/arithmetic.go", "operators/boolean.go", "operators/comparison.go", "operators/other.go"]}
{"id": "C55", "title": "Every reachable object stays well formed", "statement": "After any sequence of public operations (constructors, cell access, Map loops, Add, Subtract, Multiply, Transpose, Apply, Negative, Scalar, element-wise operations, Equal, with any aliasing, masks, cancellations and panics) every CSR, CSC and dense matrix/vector still satisfies its storage invariant, so later in-range accesses do not panic and Values() counts the non-zero cells.", "quantifier": "all operation sequences over any number of objects, all aliasing patterns, all panics and cancellations", "why_tests_cant": "unbounded histories with aliasing", "anchors": ["operators.go", "csrMatrix.go", "cscMatrix.go", "denseMatrix.go", "denseVector.go"]}
{"id": "C56", "title": "Masked writes never touch covered cells", "statement": "For multiply, Add, Subtract and element-wise operations with any mask whose dimensions equal the output's and that is not the output itself, output cells where mask.Element is true keep their previous content; a mask of other dimensions panics before any write.", "quantifier": "all operands, masks, outputs", "why_tests_cant": "all mask patterns", "anchors": ["operators.go: multiply, Add, Subtract, elementWiseAdd, elementWiseMultiply", "mask.go: EmptyMask"]}
{"id": "C57", "title": "Vector-times-matrix product", "statement": "VectorMatrixMultiply(v,M) stores the row-vector product: entry j is the sum over i of v(i)*M(i,j).", "quantifier": "all vectors and matrices", "why_tests_cant": "the test only checks one example of the other product", "anchors": ["operators.go: VectorMatrixMultiply"]}
{"id": "C58", "title": "Vector Multiply method", "statement": "v.Multiply(m) for a vector v (l x 1) and a matrix m (1 x k) returns the l x k product without panicking.", "quantifier": "all vectors and conformable matrices", "why_tests_cant": "untested shape combinations", "anchors": ["denseVector.go: Multiply", "sparseVector.go: Multiply"]}
{"id": "C59", "title": "Reduction leaves no goroutine behind", "statement": "When a call of ReduceMatrixToScalarWithMonoID has ended (returned or panicked), the goroutines it started end as well.", "quantifier": "all matrices, masks of any dimensions, monoids, interleavings", "why_tests_cant": "A leaked goroutine has no visible effect in a test that only looks at the result; the leak occurs only on the panic and cancellation paths.", "anchors": ["operators.go: ReduceMatrixToScalarWithMonoID", "binaryop/monoID.go: Reduce"]}
{"id": "C60", "title": "MutexMatrix calls made during other MutexMatrix calls do not deadlock", "statement": "Goroutines that call the methods of MutexMatrix values, where the function given to Update (or a matrix of the caller's own type given to Multiply, Add, Subtract, Equal or NotEqual) may itself call methods of the same or other MutexMatrix values, never reach a state in which calls remain to be done but no goroutine can go on.", "quantifier": "all numbers of goroutines and matrices, all programs with calls nested to any depth, all interleavings", "why_tests_cant": "The deadlock needs a particular nesting or interleaving; without one of them the test passes, with it the test hangs.", "anchors": ["mutexMatrix.go: Update, Set, At, Multiply, Add, Subtract, Equal", "csrMatrix.go, cscMatrix.go, denseMatrix.go: Update"]}
{"id": "C61", "title": "A reduction depends on the contents only, not on the storage format", "statement": "ReduceMatrixToScalar of two matrices with the same rows, columns and cell values returns the same value whether they are stored as CSR, CSC or dense, for every element type; with a mask it is the sum of the cells the mask leaves; and the same holds for ReduceMatrixToScalarWithMonoID with any commutative monoid whose unit is zero.", "quantifier": "all matrices, formats, masks, monoids and schedules of the goroutines", "why_tests_cant": "all contents and pairs of formats; rounding", "anchors": ["operators.go: ReduceMatrixToScalar, ReduceMatrixToScalarWithMonoID", "binaryop/monoID.go: Reduce", "default.go: DefaultMonoIDAddition"]}
{"id": "C62", "title": "Sparse matrices and vectors share no memory with anything", "statement": "After any sequence of constructors (New..., New...FromArray), Copy, RowsAt, ColumnsAt, RowsAtToArray, RawMatrix, Update, Set, At, SetVec, Map steps, Clear, ReSize, and the caller's own subslicing of and writes to slices: a call on a CSR matrix, CSC matrix or sparse vector changes no other object and no slice the caller holds, and nothing but a call on it changes a CSR matrix, CSC matrix or sparse vector.", "quantifier": "all programs of such steps, all element types, all amounts of spare capacity append may leave", "why_tests_cant": "aliasing shows only for particular capacities and orders of calls", "anchors": ["csrMatrix.go: NewCSRMatrixFromArray, Update, insert, remove, Copy, Clear", "cscMatrix.go: same", "sparseVector.go: NewSparseVectorFromArray, SetVec, insert, remove"]}
{"id": "C63", "title": "Changing a dense matrix or vector changes nothing else", "statement": "After any such sequence, a call on a dense matrix or vector changes no other object and no slice the caller holds, and a write by the caller to a slice changes no object.", "quantifier": "all programs, element types and capacities", "why_tests_cant": "the tests never look at the array after building from it; growth in place depends on capacity", "anchors": ["denseMatrix.go: NewDenseMatrixFromArray, RawMatrix, Set, Update, Clear", "denseVector.go: NewDenseVectorFromArray, SetVec, ReSize, Clear"]}
{"id": "C64", "title": "Spare capacity of arrays is not observable", "statement": "What a program of library calls and slice accesses shows, including whether it panics and what objects and slices that share arrays show of each other, does not depend on how much spare capacity append leaves in newly allocated arrays or on what lies there, provided vectors are resized to sizes of at least 0. Resizing to a negative size does depend on it.", "quantifier": "all programs (with or without sharing), all growth policies of append", "why_tests_cant": "the growth policy of the running Go version is fixed", "anchors": ["csrMatrix.go: insert, remove", "cscMatrix.go: insert, remove", "sparseVector.go: insert, remove", "denseVector.go: ReSize"]}
{"id": "C65", "title": "A cancelled search never shows a wrong vertex", "statement": "If the context of a breadth-first search is cancelled at any moment, the search still ends without a panic. The d-th vector shown is level d in the entries written before the cancellation and zero in all others; the callback is still called until it accepts a vector or n vectors were shown.", "quantifier": "all graphs, sources, callbacks and moments of cancellation", "why_tests_cant": "the cancellation can fall between any two of about n^3 questions to the context", "anchors": ["breadthfirst/breadthFirst.go: Search", "operators.go: MatrixVectorMultiply, ElementWiseVectorAdd"]}
{"id": "C66", "title": "Matrix expressions mean what mathematics says, and obey its laws", "statement": "Any expression built from Multiply, Add, Subtract, Negative, Transpose (where its result is an operand again: the operator with a new output, as the result of the method has no arithmetic), Scalar and Copy on dense matrices of fitting sizes evaluates without panic, changes no existing object and yields a new dense matrix whose cells are those of the mathematical expression, for every element type. For every integer type (wrap-around included) the results of the two sides of each law of matrix algebra compare Equal: associativity of Multiply and Add, both distributive laws, (AB)^T = B^T A^T, double transpose and double negation, A-B = A+(-B), (A-B)+B = A, and the laws of Scalar. Rounding breaks them for float64.", "quantifier": "all expressions of any size, all matrices, all integer element types; expressions also for floats", "why_tests_cant": "all shapes of expressions and all contents, including overflow", "anchors": ["denseMatrix.go: Multiply, Add, Subtract, Negative, Transpose, Scalar, Copy, Equal", "operators.go: MatrixMatrixMultiply, Add, Subtract, Negative, Transpose, Scalar, Equal"]}
{"id": "C67", "title": "An operand can serve as the output", "statement": "On dense matrices MatrixMatrixMultiply, Add, Subtract and Transpose leave in the output the product, sum, difference or transpose of what the operands held when called, and in the cells covered by the mask what was there before, also when the output is one of the operands (or both operands are the same matrix).", "quantifier": "all dense matrices of fitting sizes, masks, element types and coincidences of the arguments", "why_tests_cant": "every size, content and mask, for each way the arguments can coincide", "anchors": ["operators.go: MatrixMatrixMultiply, Add, Subtract, Transpose", "denseMatrix.go: Set, Enumerate"]}
{"id": "C68", "title": "Goroutines using a MutexMatrix do not race", "statement": "No execution of goroutines that use the wrapped matrix only through one MutexMatrix has a data race in the sense of the Go memory model: two accesses of different goroutines to one field or slice element of the wrapped matrix, one of them a write, not ordered by the mutex.", "quantifier": "all five storage types, all contents, any number of goroutines, programs and interleavings of memory accesses", "why_tests_cant": "a race detector reports only the interleavings and contents it happens to run", "anchors": ["mutexMatrix.go: all methods", "csrMatrix.go: At, Element, UpdateReturnPointer, Clear", "cscMatrix.go: At, Element, UpdateReturnPointer, Clear", "sparseVector.go: At, Update, SetVec, Clear, Values"]}
{"id": "C69", "title": "MutexMatrix is sequential access by access", "statement": "However the individual memory reads and writes of concurrent calls interleave, executions of all methods of a MutexMatrix except Clear and Values (and iteration) have the outcome of making the calls one at a time in the order in which they got their locks: same contents of every field and slice, same results, same panics. No call gets stuck, and every execution ends.", "quantifier": "all storage types, contents, numbers of goroutines, programs and interleavings of memory accesses, including calls that panic and slices that are or are not reallocated", "why_tests_cant": "the interleavings of single memory accesses are astronomically many", "anchors": ["mutexMatrix.go: At, Element, Set, Update, ColumnsAt, RowsAt, RowsAtToArray, Copy, Rows, Columns, Size", "csrMatrix.go, cscMatrix.go, denseMatrix.go, denseVector.go, sparseVector.go: the wrapped methods"]}
{"id": "C70", "title": "Calls made at the same time on separate outputs do what they do alone", "statement": "When goroutines call the library at the same time without locks, and an object that one of them modifies is given to no other, every call that ends does so as it would with nobody else around: same result, same panic, same contents of the objects it was given; objects nobody modifies keep their contents. In particular functions that return a new matrix or a value can run at the same time on shared operands, each getting a new object of its own with the content it gets alone. No call waits for another, and an execution goes on for ever only if one of the calls does alone.", "quantifier": "all numbers of goroutines, all programs of calls, storage types, contents, contexts and all interleavings of their reads and writes of objects", "why_tests_cant": "the interleavings of the steps of a few calls are astronomically many", "anchors": ["operators.go: all operators", "math.go: Multiply, Add, Subtract, Negative, Transpose, Scalar, Reduced", "breadthFirstSearch.go", "csrMatrix.go, cscMatrix.go, denseMatrix.go, denseVector.go, sparseVector.go: all methods"]}
{"id": "C71", "title": "Calls that share only operands are free of data races", "statement": "When goroutines call the library at the same time without locks, and an object that one of them modifies is given to no other, no two of them access an object at the same time with one of them writing.", "quantifier": "all numbers of goroutines, programs of calls, storage types, contents and interleavings", "why_tests_cant": "a race detector reports only the interleavings and contents it happens to run", "anchors": ["csrMatrix.go: At, Element, UpdateReturnPointer", "cscMatrix.go: At, Element, UpdateReturnPointer", "sparseVector.go: At, UpdateReturnPointer", "operators.go: all operators"]}
{"id": "C72", "title": "Strassen's multiplication is right however its goroutines take turns", "statement": "A call of MultiplyCrossoverPoint starts seven goroutines, each of which makes such a call itself, and so on. However they all take turns, and in whatever order the sub-products arrive: the call returns a new matrix with the content that it returns when they run one after the other; in particular the matrix product when halving loses nothing. If that run panics the call does not return. No goroutine waits for ever, every execution ends, no two goroutines access an object at the same time with one of them writing, and the objects that existed before stay as they are.", "quantifier": "all operands of all storage types, crossover points, element types and interleavings of the goroutines of all levels, for a context that is never done or done from the start", "why_tests_cant": "dozens of goroutines run at the same time on small matrices already, with more interleavings than could be tried; a race detector sees only the ones that happen", "anchors": ["math/strassen/strassen.go:MultiplyCrossoverPoint", "math/strassen/strassen.go:subMatrixM"]}
{"id": "C73", "title": "A cancelled Strassen multiplication returns a matrix of the right size whose cells are right or zero", "statement": "Let the context of a call of MultiplyCrossoverPoint become done at any moment, while any of its goroutines is doing anything. However they take turns: none of them panics, none waits for ever, every execution ends, no two access an object at the same time with one of them writing, and the objects that existed before stay as they are. What the call returns is a new dense matrix of the size of the uncancelled result, and every cell of it is either what it is there or zero: no cell is a sum of some of its terms. If the context is not done before the call returns, the result is that of a context that is never done.", "quantifier": "all operands of all storage types whose sizes fit, crossover points, element types, moments of cancellation and interleavings of the goroutines of all levels", "why_tests_cant": "the moment of cancellation falls between any two of thousands of steps of dozens of goroutines, in any of their interleavings", "anchors": ["math/strassen/strassen.go:MultiplyCrossoverPoint", "math/strassen/strassen.go:subMatrixM", "operators.go:multiply"]}
{"id": "C74", "title": "An iterator held open while the program goes on", "statement": "A program may hold any number of iterators of an object (from Enumerate or Map) while it calls the API on that object and others, changes elements through the iterators' own Map, and moves the iterators in any order. As long as no position of the object is added to or removed from the enumerated ones, each iterator shows these positions in order, each once, each with the value it has when it is shown; HasNext is true exactly until the last was shown; Map changes the element shown and no other. In general HasNext tells whether as many elements were shown as there were at the start, and what Next and Map do is determined by where the iterator is and the elements now: it is exactly described, including when it panics and when it does not return. An iterator shows every element that is stored all the time; Next does not panic or hang after HasNext was true; it shows only elements that are there; and none twice.", "quantifier": "all element types with the stated laws, all five storage types, all histories of allowed calls, all numbers and interleavings of open iterators, all functions given to Map", "why_tests_cant": "an iterator's counters go stale in ways that depend on which elements were inserted or removed where, between which two steps, by which other iterator or call", "anchors": ["csrMatrix.go:cSRMatrixIterator.next", "csrMatrix.go:cSRMatrixMap.Map", "cscMatrix.go:cSCMatrixIterator.next", "cscMatrix.go:cSCMatrixMap.Map", "denseMatrix.go:denseMatrixIterator.next", "denseVector.go:denseVectorIterator.next", "sparseVector.go:sparseVectorIterator.next"]}
{"id": "C75", "title": "Functions given to Update and Map that use the API", "statement": "The function given to Update or to an iterator's Map may itself call the API, on the same object or others, and may panic. Update out of range does not call it; otherwise it gets the value At returns, and Update then acts like Set with its result, as long as it left the place alone (no element was added or removed before it in the storage order of a CSR or CSC matrix, or there); if it panics, what it did stays and nothing else is written. Map gives it the element shown and writes that element, provided it changed values only; if it panics, that element and the ones after it keep their values and the iterator has moved on. When it did add or remove elements, the element written is exactly the one that now has the number of the one found, and the method panics if there is none. Update always acts like Set with the result, the value can be read back, Map writes the element it has shown and no other, and does not panic if the function does not.", "quantifier": "all element types with the stated laws, all five storage types, all reachable states and histories with open iterators, all functions that make allowed calls, all arguments", "why_tests_cant": "the search result is kept across the call of a function, so what is written depends on where in storage order the function adds or removes elements", "anchors": ["csrMatrix.go:UpdateReturnPointer", "cscMatrix.go:UpdateReturnPointer", "denseMatrix.go:Update", "denseVector.go:Update", "sparseVector.go:Update", "csrMatrix.go:cSRMatrixMap.Map", "cscMatrix.go:cSCMatrixMap.Map", "denseMatrix.go:denseMatrixMap.Map", "denseVector.go:denseVectorMap.Map", "sparseVector.go:sparseVectorMap.Map"]}
{"id": "C76", "title": "A search whose callback changes things", "statement": "The callback of breadth-first search may keep variables, call the API, write to the vector it is given and to the graph, and panic. If it leaves alone the objects it has no access to, the search goes on from what it left: each vector shown is computed from the vector as the callback left it, from the marks of all vectors it left before, and from the graph as it is then; the search ends at the first yes with the vector as left, or after n rounds with zero; if the callback panics so does the search; no other object changes. So copies taken by the callback keep the levels, and setting vertices to zero makes the search go around them: the others are shown at their distance in the graph without the edges into these, and these are shown again whenever an edge comes from the level before. The vectors that the callback keeps without copying still hold, after the search, what they held when they were shown.", "quantifier": "all element types with the stated laws (exact arithmetic for distances), all reachable states, graphs, sources, callbacks with any captured variables", "why_tests_cant": "the repository's tests use callbacks that only look; what a writing callback does depends on which of three vectors is reused in which round", "anchors": ["breadthfirst/breadthFirst.go:Search"]}
{"id": "C77", "title": "A wrapped matrix in place of a matrix", "statement": "A matrix type of the caller's own that passes every method on to a matrix of the library (a struct that embeds a Matrix) can be given to the operators wherever a matrix is wanted, for an operand as well as for the output, and the result is that of the operator on the matrices inside. What holds: the operators see a difference only where they ask whether a type is registered as sparse and where they compare an operand with the output; where these answers are the same as for the matrices inside (pointers to wrappers of storage that is not registered, no output that is an operand in other clothes), so is the result; the methods Add (with any argument) and Equal (with a bare argument) of a wrapper are those of the matrix inside. Otherwise: a wrapper given by value, not by pointer, makes Add, element-wise multiplication (on the left) and Equal (on either side) panic; Equal of a wrapper and a registered sparse matrix only looks at the elements stored in the latter, so matrices with different cells compare equal, while two wrappers are compared correctly; Add with a wrapper on the left and a dense matrix on the right is right where the bare sparse matrix is not; an output that hides an operand makes element-wise multiplication do nothing, makes Apply write the mirror image with the function used twice above the diagonal, and makes no difference to element-wise addition (dense storage).", "quantifier": "all element types with the stated laws, all reachable states, all names of wrapper types, all nestings of wrappers by pointer and by value, operands, outputs, masks, unary operators", "why_tests_cant": "the repository's tests give the operators only the library's own types, although they accept an interface; which questions the operators ask about their arguments does not show in the signatures", "anchors": ["matrix.go:Matrix", "matrixRegistry.go:IsSparseMatrix", "operators.go:elementWiseMultiply", "operators.go:Add", "operators.go:elementWiseAdd", "operators.go:Apply", "operators.go:Equal"]}
{"id": "C78", "title": "Apply with a function that keeps memory or panics", "statement": "Apply calls the function once for each element that iterating over the input shows and the mask leaves (in place: that the mask covers), in the order of the iteration, with that element, and until the context is done; so a function that counts, writes down or draws random numbers sees exactly these values in this order. Each result is stored at the element's place (mirrored when the output is another matrix) and no other cell changes. If a call panics, Apply panics, no further call is made, the results of the earlier calls stay in the output and the rest of the output, like every other object, is as before. With a pure function this is the Apply of C26. Which calls are made depends on the storage format as well as on the cells: sparse storage skips zeros and column storage has another order.", "quantifier": "all element types with the stated laws, all reachable states, functions with any memory, inputs, masks (fitting, and not the output itself when it is another matrix), moments of cancellation; outputs that are not sparse vectors; in place on sparse storage, results that are zero only where no stored element follows in the line (see C16 for the others)", "why_tests_cant": "the repository's tests use pure functions that return; how often and in which order the function is called, and what is left after a panic, has to hold for every input and every function", "anchors": ["operators.go:Apply", "unaryop/unaryOp.go:NewUnaryOp"]}
{"id": "C79", "title": "Operators with a caller's mask that keeps memory or panics", "statement": "A mask is an interface, so the caller may write one whose Element counts, changes its mind, panics or does not return. Transpose, Apply, Subtract and Add ask it once for each element that iterating over the operand shows (Add: over the right operand unless the left is a registered sparse type), in that order, with that element's own place; so do Negative and Apply in place, for the output, and element-wise multiplication into one of its operands, for the other operand; element-wise multiplication into another matrix asks only where the two operands agree; matrix multiplication asks for every cell of the output, row by row; element-wise addition asks for the elements of the left operand that are not zero and then for those of the right one, leaving out an operand that is the output. If a call of Element panics or does not return, so does the operator, no further question is asked, and all objects are as if the mask had covered that place and all later ones (for Apply in place, whose mask works the other way round, as if it had left them). The effect is that of a mask that is a predicate giving the same answers; for element-wise addition, which may ask twice about a place, it is the last value let through for each cell, and with a mask that changes its answer no predicate need explain it. For every operator, any arguments and any moment of cancellation: whenever some predicate agrees with all answers that were given, the operator does what it does with that predicate.", "quantifier": "all element types with the stated laws, all reachable states, masks with any memory and any answers; for the order of the questions: sizes that fit, an output that is not a sparse vector, an iterated operand that is not a sparse vector (element-wise addition: any operands), an output that is not an operand (multiplication, Transpose) or not the iterated one (Add, Subtract), any moment of cancellation for element-wise addition, Negative and Apply in place and none for the others; Apply in place on sparse storage with zeros only where no stored element follows in the line (see C16)", "why_tests_cant": "the repository's tests use pure masks that return; how often and in which order a mask is asked, and what is left after it panics, has to hold for every operand and every mask", "anchors": ["mask.go:Mask", "operators.go:multiply", "operators.go:elementWiseMultiply", "operators.go:Add", "operators.go:elementWiseAdd", "operators.go:Subtract", "operators.go:Apply", "operators.go:Negative", "operators.go:Transpose"]}
{"id": "C80", "title": "Operators with matrix types of the caller's", "statement": "Matrix is an interface, so the caller may give the operators a type with methods of its own: one that stores nothing, that shows only some of its elements, shows one twice or shows other values than At gives. Whether the operators iterate over such an operand or ask it with At is decided by whether its type is registered: Add, element-wise multiplication and Equal iterate over the left operand if its type is registered and over the right one otherwise, and ask the other with At; Subtract iterates over the left, Transpose and Apply over their input, element-wise addition over both. A cell of the output changes only if the iteration shows it (and reaches it before the context is done) and the mask leaves it; it is written once for each time it is shown, in order: with At's answer plus the shown value (Add), the shown value minus what the cell holds (Subtract), the shown value where the two agree (element-wise multiplication; in place the cell is zeroed where they do not), the shown value if not zero (element-wise addition), the shown value or its image at the mirrored place (Transpose, Apply). Multiplication writes at every cell the mask leaves the sum of the products of what RowsAt and ColumnsAt give, of the length RowsAt gives. Equal says true exactly if the sizes agree, Values agree unless just one type is registered, and every element shown by the operand it iterates over is what At of the other gives. So an operand that shows each element once and truthfully is treated like a matrix of the library with these elements; one that shows only some of them, even truthfully, makes Equal depend on the order of its operands. No other object changes, and with operands of the library all this is what the other properties describe.", "quantifier": "all element types with the stated laws, all reachable states, pure methods with any answers whose At, RowsAt and ColumnsAt do not panic in range and whose iterator shows places in range; each operand the caller's or the library's, fitting sizes, an output of the library that is not a sparse vector and not an operand (element-wise operators: may be one; Subtract: may be the right one), fitting masks that are not the output, all moments of cancellation", "why_tests_cant": "the repository's tests have operands of the library's types only; that the operators use nothing but the methods, and which of them, has to hold for every implementation of the interface", "anchors": ["matrix.go:Matrix", "matrixRegistry.go:IsSparseMatrix", "operators.go:multiply", "operators.go:elementWiseMultiply", "operators.go:Add", "operators.go:elementWiseAdd", "operators.go:Subtract", "operators.go:Apply", "operators.go:Transpose", "operators.go:Equal"]}
{"id": "C81", "title": "Outputs of the caller's own matrix types", "statement": "The output of an operator is a Matrix as well, so the caller may give a type of its own to write to: one that logs, that adds up, that refuses. Multiplication, element-wise multiplication, Add, element-wise addition, Subtract, Apply and Transpose then change it through Set and Update only, and the calls they make are determined: one Set for each uncovered element shown by the operand iterated over and reached before the context is done, in the order shown, with At's answer of the other operand plus the value (Add), with the value where the other operand has the same (element-wise multiplication), with every non-zero value of the left and then of the right operand (element-wise addition), with the value or its image at the mirrored place (Transpose, Apply); one Update that takes the old content from the value for each uncovered element of the left operand (Subtract); one Set for each uncovered cell in row order, with the sum of products, up to the cell during which the context is done (multiplication). If one of these calls panics or does not return, so does the operator, at that call, with the earlier ones made and none after. Operands or masks of the wrong size make the operators panic before the first call. The library's objects stay as they are. The library's own matrices are outputs of this kind: with one of them as output, whatever its type and state, the operators do to it exactly what these calls do, and nothing else.", "quantifier": "all element types with the stated laws, all reachable states, all memories and all Set and Update that do not call the library, operands as in C80 that are not the output, masks of the output's size that are pure and not the output, all moments of cancellation; for the library's outputs all types, sparse vectors included", "why_tests_cant": "no test has an output type of its own, and the order and number of the calls of Set and Update cannot be seen in the cells of a library matrix", "anchors": ["matrix.go:Matrix", "operators.go:multiply", "operators.go:elementWiseMultiply", "operators.go:Add", "operators.go:elementWiseAdd", "operators.go:Subtract", "operators.go:Apply", "operators.go:Transpose"]}
{"id": "C82", "title": "Masks and outputs that know of each other", "statement": "Mask, output and the function given to Apply are the caller's, and may share memory: a mask that covers what has been written already, an output that counts the questions put to the mask, a function that looks at both. For multiplication, element-wise multiplication, Add, element-wise addition, Subtract, Apply and Transpose the interplay is determined. For each element shown by the operand iterated over and reached before the context is done (each non-zero one of the left and then of the right operand in element-wise addition, each one the other operand has as well in element-wise multiplication, each cell in row order in multiplication), the mask is asked once, about the place of the element; and unless it covers the place, the write of C81 is made, before the mask is asked again; Apply calls the function between the two. No other question is asked and no other call made. The first of these calls that panics or does not return ends the operator the same way, with all earlier ones made. Mask and output of different sizes, and operands of the wrong sizes, make the operators panic before the first question. With a matrix of the library as output, of whatever type and state, and a mask that keeps memory, the same holds: questions and writes alternate, and what has been written when the mask panics or the context is done stays.", "quantifier": "all element types with the stated laws, all reachable states, all memories, all masks, outputs and functions on them that do not call the library, operands as in C80 that are not the output, all moments of cancellation; for the library's outputs all types, sparse vectors included, with library operands that are not the output", "why_tests_cant": "the tests use no mask, output or function that reacts to what has happened before, so neither the order of questions and writes nor what a panic in between leaves behind is ever visible", "anchors": ["mask.go:Mask", "matrix.go:Matrix", "operators.go:multiply", "operators.go:elementWiseMultiply", "operators.go:Add", "operators.go:elementWiseAdd", "operators.go:Subtract", "operators.go:Apply", "operators.go:Transpose"]}
{"id": "C83", "title": "Operands that refuse", "statement": "An operand of the caller's own type may panic or never return from At, RowsAt, ColumnsAt or from AtVec of the vectors these give, may disagree with itself and may show places outside its size. Multiplication, element-wise multiplication, Add, element-wise addition, Subtract, Apply and Transpose then still do a determined sequence of things. Add and element-wise multiplication ask the other operand's At for each element shown and reached before the context is done, then the mask, then write; element-wise addition, Subtract, Apply and Transpose never ask for At; multiplication asks RowsAt of the left operand once for each row and ColumnsAt of the right operand for each cell, adds up the products with the column's AtVec before the row's, asks the mask and calls Set. The first of these calls that panics or does not return ends the operator the same way: everything before it has been done, and nothing after. A place outside that an operand shows reaches the mask and the output as it is. The context is asked before each element, and before each product in multiplication, so a context that is done first hides the refusal. The library's outputs end with exactly what these calls leave in them, and no other object changes.", "quantifier": "all element types with the stated laws, all reachable states, all operands: the library's, and the caller's with any At, RowsAt, ColumnsAt and AtVec that are functions of their arguments, whether or not they return, with any list of elements shown; masks, outputs and functions as in C82, or outputs of the library other than the operands with masks of the output's size that are not the output; all moments of cancellation", "why_tests_cant": "the tests have no operand that fails, so what an operator has written when one of them fails is never seen; the result depends on the order of the calls, which no test observes", "anchors": ["matrix.go:Matrix", "vector.go:Vector", "operators.go:multiply", "operators.go:elementWiseMultiply", "operators.go:Add", "operators.go:elementWiseAdd", "operators.go:Subtract", "operators.go:Apply", "operators.go:Transpose"]}
{"id": "C84", "title": "Comparing matrices of the caller's own types", "statement": "Equal with operands of the caller's own types, whose At may panic or not return and whose iterator may show places outside: if the sizes agree, and Values agree where both or neither of the types are registered as sparse, the elements the one operand shows are compared in order with the other operand's At, and the first that differs gives false, the first for which At panics or does not return ends Equal the same way; if there is none the answer is true, or false if the context is done before the last element. So Equal panics only where a shown place makes At of the other operand panic. String is the UTF-8 text of the elements shown before the context is done, and panics if Size is negative; Less and Greater compare the two texts byte by byte, the second being what is reached after the first. Compare is 0 if the context is done at the start or after Equal, or if the first operand's own Equal says true, ends as that Equal ends if it does not return a value, and otherwise is -1 or 1 by Less. No object of the library changes.", "quantifier": "all element types with the stated laws (Equal) or runes (String, Less, Greater, Compare), all reachable states, all operands: the library's, and the caller's with any answers that are functions of their arguments, whether or not they return; all moments of cancellation", "why_tests_cant": "the tests compare only the library's matrices with answers that always come and contexts that are never done", "anchors": ["matrix.go:MatrixLogical", "operators.go:Equal", "operators.go:Compare", "operators.go:Less", "operators.go:Greater", "operators.go:String"]}
{"id": "C85", "title": "Negative and Apply in place with a matrix of the caller's own type", "statement": "Negative with an output of the caller's own type, and Apply when such a matrix is both input and output, write only through the matrix's Map iterator: before each round the context is asked, and each round gives iterator.Map one function. That function asks the mask about the place it is given and answers, in Negative, the negated value for a place that is not covered and the value itself for a covered one; in Apply, the image of the value for a covered place, and the value itself for one that is not. Nothing else is called, whatever the rounds do with the function: calling it several times, with places outside, or not at all. A round, a mask or a function of Apply that panics or does not return ends the operator the same way, with what was done before kept; after the context is done no round is begun. If mask and matrix differ in size the operators panic before anything is called. For a matrix that keeps one value for each place and visits each place at most once, Negative negates exactly the uncovered places visited, and Apply changes exactly the covered ones visited. No object of the library changes.", "quantifier": "all element types, all states of the library, all memories shared by the caller's matrix, mask and function, all lists of rounds of the iterator, all masks and functions whether or not they return, all moments of cancellation", "why_tests_cant": "the tests have no matrix type of their own, and which function a Map iterator is given shows only if one calls it in unexpected ways", "anchors": ["map.go:Map", "operators.go:Negative", "operators.go:Apply"]}

{"id": "C01", "title": "SparseMatrix times vector", "statement": "A.Mult(x) on a valid CSR matrix never reads or writes outside its arrays and returns the vector whose i-th entry is the sum over all stored entries (i,j,v) of v*x[j], whatever the order of the entries in a row, with repeated columns added and with empty rows.", "quantifier": "every valid CSR matrix of any shape and sparsity, every input vector of length Cols(), every previous content of the output", "why_tests_cant": "the sparsity pattern, the order inside rows and the number of duplicates are unbounded; a unit test fixes one pattern", "anchors": ["include/sparsematrix.hpp: SparseMatrix::Mult(VectorView,VectorView)"]}
{"id": "C02", "title": "SparseMatrix transpose times vector", "statement": "A.MultAT(x) on a valid CSR matrix is memory safe and returns A^T x, i.e. entry j is the sum over stored (i,j,v) of v*x[i].", "quantifier": "every valid CSR matrix, every input vector of length Rows(), every previous content of the output", "why_tests_cant": "the scatter pattern depends on every index in the matrix", "anchors": ["include/sparsematrix.hpp: SparseMatrix::MultAT(VectorView,VectorView)"]}
{"id": "C03", "title": "SparseMatrix::Transpose", "statement": "Transpose returns a valid CSR matrix with the dimensions swapped, the same number of stored entries, and entry (j,i) equal to entry (i,j) of the input; transposing twice represents the original matrix.", "quantifier": "every valid CSR matrix, sorted or not, with or without duplicates and empty rows/columns", "why_tests_cant": "the counting-sort offsets are right or wrong depending on the whole column histogram", "anchors": ["include/sparsematrix.hpp: SparseMatrix::Transpose"]}
{"id": "C04", "title": "Sparse matrix product", "statement": "A.Mult(B) for CSR matrices with Cols(A)=Rows(B) is memory safe and returns a valid CSR matrix that represents the product A*B, with each column stored at most once per row.", "quantifier": "every pair of valid CSR matrices of compatible shape", "why_tests_cant": "the marker-array accumulation has to be right for every overlap pattern between rows of B", "anchors": ["include/sparsematrix.hpp: SparseMatrix::Mult(const SparseMatrix<U>&)"]}
{"id": "C05", "title": "CooMatrix assembly", "statement": "After any sequence of Add / AddSym / block Add calls, ToSparse returns a valid CSR matrix of the coordinate matrix's size whose entry (i,j) is the sum of all values added at (i,j), with every coordinate stored at most once.", "quantifier": "every sequence of Add calls with coordinates inside the declared size (or any non-negative coordinates when the size is left open)", "why_tests_cant": "call histories are unbounded, and duplicates may arrive in any order", "anchors": ["include/coomatrix.hpp: CooMatrix::Add, AddSym, ToSparse, FindSize"]}
{"id": "C06", "title": "CooMatrix dense and sparse views agree", "statement": "ToDense of a CooMatrix and ToSparse().ToDense() are the same matrix, namely the sum of all added entries.", "quantifier": "every coordinate matrix", "why_tests_cant": "two code paths have to agree on every history", "anchors": ["include/coomatrix.hpp: CooMatrix::ToDense, ToSparse; include/sparsematrix.hpp: ToDense"]}
{"id": "C07", "title": "CooMatrix size deduction", "statement": "A CooMatrix built without a size reports and produces a matrix with one more row (column) than the largest row (column) index added, and exactly the declared size otherwise; an empty one is empty.", "quantifier": "every sequence of Add calls", "why_tests_cant": "the size depends on the whole history, including the empty one", "anchors": ["include/coomatrix.hpp: CooMatrix::FindSize, Rows, Cols, ToSparse, ToDense"]}
{"id": "C08", "title": "CooMatrix matrix-vector products", "statement": "coo.Mult(x) equals ToSparse().Mult(x) and coo.MultAT(x) equals ToSparse().MultAT(x), for rectangular matrices too.", "quantifier": "every coordinate matrix and every vector of matching length", "why_tests_cant": "shapes and histories are unbounded", "anchors": ["include/coomatrix.hpp: CooMatrix::Mult, MultAT"]}
{"id": "C09", "title": "LilMatrix assembly", "statement": "A LilMatrix converted with ToSparse gives a valid CSR matrix of the same size whose entry (i,j) is the sum of all values added at (i,j).", "quantifier": "every sequence of Add calls, with the size given at construction, set later or deduced", "why_tests_cant": "histories are unbounded and the deduced-size path is a different code path", "anchors": ["include/lilmatrix.hpp: LilMatrix::Add, ToSparse, FindSize, SetSize"]}
{"id": "C10", "title": "LilMatrix views agree", "statement": "ToDense, Mult and MultAT of a LilMatrix agree with the matrix of summed entries, for rectangular matrices too.", "quantifier": "every list-of-lists matrix and every vector of matching length", "why_tests_cant": "shapes and histories are unbounded", "anchors": ["include/lilmatrix.hpp: LilMatrix::ToDense, Mult, MultAT"]}
{"id": "C11", "title": "EliminateZeros", "statement": "EliminateZeros() removes every stored zero, keeps every other entry, and leaves the represented matrix unchanged; with a tolerance it removes exactly the entries whose magnitude does not exceed it and keeps the CSR structure valid.", "quantifier": "every valid matrix in each of the three formats and every tolerance", "why_tests_cant": "the compaction shifts every later row, so it depends on the full pattern", "anchors": ["include/sparsematrix.hpp: EliminateZeros", "include/coomatrix.hpp: EliminateZeros", "include/lilmatrix.hpp: EliminateZeros"]}
{"id": "C12", "title": "SortIndices", "statement": "SortIndices leaves every row sorted by column, keeps each value with its column, and represents the same matrix.", "quantifier": "every valid CSR matrix", "why_tests_cant": "permutation correctness over all patterns", "anchors": ["include/sparsematrix.hpp: SortIndices"]}
{"id": "C13", "title": "GetSubMatrix", "statement": "GetSubMatrix(rows, cols, marker) returns a valid CSR matrix with entry (i,j) equal to entry (rows[i], cols[j]) of the source and hands the marker back all -1 so that it can be reused.", "quantifier": "every valid CSR matrix, every list of row indices, every list of column indices, every large enough marker that is all -1", "why_tests_cant": "selection lists are arbitrary (repeated rows, repeated columns, empty)", "anchors": ["include/sparsematrix.hpp: GetSubMatrix"]}
{"id": "C14", "title": "SparseMatrix::ToDense", "statement": "ToDense produces the dense matrix of the operator that Mult applies.", "quantifier": "every valid CSR matrix, including ones with a coordinate stored twice", "why_tests_cant": "agreement between two code paths on all patterns", "anchors": ["include/sparsematrix.hpp: ToDense, Mult"]}
{"id": "C15", "title": "Scalar and diagonal scaling", "statement": "*=, /=, ScaleRows, ScaleCols, InverseScaleRows and InverseScaleCols multiply or divide exactly the intended entries and leave the pattern untouched.", "quantifier": "every valid CSR matrix and every scaling vector or diagonal matrix", "why_tests_cant": "all patterns", "anchors": ["include/sparsematrix.hpp: operator*=, operator/=, ScaleRows, ScaleCols, InverseScaleRows, InverseScaleCols"]}
{"id": "C16", "title": "Row and column elimination", "statement": "EliminateRow, EliminateCol and EliminateRowCol zero exactly the designated rows/columns (with the diagonal kept as documented by the code) and change nothing else.", "quantifier": "every valid CSR matrix, every index and every marker", "why_tests_cant": "all patterns and all marker subsets", "anchors": ["include/sparsematrix.hpp: EliminateRow, EliminateCol, EliminateRowCol"]}
{"id": "C17", "title": "Boundary elimination keeps the equations", "statement": "EliminateCol(marker, x, b) changes A and b so that for every vector y agreeing with x on the marked columns, the residual b - A y is unchanged.", "quantifier": "every valid CSR matrix, marker, x, b and every such y", "why_tests_cant": "an equation over all vectors y", "anchors": ["include/sparsematrix.hpp: EliminateCol(marker, x, b)"]}
{"id": "C18", "title": "Diagonal access", "statement": "GetDiag returns the diagonal of the represented matrix and AddDiag adds to it where a diagonal entry is stored.", "quantifier": "every valid CSR matrix", "why_tests_cant": "all patterns, including missing and repeated diagonal entries", "anchors": ["include/sparsematrix.hpp: GetDiag, AddDiag"]}
{"id": "C19", "title": "PermuteCols", "statement": "PermuteCols(perm) moves column j to column perm[j] for any permutation and keeps the CSR structure valid.", "quantifier": "every valid CSR matrix and every permutation", "why_tests_cant": "all permutations", "anchors": ["include/sparsematrix.hpp: PermuteCols"]}
{"id": "C20", "title": "Sparse times dense", "statement": "Mult(DenseMatrix), MultAT(DenseMatrix) and MultCT(DenseMatrix) return A*B, A^T*B and (A*B)^T.", "quantifier": "every valid CSR matrix and every dense matrix of matching size", "why_tests_cant": "all shapes and patterns", "anchors": ["include/sparsematrix.hpp: Mult(DenseMatrix), MultAT(DenseMatrix), MultCT"]}
{"id": "C21", "title": "Adjointness", "statement": "For every operator type, <A x, y> = <x, A^T y> for Mult and MultAT.", "quantifier": "all matrices, all x and y", "why_tests_cant": "a relation between two methods over all vectors", "anchors": ["include/sparsematrix.hpp: Mult, MultAT", "include/operator.hpp: Operator"]}
{"id": "C22", "title": "CSR validity is preserved by every history", "statement": "Starting from valid constructor arguments, every finite sequence of SparseMatrix operations that complete leaves a valid CSR matrix (row pointers monotone from 0 to nnz, column indices in range, equal array lengths).", "quantifier": "every finite sequence of operations", "why_tests_cant": "histories are unbounded", "anchors": ["include/sparsematrix.hpp: class SparseMatrix"]}
{"id": "C23", "title": "CSR constructor validates its input", "statement": "Every matrix the CSR constructor accepts can be multiplied without leaving the arrays.", "quantifier": "every triple of arrays accepted by the constructor", "why_tests_cant": "the accepted set is infinite", "anchors": ["include/sparsematrix.hpp: SparseMatrix(indptr, indices, data, rows, cols)"]}
{"id": "C24", "title": "Dense element storage", "statement": "Writing A(i,j)=v changes exactly element (i,j); SetCol/GetCol, SetRow/GetRow and GetColView are consistent with element access and leave all other elements alone.", "quantifier": "every dense matrix, position and value", "why_tests_cant": "frame conditions over all other positions", "anchors": ["include/densematrix.hpp: operator(), GetCol, SetCol, GetRow, SetRow, GetColView", "src/densematrix.cpp"]}
{"id": "C25", "title": "Dense matrix-vector products", "statement": "DenseMatrix::Mult and MultAT return A x and A^T x for all shapes including empty ones and are memory safe.", "quantifier": "every dense matrix and vector", "why_tests_cant": "all shapes", "anchors": ["include/densematrix.hpp: Mult, MultAT"]}
{"id": "C26", "title": "Dense transpose", "statement": "Transpose gives B(j,i)=A(i,j) with swapped dimensions and is an involution.", "quantifier": "every dense matrix", "why_tests_cant": "all shapes", "anchors": ["src/densematrix.cpp: Transpose"]}
{"id": "C27", "title": "Dense submatrix", "statement": "GetSubMatrix after SetSubMatrix returns what was written, SetSubMatrix changes only that window, AddSubMatrix adds only to the addressed entries, and SetSubMatrixTranspose writes the transpose.", "quantifier": "every matrix, window and block that fit", "why_tests_cant": "all window positions; frame conditions", "anchors": ["src/densematrix.cpp: GetSubMatrix, SetSubMatrix, SetSubMatrixTranspose, AddSubMatrix"]}
{"id": "C28", "title": "HStack", "statement": "HStack of dense matrices with equal row count returns the matrix whose columns are the columns of the arguments in order.", "quantifier": "every list of dense matrices with the same number of rows", "why_tests_cant": "list length and widths unbounded", "anchors": ["src/densematrix.cpp: HStack"]}
{"id": "C29", "title": "Dense entrywise arithmetic", "statement": "+=, -=, *=, /=, ScaleRows, ScaleCols and their inverses act entrywise as documented and leave the shape unchanged.", "quantifier": "every dense matrix", "why_tests_cant": "all shapes", "anchors": ["src/densematrix.cpp: operator+=, operator-=, operator*=, operator/=", "include/densematrix.hpp: ScaleRows, ScaleCols, InverseScaleRows, InverseScaleCols"]}
{"id": "C30", "title": "Views alias, vectors copy", "statement": "A write through a VectorView changes exactly the viewed elements of the owner and is seen by every overlapping view; a copied Vector is independent of its source; assigning to a view copies elements and keeps its identity.", "quantifier": "every heap of vectors, every view, every sequence of writes", "why_tests_cant": "aliasing patterns are unbounded", "anchors": ["include/vectorview.hpp: VectorView", "include/vector.hpp: Vector"]}
{"id": "C31", "title": "Vector reductions", "statement": "Sum, Mult/InnerProduct, Max, Min, AbsMax, AbsMin, Mean return the documented value for every vector; Max/Min results are attained and bound all elements; InnerProduct is symmetric and bilinear.", "quantifier": "every vector (non-empty where an extremum is asked)", "why_tests_cant": "all lengths and values", "anchors": ["include/vectorview.hpp: InnerProduct, Max, Min, AbsMax, AbsMin, Sum, Mean"]}
{"id": "C32", "title": "Vector axpy family", "statement": "Add(alpha,x,beta,y,gamma,z), Add, Sub, Set and the entrywise operators produce the documented linear combination entry by entry, also when the arguments alias the output.", "quantifier": "all vectors and coefficients", "why_tests_cant": "all lengths; aliasing", "anchors": ["include/vectorview.hpp: Add, Sub, Set, operator+=, operator-=, operator*=, operator/="]}
{"id": "C33", "title": "Vector comparison is an equality", "statement": "operator== on vectors is reflexive, symmetric and transitive, and distinguishes different vectors.", "quantifier": "all triples of vectors", "why_tests_cant": "a relation over all triples, including NaN", "anchors": ["include/vectorview.hpp: operator==", "src/densematrix.cpp: operator=="]}
{"id": "C34", "title": "BlockVector tiling", "statement": "The blocks of a BlockVector tile the vector: writing block i changes exactly the entries offsets[i]..offsets[i+1]-1 and no other block.", "quantifier": "every offset list and every block", "why_tests_cant": "all offsets; frame condition", "anchors": ["include/blockvector.hpp: GetBlock"]}
{"id": "C35", "title": "BlockMatrix times vector", "statement": "BlockMatrix::Mult(x) equals the product with the combined matrix, for any set of present and absent blocks.", "quantifier": "every block matrix with compatible blocks and every vector", "why_tests_cant": "all block layouts", "anchors": ["include/blockmatrix.hpp: Mult"]}
{"id": "C36", "title": "BlockMatrix transpose times vector", "statement": "BlockMatrix::MultAT(x) equals the product with the transpose of the combined matrix.", "quantifier": "every block matrix with compatible blocks and every vector", "why_tests_cant": "all block layouts", "anchors": ["include/blockmatrix.hpp: MultAT"]}
{"id": "C37", "title": "BlockMatrix::Combine", "statement": "Combine returns a valid CSR matrix whose entry at global position (offset_i+k, offset_j+l) is entry (k,l) of block (i,j).", "quantifier": "every block matrix", "why_tests_cant": "all block layouts", "anchors": ["include/blockmatrix.hpp: Combine"]}
{"id": "C38", "title": "BlockMatrix::Transpose", "statement": "Transpose of a block matrix represents the transpose of the combined matrix.", "quantifier": "every block matrix", "why_tests_cant": "all block layouts and block shapes", "anchors": ["include/blockmatrix.hpp: Transpose"]}
{"id": "C39", "title": "BlockOperator application", "statement": "BlockOperator::Mult applies the sum of block operators row by row and MultAT applies the transposes, independent of previous calls.", "quantifier": "every block layout of linear operators, every vector, every history of earlier calls", "why_tests_cant": "work vectors are reused between calls", "anchors": ["src/blockoperator.cpp: Mult, MultAT"]}
{"id": "C40", "title": "PCG residual invariant", "statement": "At every iteration of PCGSolver the internal residual equals b - A x for the current iterate, for any operator A and any preconditioner, so the value used in the stopping test is about the true residual.", "quantifier": "every linear operator, preconditioner, right-hand side, start vector and iteration count (exact arithmetic)", "why_tests_cant": "unbounded iteration count", "anchors": ["src/solvers.cpp: PCGSolver::Mult"]}
{"id": "C41", "title": "PCG stopping contract", "statement": "When PCGSolver::Mult stops before the iteration limit, the returned x satisfies the advertised tolerance on the preconditioned residual (or the search direction had non-positive curvature).", "quantifier": "every input (exact arithmetic)", "why_tests_cant": "unbounded inputs", "anchors": ["src/solvers.cpp: PCGSolver::Mult"]}
{"id": "C42", "title": "Iteration limit", "statement": "Solvers perform at most max_iter iterations and report a number of iterations not above max_iter.", "quantifier": "every max_iter and every input", "why_tests_cant": "all limits including 0", "anchors": ["src/solvers.cpp: PCGSolver::Mult, MINRESSolver::Mult"]}
{"id": "C43", "title": "Solving from the exact solution", "statement": "When the start vector already solves the system, every solver returns it unchanged without dividing by zero.", "quantifier": "every operator and right-hand side", "why_tests_cant": "all inputs that hit the corner", "anchors": ["src/solvers.cpp: PCGSolver::Mult, MINRESSolver::Mult, PMINRESSolver::Mult"]}
{"id": "C44", "title": "Binary files round-trip", "statement": "ReadBinaryVect(WriteBinary(v)) = v and ReadBinaryMat(WriteBinary(A)) = A bit for bit.", "quantifier": "every vector and every valid CSR matrix", "why_tests_cant": "all byte patterns and sizes", "anchors": ["include/parser.hpp: WriteBinary, ReadBinaryVect, ReadBinaryMat"]}
{"id": "C45", "title": "CSR text files round-trip", "statement": "ReadCSR(WriteCSR(A)) = A for integer-valued matrices.", "quantifier": "every valid CSR matrix", "why_tests_cant": "all patterns", "anchors": ["include/parser.hpp: WriteCSR, ReadCSR"]}
{"id": "C46", "title": "MatrixMarket files round-trip", "statement": "ReadMTX(WriteMTX(A)) has the size of A and represents A for integer-valued matrices.", "quantifier": "every valid CSR matrix", "why_tests_cant": "all patterns", "anchors": ["include/parser.hpp: WriteMTX, ReadMTX"]}
{"id": "C47", "title": "Coordinate files round-trip", "statement": "ReadCooList(WriteCooList(A)) represents A and has the size of A.", "quantifier": "every valid CSR matrix", "why_tests_cant": "all patterns, trailing empty rows and columns", "anchors": ["include/parser.hpp: WriteCooList, ReadCooList"]}
{"id": "C48", "title": "Adjacency files round-trip", "statement": "ReadAdjList(WriteAdjList(A)) and ReadTable(WriteTable(A)) give back the pattern and the size of A.", "quantifier": "every valid CSR matrix", "why_tests_cant": "all patterns, trailing empty rows and columns", "anchors": ["include/parser.hpp: WriteAdjList, ReadAdjList, WriteTable, ReadTable"]}
{"id": "C49", "title": "Text precision keeps doubles", "statement": "Every double written by the text writers is read back as the same double.", "quantifier": "every finite double", "why_tests_cant": "2^64 values", "anchors": ["include/parser.hpp: WriteText, WriteCSR, WriteMTX, WriteCooList"]}
{"id": "C50", "title": "Graph files give Laplacians", "statement": "ReadGraphList returns a symmetric matrix with zero row sums, non-negative diagonal and non-positive off-diagonal.", "quantifier": "every list of edges", "why_tests_cant": "all graphs", "anchors": ["include/parser.hpp: ReadGraphList"]}
{"id": "C51", "title": "ArgParser lookup", "statement": "After construction from argv, Parse for a flag assigns the value that follows the first occurrence of the flag and leaves the variable untouched when the flag is absent; repeated flags and malformed lines are reported.", "quantifier": "every argument vector", "why_tests_cant": "all argument vectors", "anchors": ["src/argparser.cpp: ArgParser", "include/argparser.hpp: Parse"]}
{"id": "C52", "title": "Timer accounting", "statement": "TotalTime equals the sum of the laps and is non-negative for any sequence of clicks on a monotone clock.", "quantifier": "every click history", "why_tests_cant": "all histories", "anchors": ["src/timer.cpp: Timer"]}
{"id": "C53", "title": "Partition relabelling", "statement": "RemoveEmpty relabels a partition with exactly the labels 0..k-1, keeps two vertices together iff they were together, keeps the order of labels, and is idempotent.", "quantifier": "every partition vector with labels in range", "why_tests_cant": "all label vectors", "anchors": ["modules/partition/include/partition.hpp: RemoveEmpty"]}
{"id": "C54", "title": "Adjacency without loops", "statement": "The adjacency handed to the partitioner contains exactly the off-diagonal stored entries of the graph.", "quantifier": "every valid CSR matrix", "why_tests_cant": "all patterns", "anchors": ["modules/partition/include/partition.hpp: MakeAdjacencyInfo"]}
{"id": "C55", "title": "Eigenpair selection", "statement": "EigenSolver::Solve with (rel_tol, max_evect) returns between 1 and max_evect pairs, all below the tolerance except possibly the first, and never reads outside its work arrays.", "quantifier": "every eigenvalue list, tolerance and limit", "why_tests_cant": "all spectra", "anchors": ["src/eigensolver.cpp: EigenSolver::Solve"]}
{"id": "C56", "title": "Global offsets tile the index space", "statement": "GenerateOffsets gives each rank a half-open range; the ranges of consecutive ranks are adjacent, start at 0, end at the global total, and every rank sees the same total.", "quantifier": "every number of ranks and every list of local sizes", "why_tests_cant": "all rank counts", "anchors": ["modules/parlinalgcpp/src/parutilities.cpp: GenerateOffsets"]}
{"id": "C57", "title": "SortColumnMap", "statement": "SortColumnMap sorts the column map, keeps it a permutation of itself and renumbers the off-diagonal entries so that each keeps its global column.", "quantifier": "every column map without duplicates and every coordinate matrix over it", "why_tests_cant": "all permutations", "anchors": ["modules/parlinalgcpp/src/parutilities.cpp: SortColumnMap"]}
{"id": "C58", "title": "ParAdd", "statement": "ParAdd(alpha,A,beta,B) represents alpha*A + beta*B, ParSub represents alpha*A - beta*B, and the marker is handed back all -1.", "quantifier": "every pair of parallel matrices with equal layout and all coefficients", "why_tests_cant": "all patterns and layouts", "anchors": ["modules/parlinalgcpp/src/parutilities.cpp: ParAdd, ParSub"]}
{"id": "C59", "title": "ParSplit", "statement": "ParSplit distributes a global matrix: collecting diag and offd of all ranks gives the input matrix up to the renumbering that lists the vertices of rank 0 first, then those of rank 1, ..., each in their order.", "quantifier": "every square matrix and every assignment of vertices to ranks", "why_tests_cant": "all partitions and patterns", "anchors": ["modules/parlinalgcpp/src/parutilities.cpp: ParSplit"]}
{"id": "C60", "title": "Threaded row ranges", "statement": "The per-thread row ranges of the parallel matrix product cover every row exactly once for any number of threads, and the row pointers computed do not depend on the number of threads.", "quantifier": "every row count and thread count", "why_tests_cant": "all schedules and thread counts", "anchors": ["modules/parlinalgcpp/src/hypre_ops.cpp: RowSizes, ParMatrix::Mult"]}
{"id": "C61", "title": "Parallel matrix product, local part", "statement": "ParMatrix::Mult writes within the sizes counted in the first pass and its diag/offd parts represent the product.", "quantifier": "every layout, all patterns, all thread counts", "why_tests_cant": "two passes have to agree on every pattern", "anchors": ["modules/parlinalgcpp/src/hypre_ops.cpp: ParMatrix::Mult"]}
{"id": "C62", "title": "Parallel vector reductions", "statement": "Mult, L2Norm and GlobalSum of ParVectors, and ParMult and ParL2Norm of the ranks' Vectors, give the reduction over the concatenation of all ranks' data.", "quantifier": "every number of ranks and every distribution", "why_tests_cant": "all distributions", "anchors": ["modules/parlinalgcpp/src/parvector.cpp: Mult, GlobalSum, ParMult"]}
{"id": "C63", "title": "Value semantics", "statement": "Copying any matrix or vector gives an independent equal object; moving transfers the value; swap exchanges values; self-assignment is harmless.", "quantifier": "every object and every history", "why_tests_cant": "all histories", "anchors": ["include/sparsematrix.hpp: copy/move/swap", "include/vector.hpp", "src/densematrix.cpp", "include/coomatrix.hpp", "include/lilmatrix.hpp"]}
{"id": "C64", "title": "Debug checks", "statement": "The library's checking macro stops the program on a violated condition in builds with assertions enabled.", "quantifier": "every condition and build mode", "why_tests_cant": "build configuration is not visible to a test binary", "anchors": ["include/utilities.hpp: linalgcpp_assert, linalgcpp_verify"]}
{"id": "C65", "title": "Column and row sums", "statement": "SumCols/SumRows and Sum agree with the represented matrix, and MaxNorm is the largest magnitude of an entry.", "quantifier": "every matrix", "why_tests_cant": "all patterns", "anchors": ["include/sparsematrix.hpp: Sum, MaxNorm", "include/operator.hpp: SumCols, SumRows"]}
{"id": "C66", "title": "Sparse direct solve orientation", "statement": "SparseSolver::Mult solves A x = b and MultAT solves A^T x = b although the row-compressed arrays are handed to a column-compressed solver.", "quantifier": "every square valid CSR matrix and right-hand side (for a correct factorisation library)", "why_tests_cant": "relies on an identity over all matrices", "anchors": ["modules/sparsesolver/src/sparsesolve.cpp: Mult, MultAT"]}
{"id": "C67", "title": "Dense matrix products", "statement": "Mult, MultAT, MultBT and MultABT of two dense matrices return A B, A^T B, A B^T and A^T B^T for every pair of compatible matrices.", "quantifier": "every pair of dense matrices with compatible shapes", "why_tests_cant": "all shapes; the leading dimensions given to BLAS depend on them", "anchors": ["src/densematrix.cpp: Mult, MultAT, MultBT, MultABT, dgemm"]}
{"id": "C68", "title": "Dense reductions and extraction", "statement": "Sum, Max, Min and GetDiag of a dense matrix return the sum, the attained largest and smallest element and the diagonal; GetRow with a list returns the listed rows.", "quantifier": "every non-empty dense matrix", "why_tests_cant": "all shapes and values", "anchors": ["include/densematrix.hpp: Sum, Max, Min", "src/densematrix.cpp: GetDiag, GetRow"]}
{"id": "C69", "title": "CooMatrix permutations", "statement": "PermuteRows(p), PermuteCols(q) and PermuteRowsCols(p, q) of a CooMatrix move the element at (i,j) to (p[i],j), (i,q[j]) and (p[i],q[j]), and keep the declared size.", "quantifier": "every coordinate matrix and every permutation of its rows and columns", "why_tests_cant": "permutations and entry histories are unbounded", "anchors": ["include/coomatrix.hpp: PermuteRows, PermuteCols, PermuteRowsCols"]}
{"id": "C70", "title": "GetSubVector", "statement": "GetSubVector(indices, y) sizes y to the number of indices, fills it with the listed elements in order, and changes nothing else.", "quantifier": "every vector or view, every list of valid indices, every state of memory", "why_tests_cant": "all index lists, repeated indices included", "anchors": ["include/vectorview.hpp: GetSubVector"]}
{"id": "C71", "title": "Element access is checked", "statement": "v[i] returns element i for a valid index and stops the program for every other index.", "quantifier": "every view and every index", "why_tests_cant": "all indices, negative ones included", "anchors": ["include/vectorview.hpp: operator[]"]}
{"id": "C72", "title": "Vector normalisation", "statement": "SubAvg subtracts one number from every element and leaves sum zero; Normalize divides every element by the norm and leaves norm one; Randomize fills exactly the viewed elements.", "quantifier": "every view, exact arithmetic", "why_tests_cant": "all vectors", "anchors": ["src/vectorview.cpp: SubAvg, Normalize, Randomize"]}
{"id": "C73", "title": "Operator interface", "statement": "The Mult and MultAT overloads that resize or allocate the output return what the two-argument form computes whatever the output held, and InnerProduct(x,y) is y^T A x.", "quantifier": "every operator and every vector, whatever the previous size and content of the output", "why_tests_cant": "all operators (an interface) and all outputs", "anchors": ["src/operator.cpp: Mult, MultAT, InnerProduct", "include/operator.hpp: Operator"]}
{"id": "C74", "title": "PCG never moves away from the solution", "statement": "For a symmetric positive definite A and any preconditioner, the energy-norm distance of x to the solution after a PCG call is at most the distance before it, however many iterations were made.", "quantifier": "every symmetric positive definite operator, preconditioner, right-hand side, start, limit and tolerance (exact arithmetic)", "why_tests_cant": "all operators and iteration counts", "anchors": ["src/solvers.cpp: PCGSolver::Mult"]}
{"id": "C75", "title": "MINRES reports the true residual", "statement": "The number MINRES and PMINRES compare with the tolerance is the (preconditioner) norm of b - A x for the x they return, it never exceeds the norm at the start, and when the call ends before the limit it is below max(rel_tol * start, abs_tol).", "quantifier": "every symmetric nonsingular operator, positive definite preconditioner, right-hand side, start, and history of the solver object (exact arithmetic)", "why_tests_cant": "the norm is carried along by a recurrence over all iterations", "anchors": ["src/solvers.cpp: MINRESSolver::Mult, PMINRESSolver::Mult"]}
{"id": "C76", "title": "Krylov solvers finish in n iterations", "statement": "In exact arithmetic on an n x n system PCG (positive definite A), MINRES and PMINRES (nonsingular symmetric A) reach a positive tolerance in at most n iterations without failing.", "quantifier": "every n, operator, preconditioner, right-hand side, inexact start and tolerance", "why_tests_cant": "all dimensions and operators", "anchors": ["src/solvers.cpp: PCGSolver::Mult, MINRESSolver::Mult, PMINRESSolver::Mult"]}
{"id": "C77", "title": "Solver objects can be reused", "statement": "The result of a solver call (solution, iteration count, failure) is that of a newly constructed solver with the same right-hand side and initial guess, whatever was solved before with the object.", "quantifier": "every history of calls on one object", "why_tests_cant": "all histories; the work vectors survive between calls", "anchors": ["src/solvers.cpp: PCGSolver, MINRESSolver, PMINRESSolver"]}
{"id": "C78", "title": "Truncated files", "statement": "A reader given a file cut short reports an error instead of returning a different matrix or vector.", "quantifier": "every object, every format and every place where the file may be cut", "why_tests_cant": "all cut points", "anchors": ["include/parser.hpp: ReadText, ReadBinaryVect, ReadBinaryMat, ReadCSR, ReadMTX, ReadCooList"]}
{"id": "C79", "title": "Matrix Market conventions", "statement": "ReadMTX and ReadMTXList follow the file: comments are skipped, indices count from one, and a file that declares itself symmetric represents the symmetric matrix of the listed triangle.", "quantifier": "every file of the format, any comments, layout, sizes and entries", "why_tests_cant": "all files", "anchors": ["include/parser.hpp: ReadMTX, ReadMTXList"]}
{"id": "C80", "title": "Layout independence of text input", "statement": "The text readers return the same object for every white-space layout of the same numbers.", "quantifier": "every sequence of records and every layout of it", "why_tests_cant": "layouts are unbounded", "anchors": ["include/parser.hpp: ReadText, ReadCooList, ReadAdjList, ReadTable"]}
{"id": "C81", "title": "Readers on arbitrary input", "statement": "Given any sequence of bytes, a text reader returns a valid object made of what could be read, or reports an error.", "quantifier": "every byte sequence", "why_tests_cant": "all files, malformed ones included", "anchors": ["include/parser.hpp: ReadText, ReadCooList, ReadAdjList, ReadMTX, ReadMTXList, ReadTable, ReadCSR"]}
{"id": "C82", "title": "Command line reports", "statement": "ShowOptions prints every flag asked for exactly once in dictionary order with the value it first got, in aligned columns; ShowHelp prints the help texts; ShowErrors prints every repetition.", "quantifier": "every command line and every history of Parse calls", "why_tests_cant": "all histories", "anchors": ["src/argparser.cpp: ShowErrors, ShowHelp, ShowOptions"]}
{"id": "C83", "title": "ParMatrix constructor", "statement": "The ParMatrix constructors accept exactly the consistent layouts (blocks of the local sizes, a strictly increasing column map outside the local columns), and without given starts all ranks agree on the layout that lists rank 0 first, then rank 1, ...", "quantifier": "every layout, every pair of blocks and column map, every number of ranks", "why_tests_cant": "all layouts", "anchors": ["modules/parlinalgcpp/src/parmatrix.cpp: ParMatrix, Init"]}
{"id": "C84", "title": "ParMatrix in-place operations", "statement": "Scaling, filling, row scaling, row elimination, AddDiag, copying and negating a distributed matrix change exactly the values asked for in terms of global rows and columns and keep the layout.", "quantifier": "every valid distributed matrix", "why_tests_cant": "all layouts and patterns", "anchors": ["modules/parlinalgcpp/src/parmatrix.cpp: operator*=, operator=, AddDiag, ScaleRows, InverseScaleRows, EliminateRow"]}
{"id": "C85", "title": "ParMatrix MaxNorm", "statement": "MaxNorm returns on every rank the largest absolute value in the global matrix.", "quantifier": "every distributed matrix and number of ranks", "why_tests_cant": "all layouts", "anchors": ["modules/parlinalgcpp/src/parmatrix.cpp: MaxNorm"]}
{"id": "C86", "title": "ParVector constructor", "statement": "A ParVector can be built on every rank of a consistent layout, and inconsistent layouts are refused.", "quantifier": "every layout and local size", "why_tests_cant": "empty ranks, all layouts", "anchors": ["modules/parlinalgcpp/src/parvector.cpp: Init"]}
{"id": "C87", "title": "Distributed transpose", "statement": "Transpose of a distributed matrix returns on every rank a block of a valid distributed matrix with row and column layout exchanged whose entries are those of the operand with row and column exchanged.", "quantifier": "every valid distributed matrix, every number of ranks and every way the columns outside a rank are spread over the other ranks", "why_tests_cant": "all layouts and communication patterns; every rank sends to any other", "anchors": ["modules/parlinalgcpp/src/hypre_ops.cpp: Transpose", "modules/parlinalgcpp/src/parutilities.cpp: Transpose", "modules/parlinalgcpp/src/parmatrix.cpp: Transpose"]}
{"id": "C88", "title": "Row norms of distributed matrices", "statement": "The l1 norms a smoother is built on are, for every local row, the sum its type names over all stored values of the row (both blocks), with the sign of the diagonal coefficient, and the call reports whether one of them is zero.", "quantifier": "every valid distributed matrix, every smoother type", "why_tests_cant": "all patterns, rows without local entries included", "anchors": ["modules/parlinalgcpp/src/hypre_ops.cpp: L1Norms", "modules/parlinalgcpp/src/parsmoother.cpp: ParSmoother"]}
{"id": "C89", "title": "Triple product", "statement": "RAP(R, A, P) returns the distributed matrix R^T A P and RAP(A, P) returns P^T A P, for every number of threads and every schedule on every rank.", "quantifier": "every three distributed matrices with matching layouts, every number of ranks and threads, every schedule", "why_tests_cant": "all layouts, all interleavings", "anchors": ["modules/parlinalgcpp/src/parutilities.cpp: RAP, Mult, Transpose", "modules/parlinalgcpp/src/hypre_ops.cpp: Mult, Transpose"]}
{"id": "C90", "title": "Life of parallel objects", "statement": "Distributed matrices, vectors, solvers and smoothers can be constructed, copied, moved, assigned, swapped and destroyed in any order: no operation fails, every library handle is released exactly once and none is left when all objects are gone, the library always sees the content of the object, and moving, swapping or changing one object does not change what the others give.", "quantifier": "every history of such operations on any number of objects", "why_tests_cant": "all histories; leaks, double releases and stale handles show up in no return value", "anchors": ["modules/parlinalgcpp/src/parmatrix.cpp: constructors, swap, HypreCreate, HypreDestroy", "modules/parlinalgcpp/src/parvector.cpp", "modules/parlinalgcpp/src/paroperator.cpp", "modules/parlinalgcpp/src/parsolvers.cpp", "modules/parlinalgcpp/src/parsmoother.cpp"]}
{"id": "C91", "title": "Parallel solver objects", "statement": "A BoomerAMG, ParaSails, ParCG, ParDiagScale or ParSmoother object applies the named method to the matrix it was constructed with, using the parameters given, and a copy of it does the same.", "quantifier": "every square distributed matrix, all parameters, every history of the object before the call", "why_tests_cant": "all histories; lost parameters change the accuracy, not the result of a test problem", "anchors": ["modules/parlinalgcpp/src/parsolvers.cpp: BoomerAMG, ParaSails, ParCG, ParDiagScale, ParSolver", "modules/parlinalgcpp/src/parsmoother.cpp: ParSmoother"]}
{"id": "C92", "title": "Preconditioned parallel CG", "statement": "A ParCG constructed with a solver M applies M in every iteration; EnableDiagScaling makes it apply the inverse of the diagonal.", "quantifier": "every matrix, every solver object M and all parameters", "why_tests_cant": "the iteration converges with other preconditioners too", "anchors": ["modules/parlinalgcpp/src/parsolvers.cpp: ParCG::ParCG, EnableDiagScaling"]}
{"id": "C93", "title": "Dense factorisations", "statement": "SVD returns the singular values in descending order and leaves the left singular vectors of the matrix, QR leaves an orthonormal basis whose product with a triangular matrix is the column-permuted matrix, and Invert leaves the inverse; the results have the right sizes and no memory outside the matrices is touched, for every shape.", "quantifier": "every dense matrix of every shape, every LAPACK implementation that meets the documented contract, every status it reports", "why_tests_cant": "all shapes, empty and wide ones included; singular matrices", "anchors": ["src/densematrix.cpp: SVD, QR, Invert"]}
{"id": "C94", "title": "Products of distributed matrices with vectors", "statement": "Mult and MultAT of a distributed matrix give every rank its part of the product of the global matrix (its transpose) with the global vector, whatever the output held before, for every overload and layout; vectors of the wrong size are refused.", "quantifier": "every distributed matrix, every layout of rows and columns over any number of ranks, every vector", "why_tests_cant": "all layouts, ranks without rows included", "anchors": ["modules/parlinalgcpp/src/parmatrix.cpp: Mult, MultAT", "modules/parlinalgcpp/src/paroperator.cpp: InitVector"]}
{"id": "C95", "title": "Arithmetic on int", "statement": "For matrices whose sizes and numbers of entries an int can hold, transposing, extracting, combining, converting from coordinates, dense storage and access, offsets over ranks and rows of threads compute with int what unbounded integers would give, as long as the size of the result is an int.", "quantifier": "every matrix, block matrix, coordinate list, number of ranks and threads whose sizes are ints, up to the largest", "why_tests_cant": "inputs near 2^31 do not fit in a test", "anchors": ["include/sparsematrix.hpp: Transpose, Mult, GetSubMatrix", "include/coomatrix.hpp: ToSparse", "include/blockmatrix.hpp: Combine", "src/densematrix.cpp: DenseMatrix, SetSize", "include/densematrix.hpp: operator()", "modules/parlinalgcpp/src/parutilities.cpp: GenerateOffsets", "modules/parlinalgcpp/src/hypre_ops.cpp: ParMult"]}
{"id": "C96", "title": "Products on views", "statement": "Mult and MultAT through views of any memory write exactly the product into the output and change nothing else, also when input and output are parts of one buffer or the same vector.", "quantifier": "every matrix of the five classes, every state of memory, every pair of views, overlapping ones included", "why_tests_cant": "all placements of two views; wrong results under aliasing depend on the pattern", "anchors": ["include/sparsematrix.hpp: Mult, MultAT", "include/densematrix.hpp: Mult, MultAT", "include/coomatrix.hpp: Mult, MultAT", "include/lilmatrix.hpp: Mult, MultAT", "include/blockmatrix.hpp: Mult, MultAT"]}
{"id": "C97", "title": "Printed text", "statement": "The text written by Print shows every stored entry (position and value) of a sparse, coordinate, list, block or distributed matrix, every element of a vector and of a dense matrix; objects with the same text have the same entries.", "quantifier": "every matrix and vector, every label, width and precision, every value", "why_tests_cant": "all values and shapes; columns that run together and lost digits need particular values", "anchors": ["include/sparsematrix.hpp: Print, PrintDense", "include/coomatrix.hpp: Print", "include/lilmatrix.hpp: Print", "include/blockmatrix.hpp: Print, PrintDense", "include/vectorview.hpp: Print, operator<<", "src/densematrix.cpp: Print", "modules/parlinalgcpp/src/parmatrix.cpp: Print"]}
{"id": "C98", "title": "Communication packages", "statement": "MakeCommPkg returns on every rank a copy of the communication package of the distributed matrix: for every off-rank column of every rank the packages of all ranks together name the rank and the element of a distributed vector that belong there; a missing matrix or package is refused.", "quantifier": "every distributed matrix, every number of ranks and every pattern of messages between them", "why_tests_cant": "all communication patterns", "anchors": ["modules/parlinalgcpp/src/parcommpkg.cpp: ParCommPkg", "modules/parlinalgcpp/src/parmatrix.cpp: MakeCommPkg"]}
{"id": "C99", "title": "Eigenvalue solver", "statement": "LOBPCG returns the eigenvalues and leaves in x the vectors that the library's solver ends with when it works on the global matrix from the caller's vectors with the caller's preconditioner; vectors of the wrong size and failures of the solver are reported.", "quantifier": "every square distributed matrix and layout, every behaviour of the library's solver, every preconditioner and every set of start vectors", "why_tests_cant": "all behaviours of an external iteration; all layouts", "anchors": ["modules/parlinalgcpp/src/parsolvers.cpp: LOBPCG, MyMatvec, MySolve"]}
{"id": "C100", "title": "Rounding errors of products and sums", "statement": "On doubles, every element a product (sparse or coordinate matrix times vector or dense matrix, transposed product, product of sparse matrices, dense matrix times vector, inner product) returns differs from the exact sum of its n products by at most ((1+u)^n - 1) times the sum of their absolute values plus n (1+u)^n times half the smallest double (u = 2^-53); it is finite if the operands are and the sum of absolute values is not near the largest double; and it is exact for integer data below 2^53. Sum of a vector or matrix is off by at most ((1+u)^(n-1) - 1) times the sum of the absolute values, with the same two additions. L2Norm lies between (1-u) sqrt(s-b) and (1+u) sqrt(s+b), s being the exact sum of squares and b the bound for it, and is finite if no intermediate sum overflows. InnerProduct of distributed vectors with parts of at most n elements on p ranks is off by no more than n + p - 1 roundings (L2Norm of one accordingly), GlobalSum by n + p - 2, whatever order the communication adds in.", "quantifier": "every matrix and vector of doubles (subnormal numbers, infinities and NaN included), every number of entries, repeated entries and any order", "why_tests_cant": "all doubles and sizes", "anchors": ["include/sparsematrix.hpp: Mult, MultAT", "include/coomatrix.hpp: Mult", "include/densematrix.hpp: Mult, MultAT", "include/vectorview.hpp: InnerProduct, Sum, L2Norm", "modules/parlinalgcpp/src/parvector.cpp: Mult, GlobalSum"]}
{"id": "C101", "title": "Short forms of the interface agree with the long forms", "statement": "GetIndices(row), GetData(row) and RowSize(row) return exactly what is stored in that row; ScaleRows, ScaleCols and their inverses taking a diagonal matrix D give D A, A D, the B with D B = A and the B with B D = A, on one process and on a rank of a distributed matrix; the products of SparseMatrix, CooMatrix and LilMatrix that allocate their result give the product of the represented matrix; PrintDense writes what stands at each position; EigenSolver::Solve of a sparse matrix is Solve of the matrix it represents; the constructors taking one offset list give empty square block matrices and operators; GetBlock returns what SetBlock put there; a moved-from block matrix behaves like a default constructed one.", "quantifier": "all valid matrices of any shape and pattern, all diagonal matrices, all row and block numbers, all offset lists, all vectors", "why_tests_cant": "each overload has its own argument checks and its own way of finding the data; tests with one shape cannot show that an overload and its long form agree for all of them", "anchors": ["include/sparsematrix.hpp:GetIndices,GetData,RowSize,ScaleRows,InverseScaleRows,PrintDense", "src/operator.cpp:Mult,MultAT", "include/blockmatrix.hpp:BlockMatrix,PrintDense,swap", "src/blockoperator.cpp:GetBlock", "include/lilmatrix.hpp:ToDense", "modules/parlinalgcpp/src/parutilities.cpp:ParSub"]}
{"id": "C102", "title": "Programs on sparse matrices compute what they compute on mathematical matrices", "statement": "Every sequence of constructions, copies, moves, swaps, transposes, products, submatrices, scalings, divisions, permutations, sortings, eliminations of rows and columns and removals of stored zeros that makes sense for mathematical matrices runs without a fault, and every object then is, in its size and its products with any vector, the matrix the same sequence gives on mathematical matrices. How the matrices were stored at the start (order, repeated entries, stored zeros) and which std::sort is used make no difference. Products are associative, the transpose of a product is the product of the transposes in the other order, and a scale factor may be moved. The only members whose effect on the matrix depends on the storage are = value, AddDiag, EliminateRowCol and EliminateZeros with a tolerance.", "quantifier": "all finite sequences of statements on any number of objects, all sizes, all patterns, all ways to store the start matrices, every implementation of std::sort", "why_tests_cant": "sequences and storage forms are unbounded; an error in one member shows only when a later member depends on the invariant it broke", "anchors": ["include/sparsematrix.hpp:SparseMatrix,operator=,swap,Transpose,Mult,MultAT,GetSubMatrix,SortIndices,ScaleRows,ScaleCols,InverseScaleRows,InverseScaleCols,PermuteCols,EliminateRow,EliminateCol,EliminateZeros,operator*=,operator/="]}
{"id": "C103", "title": "Functions that do not change an object may be called from several threads", "statement": "A user may share a matrix or solver between threads as long as they only call const members and every thread writes to vectors of its own. For SparseMatrix, any number of threads that multiply by shared matrices (Mult, MultAT), call const members that return new objects, or change matrices no other thread uses, get under every schedule exactly what each call gives alone, without a data race, and nothing else changes. PCGSolver, MINRESSolver, PMINRESSolver, BlockOperator and LilMatrix keep mutable members and write them in const functions: two threads that call Mult or ToSparse on one such object race.", "quantifier": "all numbers of threads, all schedules, all sizes, all patterns, all values, any arithmetic; for the races every solver state and whatever the functions do afterwards", "why_tests_cant": "a test runs one schedule; a race shows as a wrong number only in rare interleavings, and the compiler may do anything with it", "anchors": ["include/sparsematrix.hpp:Mult,MultAT,Transpose,operator*=", "src/solvers.cpp:PCGSolver::Mult,MINRESSolver::Mult,PMINRESSolver::Mult", "src/blockoperator.cpp:BlockOperator::Mult", "include/lilmatrix.hpp:ToSparse"]}
{"id": "C104", "title": "A solver called on all ranks with a distributed matrix and Dot = ParMult computes the pieces of the sequential solution", "statement": "PCGSolver, MINRESSolver and PMINRESSolver take any Operator and an inner product. Called on all ranks of an MPI job with a ParMatrix and ParMult, they never leave a rank waiting for the others, whatever the arithmetic and the operators; all ranks do the same number of passes; and every rank ends with its piece of the vector that the same solver computes in one process with the whole matrix, or the job fails as that run fails. So PCGSolver solves a distributed symmetric positive definite system in at most as many passes as it has rows, in exact arithmetic. With the default inner product the ranks decide for themselves and can wait for each other forever.", "quantifier": "all numbers of ranks, all row distributions, all matrices, right-hand sides and starting vectors, all tolerances and limits, every order of summation in MPI_Allreduce; absence of deadlock also for rounded arithmetic", "why_tests_cant": "a test runs a few ranks on one matrix; a deadlock needs ranks that disagree about one comparison", "anchors": ["src/solvers.cpp:PCGSolver::Mult,MINRESSolver::Mult,PMINRESSolver::Mult", "include/solvers.hpp:Solver", "src/parmatrix.cpp:Mult", "src/parvector.cpp:ParMult"]}
{"id": "C105", "title": "When memory runs out an operation throws and leaves the objects as they were", "statement": "If a request for memory fails inside a member that changes a matrix or vector, std::bad_alloc reaches the caller, the object is as before the call, and the program can go on: after any history of calls, some of which threw, the object is what the calls that returned make of it. This holds for all members that change a SparseMatrix, for CooMatrix::Add(i, j, val) and Vector::SetSize. It fails for DenseMatrix::SetSize and every function with a DenseMatrix output (the new sizes are stored first, so that elements the matrix claims to have do not exist), for GetSubMatrix with a marker (left written, which spoils the next call), for CooMatrix::AddSym and block Add (some of the entries are in), for LilMatrix::Add (new empty rows), and for copies, whose noexcept turns the exception into the end of the program; for each of these, what does hold afterwards is proved as well.", "quantifier": "all matrices and arguments, every set of requests for memory that fail, every sequence of calls", "why_tests_cant": "a test would have to make each single allocation of each call fail", "anchors": ["include/sparsematrix.hpp:SortIndices,EliminateZeros,GetSubMatrix,SparseMatrix", "src/densematrix.cpp:SetSize,Transpose", "include/coomatrix.hpp:Add,AddSym", "include/lilmatrix.hpp:Add", "include/vector.hpp:SetSize,operator="]}
{"id": "C106", "title": "A system assembled in one place and solved on all ranks has the solution of the original system", "statement": "If a matrix that is symmetric between the vertices of each rank is distributed with ParSplit, and every rank gets the elements of its vertices of b and of the first guess, in the order of the vertices, then Mult of the distributed matrix, PCGSolver, MINRESSolver and PMINRESSolver (with Dot_ = ParMult) on all ranks end with the elements of its vertices of the result one process gets from the original matrix, after the same number of passes, or fail as that run fails. So CooMatrix::Add calls that make a symmetric positive definite matrix A, followed by ToSparse, ParSplit and PCGSolver on all ranks, give in exact arithmetic the shares of an x with b - A x within the tolerance, after at most as many passes as A has rows.", "quantifier": "all sequences of Add calls, all matrices, all assignments of vertices to any number of ranks, all right hand sides and first guesses, every sort and every order of summation", "why_tests_cant": "depends on every assignment of rows to ranks and on the renumbering, the communication and the iteration together; tests compare a few partitions", "anchors": ["src/parutilities.cpp:ParSplit", "src/solvers.cpp:PCGSolver,MINRESSolver,PMINRESSolver", "include/coomatrix.hpp:Add,ToSparse", "src/parmatrix.cpp:Mult", "src/parvector.cpp:ParMult"]}
{"id": "C107", "title": "A solver object is its two pointers, its settings and its count, after any history", "statement": "After any sequence of constructions, copies, moves, assignments and swaps of PCGSolver, MINRESSolver or PMINRESSolver objects, of SetMaxIter, SetRelTol, SetAbsTol, SetVerbose and SetOperator calls, of solves (including solves that threw) and of changes to the operators that keep their size, Mult of an object gives what a solver built at that moment on the operators as they are then, with the settings last made, would give; GetNumIterations, GetOperator, Rows and Cols are those of the object the value came from; a moved-from object is as a default-constructed one. Mult on an object without operator fails its assertion; using an operator that was destroyed, and SetOperator on an object without operator, is undefined, so such an object can be given an operator only by assignment. SetMaxIter accepts limits that the constructors refuse.", "quantifier": "all programs on any number of solvers and operators, all sizes and settings, every class of numbers (doubles included: no law of arithmetic is used), whatever a throwing solve leaves in the work vectors", "why_tests_cant": "the work vectors and the pointers are shared or left over in ways that depend on the whole history; tests use one object once", "anchors": ["src/solvers.cpp:Solver,PCGSolver,MINRESSolver,PMINRESSolver,swap,SetOperator,SetMaxIter,GetNumIterations", "include/solvers.hpp:Solver", "src/operator.cpp:Operator"]}
{"id": "C108", "title": "LU factorisation without pivoting: right exactly when no pivot is zero", "statement": "The factorisation program of the examples, lu_decomp, returns for every square DenseMatrix. If the leading blocks of sizes 1 to n-1 are nonsingular - and only then are all the pivots it divides by nonzero - L is unit lower triangular, U is upper triangular, L U = A, and they are the only such pair. If A is nonsingular too, solve_lu gives the solution of A x = b, the only one; positive definite matrices are such a case. forward_elim and back_solve read only their triangle. For a nonsingular matrix with a zero pivot the result is not a solution, and nothing reports it.", "quantifier": "all sizes, all matrices and right-hand sides, over every field", "why_tests_cant": "which pivots vanish depends on the values of all entries; the example runs one 4 x 4 matrix", "anchors": ["examples/dense/dense_lu.cpp:lu_decomp,forward_elim,back_solve,solve_lu", "include/densematrix.hpp:DenseMatrix::operator()"]}
{"id": "C109", "title": "QR factorisation by column views, least squares and the QR iteration", "statement": "The factorisation program of the examples, qr_decomp, which works on column views of two matrices, gives for every matrix with independent columns a Q with orthonormal columns and an upper triangular R with positive diagonal such that Q R = A, the only such pair; A is unchanged. For every other matrix, in particular for every one with more columns than rows (those that time_QR makes), the division by the norm of a column fails its assertion. solve_qr then gives the vector, the only one, that makes |b - A x| least, and the solution of a square nonsingular system. After any number of passes of the QR iteration on a nonsingular A, U is orthogonal and A U = U T, so T is symmetric if A is and its eigenvectors give those of A. symmetrize keeps the lower triangle.", "quantifier": "all sizes, matrices, right-hand sides and numbers of passes, over every ordered field with square roots", "why_tests_cant": "orthogonality and minimality quantify over all vectors; the program writes through views into the matrix it reads from", "anchors": ["examples/dense/dense_qr.cpp:qr_decomp,solve_qr,back_solve,QR_eig,time_QR", "examples/include/ex_utilities.hpp:symmetrize", "include/densematrix.hpp:DenseMatrix::GetColView", "include/vectorview.hpp:Add,VectorView::L2Norm"]}
{"id": "C110", "title": "Graph Laplacian of an adjacency matrix", "statement": "AdjToLaplacian of the examples keeps the pattern of an adjacency matrix with one stored diagonal entry per row, and stores the number of off-diagonal entries of the row on the diagonal and -1 elsewhere, so that the result applied to x gives at i the sum of x_i - x_j over the neighbours j: constant vectors are mapped to 0, and for a graph with edges in both directions the result is symmetric, its quadratic form is half the sum of the squared differences over all edges, between 0 and twice the largest degree times |x|^2, and it is 0 exactly for the vectors constant along all edges. A row without diagonal entry fails the assertion and nothing else does. What main() computes from a vertex-edge relation is the Laplacian of the graph whose vertices are adjacent if they share an edge, if every vertex has an edge; otherwise the assertion fails.", "quantifier": "all adjacency matrices and vertex-edge relations of any size, all vectors", "why_tests_cant": "the spectrum bounds and the null space quantify over all vectors and all graphs", "anchors": ["examples/sparse/sparse_basics.cpp:AdjToLaplacian,main", "include/sparsematrix.hpp:SparseMatrix::Transpose,SparseMatrix::Mult"]}
{"id": "C111", "title": "Power iteration", "statement": "PowerIterate of the examples returns the quotient (A y, y) / (y, y) of y = A^k x, x the random start, for the first k at which the relative change of the quotient is below the tolerance, or for the last pass allowed. It fails, by the assertion of the division, only at an A^k x that is 0: never for a nonsingular A and a start other than 0, and for a symmetric A exactly if A x = 0. The result lies between any two bounds of the quotients of A; from an eigenvector it is the eigenvalue. For a symmetric positive semidefinite A the quotients never decrease, and the result r of k + 1 passes satisfies lam^2k (x.v)^2 <= r^2k |x|^2 |v|^2 for every eigenvector v with eigenvalue lam, so it cannot stay below an eigenvalue whose eigenvector the start is not orthogonal to. On the Laplacian of a graph the result is between 0 and twice the largest degree.", "quantifier": "all operators that act as a matrix, all starts, tolerances and numbers of passes, over every ordered field with square roots", "why_tests_cant": "depends on a random start; convergence and monotonicity quantify over all matrices and all numbers of passes", "anchors": ["examples/sparse/sparse_basics.cpp:PowerIterate,main", "include/operator.hpp:Operator::Mult", "include/vectorview.hpp:VectorView::L2Norm,VectorView::Mult"]}
{"id": "C112", "title": "Arithmetic of distributed vectors", "statement": "The operators +=, -=, *=, /= and = of ParVectors act on every element of the distributed vector and on nothing else, and refuse parts of different sizes; SubAvg leaves elements that add up to 0. InnerProduct, the operator * of two vectors, Mult and L2Norm give, for ParVectors, the inner product and norm of the distributed vectors on every rank, and for VectorViews and Vectors those of the rank's own part; ParMult and ParL2Norm give the inner product and norm of the distributed vectors, and Normalize a vector of norm 1, whichever class they are called with.", "quantifier": "all numbers of ranks, distributions and contents, any order of the additions in the reduction", "why_tests_cant": "what is called depends on the class of the object at run time and on whether it is passed by value; with one rank all versions agree", "anchors": ["modules/parlinalgcpp/src/parvector.cpp:ParVector::Mult,ParVector::L2Norm,ParMult,ParL2Norm,ParVector::operator+=,SubAvg", "include/vectorview.hpp:InnerProduct,L2Norm,VectorView::Mult", "src/vectorview.cpp:Normalize"]}
{"id": "C113", "title": "Rounding errors of elimination", "statement": "With doubles, the triangular solves and the LU factorisation of the dense examples finish with doubles for every square matrix and right-hand side. Wherever the numbers concerned are finite, each row of a triangular system is solved up to gamma_n |M| |x|, the product of the computed factors is A up to gamma_n |L| |U|, and the computed solution solves exactly a system whose matrix differs by at most gamma_3n |L| |U|, up to multiples of the smallest double; L is exactly unit lower triangular. Here gamma_k = (1 + 2^-53)^k - 1.", "quantifier": "all sizes, matrices and right-hand sides of doubles, infinities and not-a-numbers included", "why_tests_cant": "errors grow with the size and depend on the values; a test compares with a tolerance on a few systems", "anchors": ["examples/dense/dense_lu.cpp:lu_decomp,forward_elim,back_solve,solve,LU", "examples/dense/dense_qr.cpp:back_solve"]}
{"id": "C114", "title": "Functions that return a new object", "statement": "x + y, x - y, x * t, t * x, x / t and t / x leave every existing vector as it was and return a new one with the entrywise result, also for x and y the same vector; different sizes and a divisor t equal to zero are refused. The solver functions that choose their own random start (CG, PCG, MINRES, PMINRES without an x argument) return, for every start the random numbers can give, an x of the right length whose residual is below the tolerance (MINRES and PMINRES refuse a start that already solves the system). The products of a sparse and a dense matrix, the dense transpose of a sparse matrix and GetCol/GetRow that allocate their result return the matrix or vector the mathematics defines.", "quantifier": "all histories of vectors, all operands and scalars; all symmetric systems (positive definite for CG), right-hand sides and sequences of random numbers; all valid matrices", "why_tests_cant": "the random start differs in every run, and aliasing of operands with earlier vectors depends on the history", "anchors": ["include/vector.hpp:operator+,operator-,operator*,operator/", "src/solvers.cpp:CG,PCG,MINRES,PMINRES", "include/sparsematrix.hpp:Mult,MultAT,MultCT,TransposeDense", "include/densematrix.hpp:GetCol,GetRow"]}
{"id": "C115", "title": "The conjugate gradient result is the best of its Krylov space", "statement": "In exact arithmetic, on a symmetric positive definite system with a symmetric preconditioner M and a positive tolerance, m passes of CG or PCG return the start plus a combination of M r, M A M r, ... (m vectors, r the residual of the start), and no other such combination is nearer to the solution in the energy norm; the residual is orthogonal to all of them. The passes made are never more than such a combination needs to reach the solution, in particular never more than the number of distinct eigenvalues of M A that occur in the error of the start, whatever the dimension.", "quantifier": "all sizes, symmetric positive definite operators, symmetric preconditioners, right-hand sides, starts, parameters, all numbers of passes and all competing combinations", "why_tests_cant": "optimality compares the result with every other vector of the space, for every system and every number of passes", "anchors": ["src/solvers.cpp:PCGSolver::Mult,CG,PCG"]}
{"id": "C116", "title": "The minimal residual result has the least residual of its Krylov space", "statement": "In exact arithmetic, on a symmetric nonsingular system, possibly indefinite, with a symmetric positive definite preconditioner M for PMINRES, m passes of MINRES or PMINRES return the start plus a combination of M r, M A M r, ... (m vectors, r the residual of the start; M is the identity for MINRES), and no other such combination has a smaller residual in the inner product of M. With a positive tolerance the passes made are never more than such a combination needs to reach the solution, in particular never more than the number of distinct eigenvalues of M A that occur in the error of the start. The passes are the applications of A after the first.", "quantifier": "all sizes, symmetric nonsingular operators, symmetric positive definite preconditioners, right-hand sides, starts, parameters, all numbers of passes and all competing combinations", "why_tests_cant": "optimality compares the result with every other vector of the space, for every system and every number of passes", "anchors": ["src/solvers.cpp:MINRESSolver::Mult,PMINRESSolver::Mult,MINRES,PMINRES"]}
{"id": "C117", "title": "The Krylov solvers converge at the Chebyshev rate", "statement": "In exact arithmetic, with a positive tolerance, on a symmetric positive definite system whose preconditioned matrix has its eigenvalues between lo and hi, the energy norm of the error after m passes of CG or PCG is at most that of the start divided by the Chebyshev polynomial T_m at (hi + lo) / (hi - lo); over the reals with 0 < lo at most 2 ((sqrt hi - sqrt lo) / (sqrt hi + sqrt lo))^m times that of the start. For MINRES and PMINRES on a symmetric, possibly indefinite, system with eigenvalue magnitudes between lo and hi, the residual after 2 q passes or more is at most that of the start divided by T_q at (hi^2 + lo^2) / (hi^2 - lo^2), and over the reals at most 2 ((hi - lo) / (hi + lo))^q times that of the start. None of this depends on the size.", "quantifier": "all sizes, operators, preconditioners and eigenvalue bounds, right-hand sides, starts, parameters and numbers of passes", "why_tests_cant": "a rate is a bound for every matrix with the given eigenvalues and every number of passes", "anchors": ["src/solvers.cpp:PCGSolver::Mult,CG,PCG,MINRESSolver::Mult,PMINRESSolver::Mult,MINRES,PMINRES"]}
{"id": "C118", "title": "The Krylov solvers need no more passes than the eigenvalues call for", "statement": "In exact real arithmetic with a positive tolerance: CG and PCG on a symmetric positive definite system whose preconditioned matrix has its eigenvalues between lo and hi, 0 < lo, make at most m passes as soon as 4 (hi / lo) ((sqrt hi - sqrt lo) / (sqrt hi + sqrt lo))^(2 m) is below the square of the relative tolerance, and meet the tolerance when the limit allows m passes. MINRES and PMINRES on a symmetric system with eigenvalue magnitudes between lo and hi make at most 2 q passes as soon as 2 ((hi - lo) / (hi + lo))^q is below the square of the relative tolerance, and meet the tolerance when the limit allows 2 q passes. The size of the system does not enter. In any arithmetic, a call that ended before its limit gives the same result under every larger limit.", "quantifier": "all sizes, operators, preconditioners, eigenvalue bounds, right-hand sides, starts, parameters and limits", "why_tests_cant": "a bound on the number of iterations that holds for every matrix of every size cannot be settled by runs", "anchors": ["src/solvers.cpp:PCGSolver::Mult,CG,PCG,MINRESSolver::Mult,PMINRESSolver::Mult,MINRES,PMINRES"]}
{"id": "C119", "title": "Writes through the vectors and views of a SparseMatrix change exactly the entries written to", "statement": "GetIndicesView(row) shows the columns stored in the row, as many as RowSize(row). Any sequence of assignments through GetIndicesView(row)[i], GetIndices()[k] and GetData()[k] to existing entries, of existing columns, leaves a valid matrix of the same size whose stored entries are those before with exactly the assigned columns and values replaced, in the same order. A row that does not exist and an index at or past the end of the view are rejected.", "quantifier": "all scalars, matrices, rows, indices, columns, values and sequences of assignments of any length", "why_tests_cant": "tests try a few assignments; that no other entry is touched must hold for every matrix and every sequence", "anchors": ["include/sparsematrix.hpp:SparseMatrix::GetIndicesView,GetIndices,GetData; include/vectorview.hpp:VectorView::operator[]"]}
{"id": "C120", "title": "A call whose arguments do not fit is stopped by an assertion", "statement": "In a build with assertions: SparseMatrix, DenseMatrix, CooMatrix, LilMatrix, BlockMatrix, BlockOperator and VectorView calls with vectors, matrices, index lists, markers or permutations of the wrong length, with element, row, column or block numbers past the end, with negative sizes, with division by zero (a zero scalar, a zero among the values of InverseScaleRows, a zero for a column with a stored entry in InverseScaleCols), or with a triplet outside the declared size, and Partition and MakeAdjacencyInfo of a matrix that is not square or into an impossible number of parts, end in a failed assertion, not in undefined behaviour and not in a result.", "quantifier": "all scalars, matrices, vectors, lists, indices and values", "why_tests_cant": "the arguments that do not fit are infinitely many for every function; a test tries one of them", "anchors": ["include/sparsematrix.hpp:SparseMatrix; include/densematrix.hpp:DenseMatrix; src/densematrix.cpp; include/coomatrix.hpp:CooMatrix; include/lilmatrix.hpp:LilMatrix; include/blockmatrix.hpp:BlockMatrix; src/blockoperator.cpp:BlockOperator; include/vectorview.hpp:VectorView; modules/partition/include/partition.hpp:Partition,MakeAdjacencyInfo"]}

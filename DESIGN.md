# Formal model of gelever/linalgcpp — design

The model is in `rocq/theories`.  Each area of the library has the same five kinds of file:

| file | contents |
|------|----------|
| `X.v` | the model: one Gallina function per C++ function, each with a citation of file and lines |
| `XSpec.v` | what a reader has to trust to read the theorems (a few definitions, no proofs) |
| `XProofs.v`, `XMore.v`, … | invariants and lemmas |
| `XLinks.v` | lemmas stated exactly as the properties |
| `PropX.v` | the properties: `Theorem Cnn_…`, closed by `exact`, each followed by `Print Assumptions`, with `Example Cnn_instance` showing that a concrete case meets the hypotheses |

`properties.jsonl` states the properties in English, `MANIFEST.json` maps them to theorems, `seeded/LOG.jsonl` records the
wrong programs the theorems were tested against.

## 1. Shape of the model

* **One C++ function, one Gallina function.**  Every model definition cites the lines of `/repo` it follows and lists its
  simplifications.  Loops are loops (`for_` over a range of `Z`), arrays are lists indexed by `Z`, and the order of reads,
  writes and arithmetic operations is the order of the C++ text.
* **Undefined behaviour is an outcome.**  Functions return `res A := Ok a | Fail f`, where `f` is `FAssert` (an assertion
  or a `linalgcpp_verify` that does not hold), `FThrow` (an exception) or `FUB` (a read or write outside an array,
  dereference of `end()`, use of an uninitialised member, a data race).  Array access is checked and there are no default
  values.  "Memory safe" in a theorem means: the result is `Ok _`.
* **Asserts** are modelled as active.  Where the behaviour without asserts matters it is modelled separately (C64).
* **Scalars.**  The templates are modelled over a record `scalar` of operations without laws.  A theorem that needs algebra
  carries an explicit hypothesis (`ring_laws S`, `field_laws S`, `order_laws S`, …).  Structure theorems (memory safety,
  validity, frame conditions, independence of threads) need no law, hence hold for IEEE doubles too.  Instances: `Z` (for
  `int`), `Qc`, `R`, Coq's primitive binary64 floats (`Fs`) and the standard library's `spec_float` (`SFs`, axiom-free
  binary64).  For doubles every `+`, `-`, `*`, `/` of the text is one operation rounded to nearest even: a compiler that
  fuses a multiplication with an addition or reassociates sums (`-ffast-math`) is outside the model.
* **Integers.**  `int`/`size_t` values are `Z`.  Overflow of `int` is modelled in `I32.v` and `I32Par.v` for the functions
  whose results depend on sums, products and counters (C95); the other theorems speak about runs whose index arithmetic
  stays below 2^31.  Allocation of a negative size throws.
* **Aliasing.**  Vectors and views live in a heap of buffers; a view is (buffer, offset, size) (`Vec.v`).  Matrices own
  their arrays and are values.
* **Threads.**  A parallel region is a list of programs over shared arrays (`Threads.v`).  The schedule is an arbitrary
  list of thread numbers; one step executes one read or write; a step that conflicts with the next access of another
  thread is `FUB`.  A theorem about all schedules that concludes `Ok` therefore excludes data races.
* **Ranks.**  An MPI program is a list of ranks.  All ranks make the same calls in the same order, so a collective is one
  function of the data of all ranks (`Par.v`).
* **External code** (BLAS, LAPACK, UMFPACK, METIS, HYPRE, MPI, `std::sort`, iostreams' decimal conversion of doubles) is
  not modelled.  A theorem that needs it quantifies over every function that meets a stated contract: `sorts`,
  `reorders`, `finds`, `extracted`, the dgemm/dgemv contracts in `DenseSpec`/`DenseLinks`, the LAPACK contracts of C55 and C93, the
  UMFPACK contract of C66, hypre's products in C94.  Decimal conversion is itself modelled (`Text.v`, `Double.v`).

## 2. Specification layer

`Spec.v` contains what a reader has to trust to read the matrix theorems: finite sums, a matrix as a function
`Z -> Z -> T`, the matrix of a list of entries (the sum of the values at a position), CSR validity, `mat_vec`, `mat_mul`.
The other `*Spec.v` files are small and self-contained.  No theorem statement mentions an invariant or a helper of a proof.

## 3. What is modelled

| files in /repo | model | properties |
|---|---|---|
| `include/sparsematrix.hpp`, `src/sparsematrix.cpp` | `Sparse.v`, `SparseMore.v`, `SparseHistory.v` | C01–C04, C11–C23, C65 |
| `include/coomatrix.hpp`, `src/coomatrix.cpp` | `Coo.v` | C05–C08, C11, C69 |
| `include/lilmatrix.hpp` | `Lil.v` | C09–C11 |
| `include/densematrix.hpp`, `src/densematrix.cpp` | `Dense.v`, `DenseFactor.v` (SVD, QR, Invert) | C14, C20, C24–C29, C67, C68, C93 |
| `include/vector.hpp`, `vectorview.hpp`, `src/vector*.cpp` | `Vec.v` | C30–C33, C63, C70–C72 |
| `include/blockvector.hpp`, `blockmatrix.hpp`, `blockoperator.hpp`, `src/blockoperator.cpp` | `Block.v` | C34–C39 |
| `include/operator.hpp`, `src/operator.cpp` | `BlockOp.v`, `Solver.v` | C21, C73 |
| `include/solvers.hpp`, `src/solvers.cpp` | `Solver.v` | C40–C43, C74–C77 |
| `include/parser.hpp`, `utilities.hpp` | `Text.v`, `Parser.v`, `Double.v` | C44–C50, C64, C78–C81 |
| `include/argparser.hpp`, `src/argparser.cpp`, `timer.*` | `Args.v` | C51, C52, C82 |
| `src/eigensolver.cpp` | `Eigen.v` | C55 |
| `modules/partition` | `Partition.v` | C53, C54 |
| `modules/sparsesolver` | `SparseSolve.v` | C66 |
| `modules/parlinalgcpp/src/parutilities.cpp`, `parmatrix.cpp`, `parvector.cpp` | `Par.v` | C56–C59, C62, C83–C86 |
| `modules/parlinalgcpp/src/hypre_ops.cpp` (RowSizes, Mult) | `Threads.v`, `HypreOps.v` | C60, C61 |
| `modules/parlinalgcpp/src/hypre_ops.cpp` (Transpose, L1Norms), RAP | `HypreTranspose.v`, `HypreNorms.v` | C87–C89 |
| copy, move, assignment and swap of `SparseMatrix`, `DenseMatrix`, `CooMatrix`, `LilMatrix`, `BlockMatrix`, `BlockVector`, `BlockOperator` and the iterative solvers | `Life.v` | C63 |
| `modules/parlinalgcpp/src/{paroperator,parmatrix,parvector,parsolvers,parsmoother}.cpp` (object life, solver set-up) | `ParLife.v` | C90–C92 |
| `modules/parlinalgcpp/src/parmatrix.cpp` (products with vectors) | `ParMatvec.v` | C94 |
| the functions above that count, add or multiply ints, with overflow | `I32.v`, `I32Par.v` | C95 |
| Mult and MultAT of the five matrix classes on views | `VecMat.v` | C96 |
| Print, PrintDense and operator<< of matrices and vectors | `Print.v` | C97 |
| ParCommPkg and MakeCommPkg | `CommPkg.v` | C98 |
| LOBPCG | `Lobpcg.v` | C99 |
| Mult and InnerProduct on doubles | the same models over `SFs` | C100 |
| GetIndices(row), GetData(row), RowSize; scaling by a matrix; allocating products; PrintDense; Solve of a sparse matrix; one-list block constructors, GetBlock, move and swap of block matrices; ParSub with a marker | `Sparse.v`, `Coo.v`, `Lil.v`, `Print.v`, `Eigen.v`, `Block.v`, `Par.v` | C101 |
| Programs of SparseMatrix statements, seen as programs on mathematical matrices | `SparseHistory.v`, `ProgramSpec.v` | C102 |
| Members called by several threads at once: SparseMatrix const members, and the mutable members of PCGSolver, MINRESSolver, PMINRESSolver, BlockOperator, LilMatrix | `Concurrent.v` | C103 |
| The Krylov solvers run on all ranks with a ParMatrix | `Spmd.v`, reusing `Solver.v`, `ParMatvec.v` | C104 |
| Failing requests for memory in members that change an object | `Alloc.v`, reusing `Sparse.v`, `Dense.v`, `Coo.v`, `Lil.v` | C105 |
| Solver objects in programs: constructors, setters, SetOperator, Mult; operators without state of their own, arbitrary work vectors after a throw | `SolverObj.v`, reusing `Life.v`, `Solver.v` | C107 |
| LU factorisation and triangular solves of examples/dense/dense_lu.cpp; printing and timing left out | `LuQr.v`, on `Dense.v` | C108, C113 |
| QR factorisation, least squares, QR iteration of examples/dense/dense_qr.cpp, symmetrize of ex_utilities.hpp; exact arithmetic, `root` for std::sqrt; printing, timing and the random matrices left out | `LuQr.v`, on `Vec.v` and `Dense.v` | C109 |
| AdjToLaplacian, PowerIterate and main() up to the printed eigenvalue of examples/sparse/sparse_basics.cpp; exact arithmetic, `root` for std::sqrt; reading the file and printing left out | `Basics.v`, on `Sparse.v` and `Solver.v` | C110, C111 |
| Operators of ParVector, the overridden Mult and L2Norm, ParMult and ParL2Norm for either class of argument, Normalize with a ParVector | `ParVec.v`, on `Par.v` and `Vec.v` | C112 |
| Operators of Vector that return a vector, the solver functions that return x, the products, transposes, rows and columns that allocate their result | `Returns.v` | C114 |

Not modelled: random number generation (C72 quantifies over its values), exceptions thrown by
allocation outside the functions of C105, 32-bit overflow outside the functions of C95, wall-clock time (C52 quantifies over the readings).

## 4. Plan per property

| id | model | proof |
|----|-------|-------|
| C01, C02, C21 | `sp_mult`, `sp_multAT` | Hoare rules for `for_`, invariant "rows < i done"; adjointness by exchange of sums |
| C03 | `sp_transpose` (count, prefix sum, scatter, shift) | counting-sort invariant |
| C04 | `sp_spmult`, two passes with marker | marker invariant, exact order of accumulation, then algebra |
| C05–C08, C69 | `coo_*` with the map-based accumulation | fold invariants; MultAT's reversed asserts as refutation |
| C09, C10 | `lil_*` | proved for sized matrices; refuted for deduced size |
| C11 | three `EliminateZeros` | proved for CSR; Coo/Lil refuted (`<` against tolerance 0) |
| C12 | `sp_sort_indices`; `std::sort` as any function returning a sorted permutation | permutation invariance of the matrix |
| C13 | `sp_submatrix` | marker invariant; refutation for repeated columns |
| C14 | `sp_to_dense` | proved without duplicates; refuted with |
| C15–C20 | remaining CSR methods | entrywise maps over the arrays |
| C22 | histories: lists of operations over any number of objects | invariant |
| C23 | constructor check | refuted: row pointers are not checked |
| C24–C29, C67, C68 | column-major dense model | index arithmetic; dgemm by contract |
| C30–C33, C70–C72 | heap of buffers, views = (buffer, offset, size) | frame lemmas; C33 refuted on floats |
| C34–C39 | block structures | sums over blocks; `Transpose` refuted |
| C40–C43, C74–C77 | solver loops over abstract linear operators | loop invariants over exact fields; Krylov argument for C76; refutations for limits and zero residual |
| C44–C50, C78–C81 | files as byte lists and token lists | round-trip lemmas; decimal text of binary64 from first principles; refutations for lost size and precision |
| C51, C82 | argument list parser over strings, map of flags | fold invariants |
| C52 | list of clock readings | telescoping sum |
| C53–C55 | loops over label and eigenvalue arrays | invariants; refutations (reserve of a negative count, read past the end) |
| C56–C59, C62, C83–C86 | ranks as list positions, collectives as functions of all ranks' data | prefix sums, block assembly; refutations for ParAdd and ParSplit |
| C60, C61 | threads as programs over shared arrays, arbitrary schedule | weakest preconditions per thread with disjoint write sets ⇒ the phase is equal to running the threads one after the other; row-by-row accumulation as in C04 |
| C87, C89 | all ranks together; messages as functions of the sent arrays; communication packages by contract | counting sort per rank, permutation of the stored entries over all ranks, then C61 |
| C88 | the loops over the two blocks, option by option | exact result; refuted for rows without local entries |
| C90 | objects hold pointers into a heap of hypre objects; storage of members has an identity; histories of operations | ownership invariant: the live hypre objects are, up to order, what the objects hold; every operation as a triple with frame |
| C91, C92 | what Mult hands to hypre (matrix, parameters, state of the hypre solver) as a value | exact request after every constructor; `copied` says what a copy asks for |
| C93 | LAPACK as functions of the elements with guarded reads, writes and scratch space; contracts per routine | exact outcome of every call; QR of wide matrices refuted |
| C94 | all ranks together; hypre's products by a contract for vectors with the partitions of the matrix | both products; the overloads for views refuted unless rows and columns are split alike |
| C95 | the functions again, each int operation checked | agreement with the unchecked functions below the limit, undefined behaviour above; counters by invariants on their sums |
| C96 | the products again on the heap of buffers of C30, input and output as views | simulation by the functions on lists when the views are apart; frame lemmas for overlaps; refuted in place |
| C97 | output as a list of bytes; %g and %f of binary64 from first principles | the text as a concatenation of lines that can be split again from the left; refuted for six digits and for precision 0 |
| C98 | hypre's package as counters and memory behind pointers; checked copies; messages as a relation over all ranks | loops copy prefixes; segments of the receiver matched with segments of the sender; refuted for a null pointer |
| C99 | hypre's solver as an arbitrary interactive program that asks for products; views of its vectors; copies in and out | induction on the program; uniqueness of distributed vectors; refuted for long start vectors and the status |
| C100 | the products above, and Sum, on `SFs`; values as real numbers through Flocq | one rounding per operation (Flocq); induction on the list of products carrying error and range; for sums (`RoundSum.v`) without the underflow term, as an addition that underflows is exact; L2Norm (`RoundNorm.v`, with the correctly rounded square root `SFsqrt` for std::sqrt) from the bound on the sum of squares, which is never negative, and one more rounding, which cannot underflow; distributed InnerProduct, GlobalSum and L2Norm (`RoundWorld.v`, `RoundNormWorld.v`) by induction on the tree of additions the reduction makes, for every tree |
| C101 | the overloads of the models above | each reduced to the theorem about its long form; row access from the CSR invariant, a diagonal matrix from the list of coordinates it stores |
| C102 | `SparseHistory.v` (statements on stored matrices) against `ProgramSpec.v` (the same statements on tables of numbers) | forward simulation: the relation "the object represents the table" is kept by every statement; induction over the program; the laws of products from exchanging sums |
| C103 | `Concurrent.v` (the members as programs of single reads and writes on the threads of `Threads.v`), `ConcurrentSpec.v` | every thread's reads and writes stay in the arrays the specification names, so it does what it does alone (`par_phase_ok`); the races by a schedule that runs both threads to their writes of the same member |
| C104 | `Spmd.v` (the solvers as scripts of local loops, inner products and operator products, run by one process or by all ranks; the outcome of a job is Done, Crash or Deadlock), `SpmdSpec.v` (pieces of a vector, collective operators) | induction over scripts: ranks that got the same inner products are at the same place, and the pieces stay the pieces of the sequential run; the scripts in one process are `Solver.v` (`SpmdSolvers.v`); a ParMatrix is collective by C94 (`SpmdMatrix.v`); convergence by C76 |
| C105 | `Alloc.v` (calls in a monad with the object of the caller as state, in which every request for memory asks an arbitrary function of its number; outcomes Done, BadAlloc with the object as it is then, Failed, Terminated), `AllocSpec.v` (all or nothing; programs that catch) | calls that only read until the last write, closed under sequencing and loops; induction over histories; refutations for all inputs where the code writes first |
| C106 | nothing new: `Coo.v`, `Par.v` (ParSplit), `Spmd.v`, `Solver.v`; `SplitSpec.v` says what the share of a rank is | `SplitSolve.v`: scripts commute with a renumbering of the elements (sums by permutation); the product of the split matrix on the shares; composed with C05, C59, C75 and C104 |
| C107 | `SolverObj.v`: the setters, getters, SetOperator, constructors and Mult of the three solver classes on objects with pointers into a memory of operators, on top of `Life.v` and `Solver.v` | `SolverObjSpec.v`: the same programs on handles without work vectors; `SolverObjProofs.v`: refinement, step by step, for any class with the needed facts, then the facts for the three classes; the work vectors do not matter by C77, which now holds for operators that compute any function |
| C108 | `LuQr.v`: the LU program of examples/dense on the DenseMatrix and Vector of the library | `LuQrSpec.v`: triangular matrices, leading blocks; `LuProofs.v`: loop invariant A = L U with U reduced up to the current column; `LuMore.v`: a zero pivot gives a kernel vector of the leading block; `LuLinks.v`: the converse |
| C109 | `LuQr.v`: the QR program of examples/dense, on the heap of `Vec.v` with the column views of two matrices; the QR iteration; symmetrize | `LuQrSpec.v`: orthonormal columns, independent columns, misfit; `QrHeap.v`: columns of a buffer; `QrProofs.v`: invariant of the Gram-Schmidt loop, a vanishing column gives a combination of the columns; `QrMore.v`: the two cases, uniqueness, least squares; `QrEig.v`: similarity as invariant |
| C110 | `Basics.v`: AdjToLaplacian and the first part of main() of examples/sparse/sparse_basics.cpp | `BasicsSpec.v`: edges, neighbours, laplacian; `LapProofs.v`: row loop by invariant; `LapMore.v`: the matrix, energy, bounds, null space; `LapIncidence.v`: the product with the transpose |
| C111 | `Basics.v`: PowerIterate on any operator, the random start as a quantified function | `BasicsSpec.v`: A^k x, quotient, outcome; `PowerProofs.v`: the loop follows A^k x up to a factor; `PowerMore.v`: moments of a symmetric semidefinite matrix, Cauchy-Schwarz for the form; `PowerLinks.v`: the call, the Laplacian |
| C112 | `ParVec.v`: the operators of ParVector on every rank; the virtual calls Mult and L2Norm resolved by the class of the argument; Normalize by value | `ParVecSpec.v`: elementwise action on the distributed vector; `ParVecMore.v`: inner products and operators; `ParVecNorm.v`: Normalize, SubAvg, refused sizes |
| C113 | `LuQr.v` over doubles (`SFs`) | `RoundTriSpec.v`: gamma_n, triangles and absolute values of real matrices; `RoundTriFacts.v`: error of a chain of subtractions of products; `RoundTri.v`: triangular systems; `RoundLu.v`: the factorisation; `RoundLuSolve.v`: the solve and the nearby system |
| C114 | `Returns.v`, on `Vec.v`, `Solver.v`, `Sparse.v`, `Dense.v`; the random numbers are an arbitrary sequence | `ReturnsSpec.v`: a call that adds one vector and changes none; `ReturnsProofs.v`: steps of the history refinement of C30 for each call, and the convergence theorems from an arbitrary start |
| C115 | `Solver.v` (`pcg_mult`), over any ordered field | `KrylovSpec.v`: the Krylov vectors, their combinations, the number of passes and sums of eigenvectors; `SolverOptimal.v`: an invariant beside that of C76 (the directions and the change of x are in the space, what is orthogonal to the directions is orthogonal to the space); the eigenvalue bound by the product of (1 - M A / l) |
| C116 | `Solver.v` (`minres_mult`, `pminres_mult`), over any ordered field with roots | `KrylovSpec.v`: `least_residual`, `reaches`, `error_of`; `SolverMinOpt.v`: an invariant beside the Lanczos invariant of C76 (the Lanczos vectors and the search directions are in the space, the residual is M-orthogonal to A times each Krylov vector used) |
| C117 | `Solver.v` (`pcg_mult`, `minres_mult`, `pminres_mult`), over any ordered field, and over the reals | `RateSpec.v`: the Chebyshev polynomials and what it means that eigenvalues lie in an interval, by quadratic forms; `SolverRate.v`: T_m(G)^2 + (1 - G^2) U_(m-1)(G)^2 = 1 for an operator G that is symmetric in an inner product and between -1 and 1, so T_m(G) does not lengthen; the optimality of C115 and C116 against the combination T_m(G) / T_m; `SolverRateR.v`: T_m of (z + 1/z) / 2 is (z^m + z^-m) / 2 |
| C118 | `Solver.v` (`pcg_mult`, `minres_mult`, `pminres_mult`), over the reals; the larger limit over any scalars | `SolverBound.v`: a PCG run cut short after m passes is a prefix whose stop test failed (`loop_smaller`), a MINRES run that went on had a least residual above the tolerance after each pass (`loop_early`); with the rates of C117 that is a contradiction after m passes; r . M r is between lo and hi times the energy of the error |
| C119 | `Access.v` (`sp_indices_view`, `iv_read`, `iv_write`, `sp_set_index`, `sp_set_value`), over any scalars | `AccessProofs.v`: position k of the storage is element k of the entry list (`zn_positions_snd`), the entries of earlier rows number `ptr A row`; induction over the sequence, `proper` being unchanged by the assignments. A negative view index is not rejected: it moves an entry of an earlier row (`C119_negative_index_refuted`) |
| C120 | the asserting members of `Sparse.v`, `Dense.v`, `Coo.v`, `Lil.v`, `Block.v`, `Vec.v`, `Solver.v`, `SparseSolve.v`, ParAdd of `Par.v`, and `Partition.v`, over any scalars | `RejectProofs.v`: case analysis on the leading asserts; for the asserts inside loops (`InverseScaleRows`, `InverseScaleCols`, `PermuteCols`, `GetSubMatrix`, `Add(rows, cols, values)`) an invariant by which every earlier step returns or fails the same way (`for_stops`, `foldM_stops`) |
| C63 | heap model of copies and moves for `Vector`; the other classes member by member, histories of copies, moves, assignments and swaps | frame lemmas; refinement to plain values |
| C64 | the macro as a function of the build flag | refuted |
| C65 | sums | proved; `MaxNorm` refuted |
| C66 | UMFPACK as an oracle with a contract on CSC arrays | duality CSR/CSC, histories of copies and moves |
| C73 | any object that represents a matrix | inversion of the interface |

## 5. Partial and refuted properties

A property the code does not have is kept at full strength in `properties.jsonl`, has status `partial`, a theorem
`Cnn_…_refuted` (a witness, or a universal statement that it always fails) and theorems for the largest part that does
hold.  The notes in `MANIFEST.json` say which is which.  Defects found this way:

* `linalgcpp_assert` is active in release builds and a no-op in debug builds (C64).
* `CooMatrix::MultAT` and `LilMatrix::MultAT` assert the sizes of `Mult`: every rectangular matrix is refused (C08, C10).
* `CooMatrix::Mult` without a declared size asserts against 0 (C08); the empty matrix becomes 1 × 1 (C07).
* `LilMatrix::ToSparse` with deduced size yields one row too many and an invalid CSR structure (C09).
* `CooMatrix`/`LilMatrix::EliminateZeros` keep exact zeros with the default tolerance (C11).
* `SparseMatrix::GetSubMatrix` loses repeated columns (C13); `ToDense` overwrites repeated coordinates (C14);
  `GetDiag`, `EliminateRowCol` differ for repeated coordinates (C16, C18); `MaxNorm` returns the sum of magnitudes (C65).
* The CSR constructor accepts row pointers that are not monotone (C23).
* `BlockMatrix::Transpose` does not transpose the blocks (C38); `BlockVector(data, offsets)` does not check sizes (C34).
* Negative indices pass the bounds assertions (C71).
* Views: assigning overlapping ranges and a vector's own tail (C30), `Add` with overlapping arguments (C32), comparison of
  doubles is not transitive and accepts NaN (C33).
* PCG with `max_iter` 0 or 1 still iterates, reports 2 (C42); zero tolerances from an exact start compute 0/0, and MINRES
  aborts from every exact start (C43); MINRES compares a norm with squared tolerances (C75).
* Binary IO takes `&v[0]` of empty vectors (C44), a truncated binary vector is returned with whatever was in memory
  (C78); `WriteCooList` keeps six digits (C47), text output 16 digits, which does not determine a double (C49); readers
  use uninitialised sizes on malformed input (C81).
* ArgParser accepts malformed lines silently (C51).
* `MakeAdjacencyInfo` reserves `nnz - rows` elements, negative for sparse graphs (C54).
* `EigenSolver::Solve` returns one pair for `max_evect = 0` and reads past the eigenvalues (C55).
* After a move from a `CooMatrix` or `LilMatrix` the source holds a `size_set_` that was never set; everything that asks for its size reads it (C63). The move constructors of `PCGSolver` and `PMINRESSolver` leave the preconditioner pointer of the source uninitialised in the same way.
* `SparseSolver`: destroying a moved-from solver and copying an empty one are undefined (C66).
* `ParAdd(alpha, A, beta, B)` forgets a coefficient (C58); `ParSplit` mirrors the upper half of diagonal blocks (C59);
  `ParMatrix::MaxNorm` is a maximum of sums (C85); `ParVector::Init` refuses an empty last rank and reads a two-element
  partition out of bounds (C86).
* `L1Norms` reads the first value of every row of the diag block without checking that there is one (C88).
* Move constructors: `ParSolver(ParSolver&&)` leaves its function pointers uninitialised and swaps them into the source,
  whose destructor calls through them; `ParSmoother(ParSmoother&&)` does the same with `buffer_shell_` (C90).
* Copies: a `ParaSails` copy destroys a null solver; copying a default constructed `ParVector` or `ParSmoother` fails (C90);
  a `BoomerAMG` copy is never set up, a `ParCG` copy loses its parameters (C91).
* `ParVector::SetSize` (inherited) leaves the hypre vector pointing to released storage (C90).
* `ParCG(A, M, …)` passes `GetSetupFn()` where hypre expects the function that applies the preconditioner (C92).
* `ParaSails` passes its `double` load balance through an `int` parameter (C91).
* `DenseMatrix::QR` sizes the pivot array by `min(rows, cols)`; with more columns than rows LAPACK leaves it (C93).
* `ParMatrix::Mult`/`MultAT` on `VectorView`s hand hypre an input with the partition of the output and the reverse; the
  overloads that create a `ParVector` abort when a rank owns nothing at the end (C94).
* The number of entries of a product, a submatrix or a conversion is counted in an `int` without a check; two matrices of
  46341 entries each have a product that overflows it (C95).
* `A.Mult(x, x)` and `A.MultAT(x, x)` are not refused: the products that clear the output first return zero, the others
  read what they have already written (C96).
* `Print` shows six digits of a double unless the stream says otherwise; `DenseMatrix::Print` puts nothing between the
  columns, so that with precision 0 they can run together (C97).
* `ParCommPkg(A)` reads `A->comm` in its initialiser list, before `assert(A)` (C98).
* `LOBPCG` does not compare the sizes of the start vectors with the local rows and drops the status of
  `HYPRE_LOBPCGSolve` (C99).
* `Mult` on doubles depends on the order of the entries in a row, so sorting columns may change the product: rows
  (2^53, 1, -2^53) and (2^53, -2^53, 1) times (1, 1, 1) give 0 and 1 (C100, within the proved bound).
- `ScaleRows(D)`, `ScaleCols(D)` and the inverse forms use the value array of D and never look at its pattern: a
  permutation matrix is accepted and scales by 1 (C101).
- A moved-from `BlockMatrix` has empty offset lists, a default constructed one has {0}; `Transpose` of the former calls
  `back()` on an empty vector (C101).
- `= value`, `AddDiag`, `EliminateRowCol` and `EliminateZeros` with a tolerance see the storage: the same matrix
  with a zero stored or not, or a value stored in two parts or one, ends as two different matrices. Every other
  statement depends on the matrix only (C102).
- The const members `Mult` of PCGSolver, MINRESSolver, PMINRESSolver and BlockOperator and `LilMatrix::ToSparse`
  write mutable members: two threads calling the same object race (C103). `SparseSolver::info_` and
  `ParSmoother::buffer_` are written in const functions in the same way, by UMFPACK and hypre; that is observed
  in the code, not modelled.
- The default inner product of the solvers does not communicate: with a ParMatrix every rank tests its own rows
  for convergence, and a rank that stops leaves the others waiting in the next product (C104).
- `DenseMatrix::SetSize` stores the new sizes before it resizes the data. If the memory is not there the matrix claims
  elements it does not have, and element access, which asserts against the sizes, reads outside the data (C105).
- `SparseMatrix::GetSubMatrix(rows, cols, marker)` allocates its result between writing and resetting the marker. After
  a failed allocation the next call with this marker returns extra entries (C105).
- Copy constructors and `Vector::operator=` are `noexcept` although they allocate: a failed allocation ends the
  program (C105).
- `Solver::SetOperator` compares with the size of the operator in use and dereferences `A_` for it: on a
  default-constructed or moved-from solver this is a null pointer, after the old operator was destroyed a
  dangling one. `SetMaxIter` accepts the negative limits that the constructor refuses; MINRES then does
  nothing and reports one pass, PCG does one pass (C107).
- `lu_decomp` of the examples does not exchange rows: a zero pivot in a nonsingular matrix gives a wrong
  solution (NaN or infinity in doubles) without any report (C108).
- `time_QR` of the examples factors matrices with more columns than rows. In exact arithmetic such a call
  always fails the assertion of `/=`; in doubles it normalises rounding errors (C109).
- `AdjToLaplacian` of the examples overwrites only the last of several diagonal entries of a row, so the rows of
  the result need not sum to 0 (C110_duplicates_refuted); main() aborts if a vertex has no edge (C110_program_refuses).
- `PowerIterate` of the examples aborts in the assertion of `/=` when an A^k x vanishes, for instance on the Laplacian
  of a graph without edges between different vertices (C111_laplacian, C111_singular_refuted).
- `ParMult` and `ParL2Norm` call the virtual Mult of their argument: given ParVectors, whose Mult is already global,
  they count every contribution once per rank (C112_par_mult_parvector_refuted, C112_par_l2norm_parvector_refuted).
- `Normalize` takes a VectorView by value, so a ParVector is sliced and every rank normalises its own part: the norm
  of the distributed vector becomes the root of the number of ranks (C112_normalize_refuted), and a rank with a zero
  or empty part fails an assertion (C112_normalize_zero_part_refuted).

Observed while reading and not the subject of a theorem: `Partition` ignores the status of METIS; 
`RowSizes` uses another thread count than `Mult`; `BlockVector` inherits `Vector::operator=` and keeps stale offsets; `Combine` compiles only for `double`; `BlockOperator::Transpose` and `operator/(double, DenseMatrix)` are
declared but not defined.

## 6. Trusted base

* The Coq 8.16.1 kernel with its virtual machine (`vm_compute` in examples and refutations; `coqchk`, which has none,
  accepts the same files), and the standard library.
* The correspondence between `/repo` and the model definitions, read by eye; every definition carries its citation.
* The contracts of external code named in section 1, which appear as hypotheses of the theorems that use them.
* The semantics of threads (sequentially consistent steps, data race = undefined) and of MPI collectives given in
  `Threads.v` and `Par.v`.

There are no axioms of our own, no `Admitted`, no functors or module types, no plugins.

### Axioms per theorem (`Print Assumptions`)

All theorems named in `MANIFEST.json` are *closed under the global context* except these, which use Coq's primitive
floats (`PrimFloat.float` and the primitive operations `abs add sub mul div opp sqrt eqb ltb`; the kernel computes with
them, no `FloatAxioms` are used):

| theorem | primitives |
|---|---|
| `C32_output_is_read_refuted`, `C33_transitive_refuted`, `C33_distinguishes_refuted`, `C43_pcg_refuted` | float abs add sub mul div opp eqb ltb |
| `C42_minres_count_refuted`, `C75_tolerance_refuted` | the same and sqrt |

The instance of the solver theorems over the real numbers (`ScalarR.v`, examples in `PropSolver.v`) uses the axioms of
`Coq.Reals` (`ClassicalDedekindReals.sig_forall_dec`, `sig_not_dec`, functional extensionality).

The theorems `C100_*` and `C117_pcg_rate`, `C117_minres_rate`, `C117_pminres_rate`, `C118_pcg_passes`, `C118_minres_passes`, `C118_pminres_passes` speak about real numbers.  They use `ClassicalDedekindReals.sig_forall_dec`, `sig_not_dec`,
`FunctionalExtensionality.functional_extensionality_dep` and `Classical_Prop.classic` (through Flocq's lemmas on
rounding; Flocq adds no axiom of its own).

## 7. Testing the theorems

`seeded/LOG.jsonl` records wrong programs: one edit of a model definition, the property it breaks, the theorems that no
longer prove.  A theorem that survived an edit that falsifies its English claim was tightened; the log says which.

# Formal model of juanjosegarciaripoll/tensor in Rocq (Coq 8.16.1)

The code under study is the C++ tensor library in /repo.  This document fixes,
before the proofs, what is modelled, how each property of `properties.jsonl`
will be proved, and what is trusted.

## 1. Modelling conventions

* **Outcomes.** Every modelled function that can go wrong returns an
  `outcome`: `Ok v`, `Abort` (a failed `assert`, or an explicit `abort()`),
  `UB` (undefined behaviour: access outside an array, read of freed memory,
  division by zero, read of an uninitialised variable), or, for loops that need
  fuel, `Hang` (fuel exhausted).  Builds with `NDEBUG` (assertions compiled
  out) are not modelled.
* **Arrays.** A data block is a `list`; reading or writing outside it is `UB`.
  Freshly allocated, uninitialised memory has *arbitrary* contents: the model
  takes a `junk` argument and the theorems quantify over it.
* **Integers.** `index` is `long`.  Values are unbounded `Z`/`nat` except where
  the property is about overflow (C08, random numbers, file format), where the
  wrap or the overflow-UB is written into the model.
* **Numbers.** Data-movement functions are polymorphic in the element type.
  Arithmetic functions take the operations as a record; algebraic laws are
  explicit hypotheses of the theorems that need them (so those theorems are
  about exact arithmetic, not about rounding).
* **Loops.** `for` loops become `for_ n body state` (structural recursion),
  with the loop bodies performing the same index arithmetic as the C++ code.
* **Copy-on-write.** `RefPointer` is modelled as a state machine on an explicit
  heap (C01-C03).  Because C01 shows handles behave as private values, the
  tensor-level models pass tensors as immutable values.
* **Specification.** `Spec.v` contains the only vocabulary that theorem
  statements use: column-major position `lin`, in-range tuples `valid`,
  element `elt t ix`, etc.

## 2. Files

    theories/Base.v         outcome monad, arrays, loops and their lemmas
    theories/Spec.v, S_*.v  vocabulary of the specifications
    theories/M_*.v          models, each definition citing file:lines in /repo
    theories/L_*.v          lemmas and proofs
    theories/P_*.v          property theorems only: statement, `exact`,
                            `Print Assumptions`, non-vacuity `Example`
    tools/mkman.py          writes MANIFEST.json from the theorem names and
                            tools/notes.json
    seeded/LOG.jsonl        the wrong programs the theorems were tested against

| model | code | properties |
|-------|------|------------|
| M_RefCount | include/tensor/refcount.h, detail/refcount.hpp, vector.h | C01-C04 |
| M_Tensor | detail/tensor_base.hpp, detail/common.h, indices.cc, tensor_reshape, tensor_flatten | C05-C08, C55 |
| M_Range | views/range.cc, tensor_view.hpp, detail/tensor_slice.hpp | C09-C13, C56 |
| M_Permute | tensor_permute.cc, matrix_transpose.cc, matrix_adjoint.cc | C14, C15 |
| M_Fold | tensor_fold*.cc, tensor_foldin*.cc, gemm.cc, tensor_conj.cc, tensor_to_complex.cc | C16-C19 |
| M_Kron | tensor_kron.hpp, tensor_kron2_sum | C20, C21 |
| M_Scale | tensor_scale, tensor_change_dimension, tensor_trace, matrix_trace, matrix_diag, tensor_take_diag, tensor_squeeze, surrounding_dimensions | C22-C26 |
| M_Arith, M_Linspace | detail/tensor_ops.hpp, tensor_t_op_t.cc, tensor_t_op_n.cc, tensor_unop.cc, detail/tensor_matrix.hpp, linspace | C27, C33, C57 |
| M_Compare | compare/*.cc, booleans*.cc, which.cc, concat.cc, gen.h, indices.h | C28-C30 |
| M_Reduce | tensor_sum, mean, max, min, norm0, norm2, matrix_norminf, tensor_sort | C31, C32, C58 |
| M_Sparse | sparse.h, detail/sparse_base.hpp, sparse_ops.hpp, sparse/*.cc | C34-C38, C59 |
| M_Sdf | sdf/*.cc | C39-C43, C60, C61 |
| M_Lock | sdf/data_file.cc (DataFile lock) | C44 |
| M_Jobs | tools/jobs.cc, tools/flags.cc | C45-C48, C62, C63 |
| M_Rand | rand/*.cc, rand.h | C49, C50 |
| M_Fft, M_Fftw | fftw/*.cc | C51, C64 |
| M_Blocks, M_BlockSvd, M_BlockSvdOut | find_blocks.hpp, block_svd.hpp | C52, C53 |
| M_Expm | expm_d.cc, expm_z.cc | C54 |
| M_Solve | solve_*.cc, solve_with_svd_*.cc | C65, C66 |
| M_Eig | eig_*.cc, eigs_d.cc, eigs_z.cc (small matrices), arpack_t.cc (sort_values, checks) | C67, C68 |
| M_Cgs | cgs*.cc, eig_power*, tools/map*.cc | C69, C70 |
| M_Svd | svd_*.cc, eig_sym_*.cc | C71, C72 |
| M_Arpack | arpack_t.cc, eigs_*.cc, eigs_map_*.cc, eigs_sp_*.cc | C73 |
| M_Dataset | tools/jobs_dataset.cc over data_file.cc, odata_file.cc, rename_file.cc: processes, system calls, kills | C74 |
| M_Pysdf | python/sdf.py | C75, C76 |
| M_Threads | refcount.h, detail/refcount.hpp, vector.h, access by access | C77 |
| M_ThreadsLock | the same accesses, with a mutex of the calling program held during every operation | C77 |
| M_Print | io.h, detail/io.hpp, views/matrix_form*.cc, numbers.h (operator<<) | C78 |
| M_Complex | tensor_real_z.cc, tensor_imag_*.cc, tensor_conj.cc, tensor_to_complex.cc, tensor_round_d.cc, indices/to_tensor.cc | C79 |
| M_JobsSave | tools/jobs_save.cc (with M_Jobs and M_Sdf) | C80 |
| M_Double | IEEE binary64 arithmetic (Flocq), and linspace (M_Linspace) over it | C81, C49, C50 |
| M_RandDouble | rand64.cc/rand32.cc genrand_res53, rand.h rand<double> with all roundings | C49, C50 |
| M_DoubleReduce | the reductions of M_Reduce over IEEE doubles | C82 |
| M_Iter | refcount.h/vector.h: begin, end, begin_const, at kept as pointers (over M_RefCount) | C83 |
| M_SdfErr | odata_file.cc: write_raw_with_endian, constructor and close() over a std::ofstream whose open, write and flush may fail (over M_Sdf) | C84 |
| M_Alloc | refcount.hpp, vector.h: the operations of M_RefCount where each `new` may throw std::bad_alloc | C85 |
| M_GetLock | sdf/data_file.cc: the loop of get_lock, giveup_lock and close for one process, with its descriptors, in an arbitrary environment | C86 |
| M_Matsdf | matlab/sdf_load.m, sdf_load_record.m over the bytes of the file | C87 |
| M_Reseed | rand_reseed and the integers of src/rand/rand.cc, over M_Rand | C88 |
| M_RandTensor | Tensor::randomize, Tensor::random, RSparse::random, rand<cdouble>() in IEEE doubles, over M_Rand | C89, C88 |
| M_FoldDouble | the products of M_Fold, M_Reduce and M_Sparse on IEEE doubles and complex doubles, over any BLAS that adds the products in any order | C90, C82 |
| M_TensorHeap | tensor statements as the calls on Vector<index> and Vector<elt> that they make, over the reference counted memory and the plain pointers of M_RefCount and M_Iter | C91 |
| M_Matset | matlab/sdf_load_dataset.m over a disk of directories and files | C93 |
| M_Files | src/sdf file_exists.cc, delete_file.cc, rename_file.cc, isdir.cc, make_directory.cc over a directory with types and permissions | C94 |
| M_ArpackSort | src/arpack-f2c dsortr.f.c, dsesrt.f.c, zsortc.f.c: the loops with gaps over arrays of doubles and their companions | C95 |
| M_ArpackSelect | src/arpack-f2c dsgets.f.c, dsconv.f.c, dsaup2.f.c:579-841 (the end of an iteration), dseupd.f.c:567-777 (the selection of values and vectors, mode 1) | C96 |
| M_ArpackParams | src/arpack-f2c dsaupd.f.c:581-710, dseupd.f.c:394-536, znaupd.f.c:561-676, zneupd.f.c:460-566 (the checks and the division of workl), the copies of dsaup2.f.c:585-586 and znaup2.f.c:572-578 | C97 |
| M_RefInt | include/tensor/detail/refcount.hpp:55-57, 106-150 and refcount.h:86 with the counter as the 32-bit int that it is and ref_count() as its conversion to size_t | C98 |
| M_RandSparse | include/tensor/detail/sparse_base.hpp:254-270 for complex numbers, std::abs as an argument | C89 |
| M_Lanczos | src/arpack-f2c dsaitr.f.c, dgetv0.f.c (the steps of the iteration, reorthogonalization, restart from a random vector; bmat 'I', real numbers) | C99 |
| M_Sapps | src/arpack-f2c dsapps.f.c, the rounds of dsaup2.f.c, the estimate of dseigt.f.c (implicit restarts, on real numbers) | C99 |
| M_Arnoldi | src/arpack-f2c znaitr.f.c, zgetv0.f.c (the steps of the iteration, reorthogonalization, restart from a random vector; bmat 'I', complex numbers) | C100 |
| M_Napps | src/arpack-f2c znapps.f.c, the rounds of znaup2.f.c, the estimate of zneigh.f.c (implicit restarts, on complex numbers) | C100 |
| M_ArpackCSelect | src/arpack-f2c zngets.f.c, znaup2.f.c (the end of an iteration), zneupd.f.c (the selection of values and vectors, mode 1) | C101 |
| M_MapLife | include/tensor/map.h, tools/map.cc, and the calls of operators and `delete A` in cgs.cc, eig_power.hpp, eigs_map_*.cc, over the memory of M_RefCount; the numbers of the solvers are an arbitrary decision after each call | C102 |
| M_MapThrow | a solver that an exception of its function leaves before `delete A` (cgs.cc, eig_power.hpp, eigs_map_*.cc); the tensors of the solver, which unwinding destroys, are not modelled | C102 |
| M_BlasInt | the conversions to blas::integer in gemm.cc, solve_d.cc, solve_z.cc, svd_d.cc, svd_z.cc and the computation of sizes in arpack_t.cc:62-110, with integers of any number of bits | C103 |
| M_EigInt | the conversions to blas::integer in eig_d.cc, eig_z.cc, eig_sym_d.cc, eig_sym_z.cc, and the tests of the size that follow them | C103 |
| M_Matsort | matlab/sdf_sort_1d.m, sdf_sort_2d.m | C104, C105 |
| M_SdfAix | src/sdf/odata_file.cc, idata_file.cc, data_file.cc, the branches for AIX | C106 |
| M_Time | src/tools/tictoc.cc | C107 |

## 3. Plan per property

| id | model | proof method |
|----|-------|--------------|
| C01 | heap state machine of RefPointer/Vector | simulation with a map handle -> list, induction over histories |
| C02 | same | invariant: count = number of handles, induction over histories |
| C03 | same, with foreign buffers | invariant over histories |
| C04 | shared_ptr state machine | refuted by a 4-step history; positive part for histories without copies |
| C05 | operator() for ranks 1-6 | arithmetic on column-major positions |
| C06 | at() for ranks 1-6 | injectivity and surjectivity of `lin` |
| C07 | reshape, flatten, squeeze helpers | direct |
| C08 | total_size with 64-bit overflow | induction; refuted at overflow and negative extents |
| C09 | Range classes, views | each range object refines the list of its positions; product by induction |
| C10 | mutable_view::operator= | same refinement plus array update lemmas |
| C11 | same | refuted by witness |
| C12 | same | refuted for IndexRange, partial for the others |
| C13 | same, with fuel | a measure that every pop decreases (P_RangeEnds); refuted (hangs, division by zero, uninitialised elements) outside its conditions |
| C14 | permute loops | loop flattening, div/mod arithmetic |
| C15 | transpose/adjoint | same |
| C16-C19 | do_fold, do_foldin_into, gemm specification | case analysis over code paths, prefix/suffix decomposition of `lin` |
| C20-C21 | do_kron, do_kron2_sum, sparse versions | loop flattening; refuted for sparse kron2_sum |
| C22-C24 | doscale, change_dimension, trace | loop flattening |
| C25 | diag, take_diag | rank 2 proved, general rank refuted |
| C26 | squeeze | refuted for all-ones, partial otherwise |
| C27-C31 | elementwise, comparisons, Booleans, indices, reductions | induction on lists |
| C32 | sort via a specification of std::sort | permutation reasoning; refuted above 2^53 |
| C33 | eye/zeros/ones/linspace | direct |
| C34-C38 | CSR representation | representation invariant and abstraction to functions row -> col -> value |
| C39-C42 | byte-level SDF codec | round-trip by induction; for size_t from 2^53 on (P_SdfSizes) the rounding of integers to 53 bits, to the nearest |
| C43 | file-system state machine with crashes | invariant over steps |
| C44 | lock protocol, interleaved system calls | refuted by schedule; partial with atomic acquire |
| C45-C47 | Job state machine and argument handling | mixed-radix bijection, arithmetic; refuted where the code differs |
| C48 | Flags | refinement to a list |
| C49-C50 | MT19937-64 state machine | refinement of the block refill to the recurrence |
| C51 | fftshift | arithmetic modulo N |
| C52-C53 | find_blocks | loop invariant: labels = connectivity classes |
| C54 | expm coefficients | induction on the order over the rationals |
| C55 | total_size, construction | induction; refuted for negative extents |
| C56 | Range, as in C09 | refuted by witness |
| C57 | compound assignment with the number held by reference | loop invariant; refuted when it is an element of the tensor |
| C58 | matrix_norminf | loop invariant; refuted with no columns |
| C59 | all_equal of sparse matrices | representation invariant without stored zeros; refuted with them |
| C60-C61 | file-system state machine | case analysis of modes; induction over histories |
| C62-C63 | parse_line, get_value | induction over strings and over variables |
| C64 | fftw wrappers over the documented meaning of FFTW's guru plan | roots of unity in a ring, sums over all indices |
| C65-C66 | solve, solve_with_svd over the documented meaning of xGESV and svd | matrix algebra over a field |
| C67-C68 | eig, eigs over the documented meaning of xGEEV | unpacking loop invariant; refuted where the vectors are the left ones |
| C69 | cgs on any linear map | simulation by the textbook iteration; orthogonality of residuals by induction; more than n orthogonal vectors are dependent |
| C70 | eig_power on any linear map | loop invariant: unit vector along A^j v; refuted for complex numbers; convergence over the real numbers by expansion in eigenvectors, which exist for symmetric matrices (spectral theorem) |
| C71 | svd over the memory effects of xGESVD | every store lands in the buffer of its shape; then the contract |
| C72 | eig_sym over the memory effects of xSYEV, xHEEV | the same; the adjoint equation by conjugation |
| C73 | the ARPACK object and eigs over an arbitrary library; the dialogue is an inductive relation | induction on the dialogue; invariant of the object over all histories; refuted for real matrices that are not symmetric |
| C74 | processes as programs of system calls on a shared directory, any interleaving, killed anywhere | inductive invariant; refuted for two processes of one job at once |
| C75 | the Python reader over bytes, numpy's constructors as far as they are used | the reader run on the output of the model of the writer, by induction on the records; refuted for several names, shapes and files; for any bytes (P_AnyFile), each turn of the loop reads something and np.ndarray checks the shapes |
| C76 | load_dataset, combine_dataset, np.stack, list.sort as a parameter | from C75, and the uniqueness of stable sorting; refuted with a state reachable in the model of C74 |
| C77 | the operations of M_RefCount as sequences of memory accesses, any interleaving | a thread that only reads what is shared does the same as alone, and alone it is M_RefCount; refuted for copies of shared data; with a mutex around every operation, an invariant that counts the variables of all threads per block, and that completes the one operation under way |
| C78 | streams as texts, the text of one element as a parameter | the text as a join; injectivity by cutting at separators; refuted for matrix_form without rows |
| C79 | the loops over two or three iterators | the loops are maps; refuted for to_complex of parts that do not fit |
| C80 | dump_variables as a loop over the variables of M_Jobs that writes with M_Sdf | a session of a job is a session of M_Sdf; composes C39, C42 and C45; refuted for long names |
| C81 | linspace over Flocq's binary64 numbers, every operation rounded to nearest even | error analysis and monotonicity of rounding; exact on integers; refuted for the last number |
| C82 | M_Reduce over Flocq's binary64 numbers | induction over the elements with one relative error per operation; refuted for norm2 (underflow, overflow) and for NaNs in max, min, norm0, norminf and sort |
| C83 | kept pointers as block addresses over the states of M_RefCount | simulation by the value semantics in which a pointer is a variable and a permission (S_Iter) |
| C84 | the state bits and buffer of std::ofstream, an arbitrary fault for each write | induction over the writes; refuted for the last write and for files that cannot be opened |
| C85 | M_RefCount with an arbitrary answer to each allocation; the exception is caught and the program goes on | the invariant of C02 and the simulation of C01 extended to operations that throw; refuted for resize |
| C86 | rounds of get_lock against arbitrary answers of the system | induction over the rounds; refuted for unwritable directories and without standard input |
| C87 | load of the bytes written by M_Sdf against the list of the values written | induction over the records, with one decoding lemma per type; refuted for unnamed empty values, names beginning with sdf, and files cut short; different shapes under one name (P_MatsdfShapes): one more turn of the loop after the records read so far; any bytes (P_AnyFile): the same invariant as for the Python reader, and cat adds up the extents |
| C88 | rand_reseed over M_Rand for all environments | the recurrence of the generator, its tempering, the seeding by a number and by a key of one word are all shown to be injective, running them backwards; refuted for numbers outside int, for the clock as a seed, and for rand<long>() |
| C89 | random over M_Rand and Flocq doubles, the compiler's order of evaluation a parameter | induction over elements and tensors with the sequence of the generator as an invariant; refuted for complex numbers and for the density 0 |
| C90 | `evaluates`: what a BLAS may compute for a sum of products; gemm over any such scalar product inside the model of fold | the code of fold is independent of the arithmetic, so each element is a formal sum; induction over `evaluates` bounds its rounding; refuted: the result depends on the BLAS, and sparse times infinity is not dense times infinity |
| C91 | programs of tensor statements on two heaps (dimensions, elements), with local iterators; values of M_Tensor, M_Arith and M_Range as the specification | simulation of the heaps by vectors that own their lists (C01, C83), then each statement by loop invariants, then an invariant between handles of variables and values; t *= t directly on the heap; refuted for t op= t[k] |
| C92 | the generators and bounded numbers of M_Rand | counting by explicit enumerations of the words that give a value; the tempering is injective, hence onto by counting; every reachable state holds words and delivers a sequence with the published recurrence, which NN words determine; exact evenness refuted |
| C93 | sdf_load_dataset.m over M_Matsdf; a disk gives the listing of a path and the bytes of a file | invariant: after each record the struct holds, for each name, the values read so far; induction over the records of a file and over the listing; false cases by counterexample |
| C94 | the five functions over a directory of files with a type and the rights of the process | case analysis over all directories; bits of st_mode by the binary representation; false cases by general counterexamples |
| C95 | the sorting routines over arrays of IEEE doubles, companions of any type | each gap rearranges; the last one, of width 1, is an insertion sort: induction over the places already in order; comparisons of doubles read as comparisons of reals |
| C96 | the sort of the wanted values, the test, the adjustment of the numbers of values and shifts, the preparation to exit, the marks and the exchange of columns; values and estimates are any doubles that are numbers, the eigenvectors are arbitrary columns | the sorts as choices of places that do not depend on the companions (a relation between two runs); invariants of the loops of the marks and of the exchange of columns |
| C97 | the checks as functions of the parameters, the divisions as lists of parts; eigs as in C73 with any library whose second routine begins as zneupd does | case analysis of the checks; invariance of the problem under the dialogue; nonlinear arithmetic of the parts |
| C98 | the programs of C01-C03 with an int counter, on machines that wrap and that do not; number of vectors alive counted from the program text | simulation with M_RefCount under the invariant of C02: a counter is at most the number of vectors alive; the overflow by induction on the copies |
| C99 | the whole iteration dsaup2/dsaitr/dgetv0/dsapps with real numbers instead of doubles, any matrix, any shifts; dlartg any function that gives a rotation | Lanczos factorization as an invariant of a step and of the reorthogonalization (where the second pass changes nothing); the sweep of rotations with an explicit bulge (similarity, banded Q, orthogonal Q); residual of a Ritz vector; the spectral theorem for symmetric matrices (the least value of the quadratic form on the unit sphere of what is left, by compactness); a nilpotent matrix as counterexample without symmetry |
| C100 | the whole iteration znaup2/znaitr/zgetv0/znapps with complex numbers instead of doubles, any matrix, any shifts; zlartg any function that gives a rotation | Arnoldi factorization as an invariant of a step; chasing the bulge as a full unitary rotation of the Hessenberg matrix (similarity, unitary and banded Q); scaling by phases; for Hermitian matrices all elements of H are real; the spectral theorem for Hermitian matrices, from that for real symmetric ones of twice the order; with one shift the elements that are tested were not touched; a 3 x 3 matrix as counterexample to the test on real parts |
| C101 | the sort of the wanted values, the test, the adjustment of the numbers of values and shifts, the preparation to exit, the marks; values and estimates are pairs of doubles that are numbers, dlapy2 is any function, ztrsen any routine that moves the selected values to the front | as C96; zero estimates are the last of the unwanted ones as the magnitude of nothing else is zero; two runs with small integers as counterexamples |
| C102 | operators and function objects as lists of vectors over the reference counted memory; solvers as loops that apply an operator and decide arbitrarily | invariant of histories: the vectors inside of functions and operators are alive and in one of them only; eigs refuted |
| C103 | the functions of M_Fold, M_Solve, M_Svd and M_Arpack again, with each conversion to an integer of `bits` bits modulo 2^bits and each signed operation undefined if it does not fit | every size that reaches gemm is a factor of the number of elements of a tensor, so that it fits if they do; larger ones refuted for every number of bits |
| C104 | sortrows as a stable insertion sort of the indices by rows, the loop over the fields | the sort gives a permutation, sorted and stable; selection of columns element by element; induction over the fields |
| C105 | the key datax/max + 2*datay/min with rational numbers (no rounding), the defaults of rows and cols, the loop over the fields | the key is increasing in the position on the grid if no step of y is half of the first or less; an increasing map of 0..l-1 into itself is the identity; refuted for grids that are not square without rows, for other steps, for one x and for one y |
| C106 | the loops over a buffer of 1024 bytes with its bounds and its old contents, the dump and load functions on top of them | induction over the turns of the loop; a simulation between the two libraries (what one loads without passing the end the other loads) on top of the round trip of C39; refuted for exchange, for Matlab and for files that end early |
| C107 | now() with IEEE doubles (M_Double), the variable sometime, sequences of calls | error bounds of the three roundings; monotonicity of rounding; induction over the calls; refuted for clocks that are set back, for toc() without tic(), and for the accuracy from the year 2514 on |

## 4. Trusted base

* Coq's kernel (8.16.1), including `vm_compute`, which some examples use.
* The reading of the C++ code, recorded function by function in the citation
  comments of the `M_*.v` files, with the simplifications they state.
* The documented behaviour of what the library calls: BLAS xGEMM, LAPACK xGESV,
  xGESVD, xGEEV, FFTW's guru interface, std::sort, the file system, flock,
  unlink and rename.  Each is a definition or a function parameter whose
  contract is a hypothesis of the theorem that needs it, never an axiom.
* In theorems about numbers the operations satisfy the laws of a commutative
  ring with conjugation (`numlaws`) or of a field of characteristic zero
  (`fieldlaws`).  These are hypotheses too; integers, Gaussian integers,
  rationals and Gaussian rationals are proved to satisfy them.  So these
  theorems say nothing about rounding.
* The theorems about doubles (`P_Double`, `P_RandDouble`, `P_DoubleReduce`, `P_RandTensor`, `P_FoldDouble`) use Flocq's IEEE 754
  binary64 numbers, rounded to nearest even after every operation.  They trust
  that the compiled program does the same: no fused multiply-add contraction, no
  extended precision, no change of rounding mode.

## 5. Not modelled

Floating-point rounding, except in linspace, the random doubles, the reductions and the
products of tensors; the numerics inside BLAS, LAPACK, FFTW and ARPACK (of the
ARPACK sources under src/arpack-f2c only the sorting routines, C95, the selection of
values of real and complex problems, C96 and C101, the checks of parameters, C97, and the iteration for real
and complex problems, C99 and C100, on exact numbers, are modelled); exceptions from
`new`, except in vectors (C85); threads, except over vectors (C77); `NDEBUG`
builds; Windows branches; profiling and backtrace tools.

Assertions are modelled as they are in a debug build.  Theorems about a call
that ends in `Abort` say that the library stops the program there.

## 6. Assumptions

`Print Assumptions` follows every theorem in the `P_*.v` files.  It answers
"Closed under the global context" for all of them except those about IEEE
doubles (`P_Double.v`: all `C81_*`; `P_RandDouble.v`: `C49_doubles_exact*` and
all `C50_double*`; `P_RandFloat.v`: `C49_float*_partial`; `P_DoubleReduce.v`: all `C82_*`; `P_RandTensor.v`; `P_RandSparse.v`; `P_FoldDouble.v`) and about real numbers (`P_Power.v`: `C70_converges*`; `P_PowerSym.v`; `P_Lanczos.v`; `P_Arnoldi.v`, with the complex numbers of Coquelicot, which add no axiom).
These use the real numbers of the standard library, the first through Flocq, and list these axioms of the standard library and no other:

* `ClassicalDedekindReals.sig_forall_dec`
* `ClassicalDedekindReals.sig_not_dec`
* `FunctionalExtensionality.functional_extensionality_dep`
* `Classical_Prop.classic`

Loading the standard library brings seven parameters into the environment that
no theorem uses: `Coq.ssr.ssrunder.Under_rel.*`, the opaque module behind the
`under` tactic, loaded by `ssreflect` with the tactics of the standard library.

## 7. Findings

Where the faithful model violates a property, the violation is itself a theorem
whose name ends in `_refuted`.  In the order of the properties:

* C04: `shared_ptr` has the default copy constructor, so a copy deletes twice.
* C08, C55: the product of extents overflows (undefined) even when the result is
  representable; a negative extent is accepted and gives an empty tensor,
  and two negative integers give one with elements (`Tensor(-2,-3)` has 6).
* C11-C13, C56: negative positions in ranges are never normalised; an index list
  may contain the extent itself; empty dimensions and negative steps hang or
  divide by zero.
* C18, C19: `foldin` of two vectors writes out of bounds; the `*_into` forms
  with the destination among the arguments read a reallocated block.
* C21: sparse `kron2_sum` uses the number of stored elements as the size of the
  identity, and orders the factors differently from the dense one.
* C24: `trace(a,i,j)` refuses i = -rank.
* C25: `take_diag` of rank above 2 uses the wrong extent.
* C26: `squeeze` aborts if all dimensions are 1 and changes empty ones.
* C27: `tensor op tensor` accepts different shapes of equal size.
* C28: a comparison with the number on the left is wrong at ties.
* C30: `iota` with a negative step.
* C31: `mean` over the last index writes out of bounds; `scprod` does not compare
  sizes.
* C32: `sort` of integers compares them as doubles.
* C34: the default sizes of a coordinate list are one too small.
* C38: `mmult(Tensor,Sparse)` always aborts; hence `eig_power_left` of a sparse
  matrix aborts too.
* C39-C43, C60: `size_t` values go through doubles; names are cut at 63; reading
  does not notice the end of the file; a header of three letters is read out of
  bounds; in paranoid mode the file is missing between delete and rename;
  opening for input with SDF_OVERWRITE deletes the file; a session killed before
  the header makes the file unreadable for later ones.
* C44: unlink before close lets two processes hold the lock.
* C45-C47: zero steps; `--job-blocks` without `--this-job` and `--first-job`
  without `--last-job` use uninitialised numbers; `--this-job` after
  `--first-job` is ignored instead of refused; the job file is never read.
* C49, C50: `rand<float>` can be 1; `rand<int>` overflows; `rand<long>` can
  return a value below its lower limit.
* C52-C54: `find_blocks` of a tall matrix drops the tolerance; `block_svd` of a
  square matrix with rectangular blocks aborts; `expm` of zero is undefined.
* C57: a compound assignment by an element of the same tensor.
* C58: `matrix_norminf` without columns reads out of bounds.
* C59: `all_equal` of sparse matrices compares the stored zeros.
* C64-C66: `fftw` of an empty tensor uses a null plan; `solve` of an empty system
  divides by zero and accepts a tensor of rank 3; `solve_with_svd` aborts when no
  singular value exceeds the tolerance.
* C67, C68: the documented L A = D L needs the adjoint of L; `eigs` of a small
  matrix returns left eigenvectors, and the real parts of complex eigenvalues.
* C69: a maximum of m steps gives m+1; the header declares
  `cgs(RSparse, CTensor)`, which is not defined, and not `cgs(CSparse, CTensor)`,
  which is.
* C70: `eig_power` of a complex matrix returns the conjugate of the eigenvalue;
  `eig_power_left` of a sparse matrix always stops at a failed assertion.
  It also stops when the estimate does not change, which does not make it an
  eigenvalue: [0 2; 2 0] from (3, 4) gives 48/25.
* C71, C72: `info` is never looked at, so a LAPACK iteration that fails to
  converge is returned as if it were the decomposition.
* C73: real matrices go to the symmetric driver of ARPACK without a check, so a
  matrix that is not symmetric gets wrong eigenvalues; the order 6 passes the
  check and reads beyond the table of codes, and with n <= 4 any wrong order is
  undefined; maps and sparse matrices need not be square: a short result is read
  out of bounds, a long one cut.  (Also read: `eigs` of a map or sparse matrix
  never deletes the map; `eigs_sym` is declared in linalg.h and not defined.)
* C74: two processes that run the same job at the same time can mix their output
  in one record, or one can end normally with its record gone.
* C75: the Python reader fails on tensors without dimensions and on names that
  start with "sdf"; it stops at a variable without a name and loses the rest; it
  drops the contents of vectors of tensors; it takes the tag of a file without
  records, and the elements that a cut file lacks, from uninitialised memory; on
  a big-endian machine it calls `byteswwap`, which does not exist.  (Also read:
  `load(into=...)` calls `load_into`, and line 87 raises `Error`, neither of
  which exists.)
* C76: `load_dataset` reads every file of the directory, so the temporary file of
  a killed job makes it fail or return an empty dictionary.
* C77: the reference counter is a plain int, so threads that copy the same vector,
  even a const one, can free it while it is in use, see each other's writes or
  leak it.  Copies are hidden in const operations: every function that builds its
  result with `Tensor(t.dimensions())` copies the vector of dimensions.
* C78: `matrix_form` of a matrix or vector without rows writes a closing bracket
  that was not opened.
* C79: `to_complex(r, i)` does not compare the dimensions: it reads out of bounds
  when i has fewer elements, and takes the shape of r otherwise.
* Also read: tensor.h:589-592 declares comparisons of a CTensor with a cdouble;
  src/compare/ctensor_cdouble_e.cc and _ne.cc define them with a double instead, so
  the declared functions do not exist.
* C80: `dump_variables` cuts names at 63 characters, as every record does, but a
  job accepts longer names: such a variable cannot be loaded under its name.
* C81: `linspace(a, b, n)` of doubles need not end at `b`: `linspace(0.0, 1.0, 50)`
  ends below 1, and `linspace(5.0, 30.0, 12)` ends above 30, outside the interval.
  If max - min overflows the first number is a NaN and the rest are infinite.
* C81: `linspace(0.0, DBL_MAX, 4)` ends with infinity: the step is rounded up and three times the
  step overflows (linspace.hpp:37-39).
* C50: `rand(lower, upper)` of doubles can return `upper`: `rand(1.0, 2.0)` does with
  the largest draw; `rand(upper)` can for `upper` = 2^-1022.
* C82: `norm2` squares without scaling: the norm of a vector with one element 2^-600 is 0,
  and that of (3 2^600, 4 2^600) is infinite.
* C82: `norm0` and `matrix_norminf` drop NaNs: a tensor of NaNs has norm 0, so a test
  `norm0(a - b) < epsilon` accepts it.  `max` and `min` return a NaN only if it is the
  first element.  `sort` of data with NaNs breaks the contract of `std::sort`.
* C83: a pointer kept across a copy writes into the copy too (the header warns not to
  store them); `begin_const()` and `end()` of a shared vector point into different blocks,
  so a loop that mixes them leaves the array.
* C84: `write_raw_with_endian` looks at `bad()` before it flushes, and nobody looks after:
  an error in the last write of a session is never reported, and in paranoid mode the
  incomplete file replaces the previous one.  `OutDataFile` does not look whether the file
  could be opened either: everything dumped into such a file is lost without a word.
* C85: `RefPointer::reallocate` (Vector::resize) releases its data before it asks for the new
  array.  If that throws, the vector refers to released memory (any use, also its destructor,
  is undefined); if the data was shared, the count is one too low and copies stop being
  independent.  Every other operation leaves everything as it was, but `clone` (and, before
  C++17, the constructor) loses the array if the allocation of the counter fails.
* C86: `get_lock` tries for ever when the lock file cannot be created, whatever the reason: also
  an `InDataFile` (which only reads, in SDF_SHARED mode by default) on a file in a directory
  where one may not write, or that does not exist, never returns.  It takes descriptor 0 for
  a failure: in a process without standard input it obtains the lock through descriptor 0,
  then waits for itself for ever, and so does everybody else.
* C87: `sdf_load.m` takes a value without a name and without elements (every unnamed vector of
  tensors: their contents are never loaded) for the end of the file, and silently leaves out
  everything after it.  A variable whose name begins with `sdf` is taken for a file header, and a
  name that is no identifier is an error that makes the whole file unreadable; the library writes
  both.  A file that was cut within the elements of a vector loads with a shorter vector, and
  nothing is reported (the Python reader fills it up with junk, C75).
* C88: RANDSEED goes through `atoi` and an `int`: the seeds that set_seed accepts and that do not
  fit (above 2147483647) are undefined behaviour.  Where /dev/urandom cannot be opened the seed is
  the time in seconds, and all programs started in the same second draw the same numbers.
  `rand<long>()` (and `rand<int>()` in 32-bit builds) never returns a negative number, although the
  documentation promises "the whole integer range".  The result of `fread` is not looked at: a
  short read leaves uninitialised bytes in the seed.
  RANDSEED without digits is taken for 0.
* C89: `rand<cdouble>()` is `to_complex(genrand_res53(), genrand_res53())`: the order in which the
  two are evaluated is unspecified, so that the same seed gives complex tensors with exchanged real
  and imaginary parts under different compilers.  Sparse::random with density 0 computes 0/0 = NaN
  for a number drawn as 0.
* C88: `rand<T>()` for an integer type without a specialisation (short, char, long long) is
  `static_cast<T>(rand<double>())`, always 0.
* C90: a product with a sparse matrix skips the zeros of the matrix, so that a row without entries
  gives 0 even if the other factor has infinities or NaNs, while the same product of dense matrices
  gives NaN for every BLAS: `mmult(S, t)` and `mmult(full(S), t)` do not agree on such tensors.
* C91: `t += t[0]` (also -=, *=, /=) depends on whether another tensor shares the memory of t: the
  number is a reference into the block that t had before begin() gave it a block of its own. With
  t = (2, 4) the result is (4, 8), or (4, 6) after `Tensor u = t`.
* C92: rand<unsigned long>(upper) and rand<int>(upper) take a remainder, so values are equally likely
  only up to one word: with upper = 3 the value 0 comes from one output more than 1 and 2.
* C93: `sdf_load_dataset.m` with a path p/n that does not end in a slash lists p/n but opens the files
  in p: an error, or the values of other files. The listing is ordered by name, so job 10 comes
  before job 2. A value whose size differs from those before removes the whole field silently, and
  its name stays in the global SDF_AVOID for all later loads. A value to be avoided that has no
  elements ends the reading of its file. Unfinished `.tmp` files are loaded as well.
* C94: `file_exists` is false for a file that may be read but not written. So
  `rename_file(a, b, false)` replaces a write-protected b. `rename_file(a, b, true)` deletes b before
  it looks for a: if a is missing or write-protected b is lost, and `rename_file(a, a, true)`
  deletes a. `isdir` is also true for sockets and block devices, whose type shares the bit.
* C95: with a NaN among the values the sorting routines end and lose nothing, but the numbers on
  both sides of the NaN need not be in order (2, NaN, 1 is left as it is).
* C96: without eigenvectors dseupd gives back the values that dsaup2 left in front, which it sorted
  again by the opposite code (dsaup2.f.c:694-707): with two values of the same magnitude, 3 and -3,
  and one wanted, it can give the one that has not converged.
* C96: dseupd promises values in increasing order; without eigenvectors and with SA they come in
  decreasing order (dseupd.f.c:758), with SM by decreasing magnitude.
* C96: dsaup2.f.c:797 compares with nev, which was increased by the zero estimates in 633-641: after
  the last iteration the code can be 1 (limit of iterations) although all wanted values have converged.
* C97: zneupd requires ncv > nev + 1 (zneupd.f.c:468), more than znaupd and than its own
  documentation, and the library takes ncv = min(max(2 nev, 20), n): with nev = n - 1, which the
  constructor accepts (arpack_t.cc:65-70), eigs of complex matrices and maps with n > 4 does all the
  work and then aborts in get_data.
* C98: references_ is an int (refcount.hpp:68).  The 2^31-th vector that shares a block overflows it:
  undefined behaviour, and where additions wrap, with 2^31 + 1 of them the destruction of one releases
  the memory of the others.
* C99: eigs of a real matrix always calls the iteration for symmetric matrices (arpack_t.cc:148), but
  linalg.h:167-172 offers it for a "real nonsymmetric matrix".  For the 5 x 5 matrix with ones above
  the diagonal, started with the last unit vector, the value 1 gets the estimate 0 and converges for
  each tolerance; it is not an eigenvalue.
* C100: znapps.f.c:402 compares only the real part of an element below the diagonal with the threshold.
  These elements are real before the first shift of a restart, but not before the second one.  For a
  3 x 3 matrix with two of its eigenvalues as shifts, the element -8/5 i is dropped, and 6/5 i with a
  unit vector looks like an eigenpair with estimate 0; it is not an eigenvalue.  The restart is right
  for Hermitian matrices with real shifts, and for any matrix with one shift in each restart.
* C101: znaup2 keeps values with an estimate equal to zero out of the shifts by counting them into nev
  ("none of these Ritz values may be removed by shifting"), but then enlarges nev by the number of
  converged values and sorts again with zngets, which chooses by the code only.  With the values 1 to 6,
  LM and two wanted, where 6 has converged and 1 has an estimate of zero, 1 becomes a shift.
  (C101_zero_shift_refuted; C101_iteration_partial proves that it is not one if nothing has converged.)
* C101: as in C96, without eigenvectors and with values of the same magnitude (3i and -3i) zneupd gives
  back one that has not converged instead of the one that has. (C101_values_ties_refuted)
* C102: do_eigs does not delete the operator that eigs makes with new (eigs_map_d.cc, eigs_map_z.cc;
  cgs.cc:62 and eig_power.hpp:66 do).  Each call of eigs with a sparse matrix or a function leaks it, and
  with a sparse matrix the copy keeps the memory of the matrix for ever. (C102_eigs_never_released)
* C102: FunctionMap keeps a reference to the function object (map.h:51).  A variable made from a temporary,
  FunctionMap<F,RTensor> m(with_args(f, x)), refers to an object that has ended.
  (C102_kept_function_refuted)
* C102: the operator is a plain pointer that is deleted at the end of cgs and eig_power.  When the function
  throws, the operator stays for ever; no vector stays with it. (C102_thrown_refuted, C102_thrown_released_partial)
* C103: sizes are cast to blas::integer without a test.  With 2^32 + 1 elements and integers of 32 bits a
  dot product is the product of the first two elements (C103_fold_refuted), solve leaves all right-hand sides
  but the first as they are (C103_solve_refuted), svd returns a VT with one column (C103_svd_refuted), and
  eigs works with another n (C103_arpack_cut_refuted).  solve_z.cc compares the columns after the cast
  (solve_d.cc before), and takes a 1 x (2^32+1) matrix for a square one (C103_solve_square_refuted).
* C103: arpack_t.cc:82 computes n*ncv in int.  For one eigenvalue this overflows from n = 107374183 on: the
  lowest state of 27 spins is undefined behaviour (C103_arpack_refuted), with vectors of 1 GB only.
* C104: sdf_sort_1d.m:17 calls `warn`, which is no function of Matlab, with the variable `field`, which does not
  exist, so that a field with another number of entries is an error and not a warning.  A field with one
  element (or a struct with one entry) is an error before that: k is empty in k(end) (C104_other_refuted).
* C105: without rows, sdf_sort_2d.m:22-23 counts the entries with the x of the first, which are as many as there
  are y, and takes that for the rows; but x varies fastest in the sorted entries.  Unless the grid is square the
  matrices are scrambled (C105_rows_refuted, C105_rows_witness_refuted).
* C105: sdf_sort_2d.m:14 divides y by its smallest step from the minimum.  If another step is half of that or less,
  the x decide before the y: y = 0, 10, 11 comes out as 0, 0, 10, 11, 10, 11 (C105_steps_refuted).  If all x are
  the same the key is 0/0 and nothing is sorted (C105_one_x_refuted); if all y are, there is an error
  (C105_one_y_refuted).
* C106: on AIX the numbers are written little endian, but the header says big endian (data_file.cc:33-34 looks at
  the machine and not at the file).  Little-endian machines refuse the files of AIX and the other way round
  although only that byte differs (C106_exchange_refuted), and Matlab, which believes the header, fails
  (C106_matlab_refuted, C106_matlab_real_refuted).
* C106: when a file ends early, the AIX branch loads old contents of its buffer, for instance the first number of
  the tensor again, without an error (C106_cut_refuted).
* C107: gettimeofday, which tictoc.cc:33 asks, is not a monotonic clock: if it is set back while the program runs
  toc() is negative (C107_set_back_refuted).  toc() without tic() gives the seconds since 1970
  (C107_no_tic_refuted).  A double of seconds since 1970 loses the microseconds as it grows (C107_late_refuted).
* C87: values of different shapes under one name are mixed by `sdf_load.m`: a number written after a vector is
  taken for one more element of it (C87_number_after_vector_refuted), a vector after a matrix with as many rows for
  one more column (C87_vector_after_matrix_refuted), without an error; a vector after a number, or a matrix after a vector, makes the whole file
  unreadable (C87_vector_after_numbers_refuted, C87_matrix_after_vectors_refuted).

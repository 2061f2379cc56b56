{"id": "C01", "title": "Copies behave as independent values (copy-on-write is invisible)", "statement": "After any program of creating, copying, assigning, resizing, writing to and destroying vectors/tensors, reading element i through a handle returns exactly what it would return if every handle owned a private array copied at copy/assignment time. In particular a write through one handle is never observed through another.", "quantifier": "every finite sequence of create/copy/assign/self-assign/write/resize/destroy operations over any number of handles, sizes and element values", "why_tests_cant": "aliasing bugs depend on the whole history of sharing; tests only exercise a handful of sharing patterns", "anchors": ["include/tensor/refcount.h:RefPointer", "include/tensor/detail/refcount.hpp:appropriate,operator=,dereference,reallocate", "include/tensor/vector.h:Vector"]}
{"id": "C02", "title": "Reference counts are exact: no leak, no double free, no use after free", "statement": "In every reachable state each live data block is owned by exactly ref_count() handles and ref_count() >= 1; no operation ever touches a freed block or frees one twice; when all handles are gone no block is left allocated.", "quantifier": "every finite history of vector operations, every intermediate state", "why_tests_cant": "memory errors appear only for particular interleavings of copies and destructions; a test that passes says nothing about other histories", "anchors": ["include/tensor/detail/refcount.hpp:reference,dereference,~pointer,clone", "include/tensor/refcount.h:RefPointer"]}
{"id": "C03", "title": "Wrapping foreign memory never frees it and writes through only when unshared", "statement": "A vector built over caller-owned memory never releases that memory, whatever is done with the vector and its copies; the caller's memory is modified only by a write through a handle that is at that moment the only handle on it, and then exactly at the written position; a handle that had to copy first stops referring to the caller's memory.", "quantifier": "every history of vector operations that includes wrapping foreign buffers", "why_tests_cant": "needs all histories of sharing between wrapped and owned vectors", "anchors": ["include/tensor/vector.h:Vector(index,elt_t*)", "include/tensor/detail/refcount.hpp:~pointer,clone,appropriate"]}
{"id": "C04", "title": "Copying a tensor::shared_ptr (Job::dataset) is safe", "statement": "A job data set handle may be copied like any smart pointer: the file object is destroyed exactly once, when the last copy goes away.", "quantifier": "every history of creating, copying and destroying shared_ptr handles", "why_tests_cant": "whether a copy is elided depends on the compiler; the double delete only shows for histories that really copy", "anchors": ["include/tensor/refcount.h:shared_ptr", "include/tensor/jobs.h:Job::dataset", "src/tools/jobs_dataset.cc:Job::open_dataset"]}
{"id": "C05", "title": "Element access computes the column-major position, accepts negative indices and rejects the rest", "statement": "t(i1,...,in) (n = 1..6) on a tensor of rank n returns the element with coordinates (i1..in), the first index varying fastest; an index -k means d-k; any index outside [-d,d) or a wrong number of indices is an assertion failure; the access never leaves the tensor's memory.", "quantifier": "all ranks 1 to 6, all dimension vectors, all signed index tuples, all contents", "why_tests_cant": "infinitely many shapes and index combinations; boundary mistakes hide in one rank or one extent", "anchors": ["include/tensor/detail/tensor_base.hpp:operator()", "include/tensor/detail/common.h:normalize_index"]}
{"id": "C06", "title": "Writing one element changes exactly that element", "statement": "After t.at(i1,...,in) = v, t(i1,...,in) is v and every other coordinate tuple reads as before; dimensions are unchanged. Distinct in-range coordinate tuples never share storage and together they cover all of it.", "quantifier": "all ranks 1 to 6, all shapes, all index tuples (also negative), all values", "why_tests_cant": "requires injectivity of the address map for all shapes", "anchors": ["include/tensor/detail/tensor_base.hpp:at", "include/tensor/vector.h:Vector::at"]}
{"id": "C07", "title": "Reshaping keeps the element sequence and refuses a size mismatch", "statement": "reshape(t, dims) has exactly the dimensions asked for and the same elements in the same linear order, leaves t untouched, and fails an assertion exactly when the product of dims differs from the number of elements; flatten(t) is the rank-1 case; reshaping back restores t.", "quantifier": "all tensors and all vectors of non-negative dimensions", "why_tests_cant": "all shape pairs with equal product cannot be enumerated", "anchors": ["include/tensor/detail/tensor_base.hpp:reshape", "include/tensor/detail/tensor_reshape.hpp", "src/tensor/tensor_flatten_d.cc"]}
{"id": "C08", "title": "size() is the product of the dimensions", "statement": "Indices::total_size and the size of a freshly constructed tensor equal the product of its dimensions, whatever they are.", "quantifier": "all dimension vectors that the index type can represent", "why_tests_cant": "overflow and negative extents are corner cases of an unbounded domain", "anchors": ["src/indices/indices.cc:total_size", "include/tensor/detail/tensor_base.hpp:Tensor(const Indices&)"]}
{"id": "C09", "title": "Reading a slice gives exactly the selected sub-array", "statement": "t(r1,...,rn) with each r a full range, a single index, a start:step:end range or an index list that lies inside the dimension, on a tensor with no empty dimension, has dimensions (size r1,...,size rn) and its element (k1..kn) is t(r1[k1],...,rn[kn]); no element of the result is left unset and nothing outside t is read.", "quantifier": "all ranks 1 to 6, all shapes, all combinations of in-range ranges (any mixture of kinds)", "why_tests_cant": "the iterator composes per-dimension iterators with rescaled strides; only a proof covers all mixtures and sizes", "anchors": ["src/views/range.cc", "src/tensor/tensor_view.hpp:view::operator Tensor,operator()", "include/tensor/detail/tensor_slice.hpp"]}
{"id": "C10", "title": "Assigning to a slice changes exactly the selected elements", "statement": "t.at(r1,...,rn) = x, where x is a number, a different tensor variable (which may share memory with t) or a slice (possibly of t itself), stores the k-th element of x at the k-th selected position, reading x as it was before the assignment, and leaves every other element of t unchanged; a different number of elements is an assertion failure.", "quantifier": "all ranks, shapes, in-range range combinations without repeated positions, all sources including overlapping self-assignment", "why_tests_cant": "aliasing and stride errors show only for particular shapes and overlaps", "anchors": ["src/tensor/tensor_view.hpp:mutable_view::operator=,at", "src/views/range.cc"]}
{"id": "C11", "title": "Negative positions in range() count from the end", "statement": "As documented, range(-1), range(1,-1), range(igen<<-1) select counted from the end of the dimension exactly like negative single indices.", "quantifier": "all dimensions and all negative offsets within them", "why_tests_cant": "documented behaviour over all extents", "anchors": ["doc/sec_tensor.hdoc", "doc/sec_intro.hdoc", "src/views/range.cc:SingleRange,StepRange,IndexRange", "include/tensor/indices.h:range"]}
{"id": "C12", "title": "Out-of-range slices are rejected", "statement": "Selecting a position that does not exist in the dimension is an assertion failure, never a read or write outside the tensor.", "quantifier": "all shapes and all ranges", "why_tests_cant": "the guard must be right at every boundary of every range kind", "anchors": ["src/views/range.cc:set_limit", "src/tensor/tensor_view.hpp"]}
{"id": "C13", "title": "Slicing always terminates and never traps, also for empty dimensions and any step", "statement": "Reading or assigning a slice finishes for every tensor, including ones with an empty dimension, and for every step; start:step:end with a negative step enumerates downwards as in Matlab.", "quantifier": "all shapes including zero extents, all ranges", "why_tests_cant": "non-termination and division traps need specific zero extents in specific positions", "anchors": ["src/views/range.cc:ProductRange,StepRange", "src/tensor/tensor_view.hpp"]}
{"id": "C14", "title": "permute(t,i,j) swaps exactly two indices", "statement": "permute(t,i,j) has the dimensions of t with entries i and j exchanged and element (..a_i..a_j..) of t is found at (..a_j..a_i..); indices may be negative; permuting twice gives t back; i = j gives t; transpose is the rank-2 case.", "quantifier": "all ranks, shapes, index pairs, contents", "why_tests_cant": "the implementation has several special-cased loops selected by the shape", "anchors": ["src/tensor/tensor_permute.cc", "src/tensor/matrix_transpose.cc"]}
{"id": "C15", "title": "transpose and adjoint are involutive index swaps", "statement": "transpose(A)(i,j) = A(j,i), adjoint(A)(i,j) = conj(A(j,i)); each applied twice is the identity; both require rank 2.", "quantifier": "all matrices including empty, row and column ones", "why_tests_cant": "all sizes", "anchors": ["src/tensor/matrix_transpose.cc", "src/tensor/matrix_adjoint.cc"]}
{"id": "C16", "title": "fold is tensor contraction", "statement": "fold(A,m,B,n) has the dimensions of A without index m followed by those of B without index n (or (1) when none are left) and each element is the sum over the shared index of the products; different or empty contracted dimensions abort; negative index numbers count from the end; mmult(A,B) is fold(A,-1,B,0).", "quantifier": "all ranks, shapes, contracted index pairs, contents (over any commutative semiring of numbers, exact arithmetic)", "why_tests_cant": "five different code paths chosen by shape; unbounded shapes", "anchors": ["src/tensor/tensor_fold.cc:do_fold", "src/tensor/tensor_fold_d.cc:fold,mmult", "src/tensor/gemm.cc"]}
{"id": "C17", "title": "foldc conjugates the first argument only", "statement": "foldc(A,m,B,n) = fold(conj(A),m,B,n) for complex tensors, and = fold(A,m,B,n) when A is real.", "quantifier": "all ranks, shapes, contracted index pairs, contents", "why_tests_cant": "conjugation is implemented differently in each code path", "anchors": ["src/tensor/tensor_fold.cc:do_fold", "src/tensor/tensor_fold_z.cc:foldc", "src/tensor/tensor_fold_dz.cc"]}
{"id": "C18", "title": "foldin inserts the free indices of A where B's contracted index was", "statement": "foldin(A,m,B,n) contracts index m of A with index n of B and the result's dimensions are those of B with index n replaced by the remaining indices of A; contracting two vectors gives the one-element tensor with their product.", "quantifier": "all ranks >= 1, shapes, contracted pairs, contents", "why_tests_cant": "unbounded shapes, plus the rank-1 corner", "anchors": ["src/tensor/tensor_foldin.cc:do_foldin_into"]}
{"id": "C19", "title": "The *_into variants give the same result whatever the destination held", "statement": "fold_into(C,A,..,B,..), foldin_into and mmult_into store in C what fold/foldin/mmult return, also when C is the same object as A or B or shares memory with them.", "quantifier": "all tensors and all aliasing patterns between destination and arguments", "why_tests_cant": "aliasing is a relation between arguments, not a value", "anchors": ["src/tensor/tensor_fold_d.cc:fold_into,mmult_into", "src/tensor/tensor_foldin_d.cc:foldin_into"]}
{"id": "C20", "title": "kron and kron2 implement the Kronecker product", "statement": "kron(A,B) has dimensions (rows A*rows B, cols A*cols B) and element (i*rowsB+j, k*colsB+l) = A(i,k)*B(j,l), kron2(A,B) = kron(B,A); vectors are treated as columns; the mixed product rule kron(A,B)*kron(C,D) = kron(AC,BD) follows.", "quantifier": "all matrices and vectors", "why_tests_cant": "all sizes", "anchors": ["src/tensor/tensor_kron.hpp", "src/tensor/tensor_kron_d.cc"]}
{"id": "C21", "title": "kron2_sum adds operators acting on different factors", "statement": "kron2_sum(A,B) of square matrices is A x 1 + 1 x B in the library's ordering, for dense and for sparse arguments alike.", "quantifier": "all square matrices, dense or sparse", "why_tests_cant": "the identity sizes must be right for every fill pattern", "anchors": ["src/tensor/tensor_kron.hpp:do_kron2_sum", "src/sparse/sparse_kron_d.cc:kron2_sum"]}
{"id": "C22", "title": "scale multiplies along one index", "statement": "scale(t,n,v) multiplies element (..a_n..) by v[a_n], keeps dimensions, requires v.size() = dimension n, accepts negative n; scale_inplace has the same effect on its argument and on no other tensor.", "quantifier": "all ranks, shapes, indices, contents", "why_tests_cant": "all shapes", "anchors": ["src/tensor/tensor_scale.cc:doscale"]}
{"id": "C23", "title": "change_dimension truncates or zero-pads one index", "statement": "change_dimension(t,n,k) has dimension n replaced by k; element (..a_n..) is that of t when a_n is below both extents and zero otherwise.", "quantifier": "all ranks, shapes, indices, new sizes", "why_tests_cant": "all shapes and both directions", "anchors": ["src/tensor/tensor_change_dimension.cc"]}
{"id": "C24", "title": "trace sums the diagonal of two indices", "statement": "trace(t,i,j) removes indices i and j and sums over the common value of both (up to the smaller extent); trace(A) of a matrix is the sum of its diagonal.", "quantifier": "all ranks >= 2, shapes, index pairs", "why_tests_cant": "all shapes and index positions", "anchors": ["src/tensor/tensor_trace.cc", "src/tensor/matrix_trace.cc"]}
{"id": "C25", "title": "diag builds and take_diag extracts a diagonal", "statement": "diag(v,k,r,c) is the r-by-c matrix that is zero except along the k-th diagonal, where A(p-min(k,0), p+max(k,0)) = v(p); take_diag(t,k,i,j) extracts the k-th diagonal of indices i<j, for tensors of any rank; take_diag(diag(v,k)) = v.", "quantifier": "all vectors, diagonals, ranks, shapes, index pairs", "why_tests_cant": "all shapes and index positions", "anchors": ["src/tensor/matrix_diag.cc", "src/tensor/tensor_take_diag.cc"]}
{"id": "C26", "title": "squeeze drops exactly the unit dimensions", "statement": "squeeze(t) keeps the elements and the dimensions different from one, in order, for every tensor.", "quantifier": "all tensors, including all-ones shapes and empty dimensions", "why_tests_cant": "all dimension vectors", "anchors": ["src/tensor/tensor_squeeze.cc"]}
{"id": "C27", "title": "Elementwise arithmetic is elementwise and keeps shapes", "statement": "a+b, a-b, a*b, a/b (tensor-tensor, tensor-number, number-tensor, and compound forms) have the dimensions of the tensor argument and combine equal positions; differing dimensions are rejected; operands (and their copies) are unchanged, compound forms change only their left operand.", "quantifier": "all tensors, numbers and operators", "why_tests_cant": "all shapes, incl. conformable-size-but-different-shape pairs", "anchors": ["src/tensor/tensor_t_op_t.cc", "src/tensor/tensor_t_op_n.cc", "include/tensor/detail/tensor_ops.hpp"]}
{"id": "C28", "title": "Comparisons are elementwise and agree on both sides", "statement": "(a op b)[i] = a[i] op b[i] for tensors/indices, and with a number on either side: (x < a)[i] is x < a[i] and so on.", "quantifier": "all vectors, numbers and the six operators", "why_tests_cant": "mirror errors show only at ties", "anchors": ["src/compare", "include/tensor/indices.h:operator<(index,...)", "include/tensor/tensor.h:451"]}
{"id": "C29", "title": "Boolean vectors obey Boolean algebra; which() lists the true positions", "statement": "&&, ||, ! act elementwise; all_of/any_of/none_of quantify over all elements; which(b) is the strictly increasing list of exactly the positions that are true.", "quantifier": "all boolean vectors", "why_tests_cant": "all lengths and patterns", "anchors": ["src/indices/booleans.cc", "src/indices/booleans_and.cc", "src/indices/which.cc"]}
{"id": "C30", "title": "Index vectors: iota/range, concatenation and generators", "statement": "iota(a,b,s) lists a,a+s,... not beyond b; x << y is concatenation; igen << x1 << ... << xn has the elements in the order written; all_equal decides equality.", "quantifier": "all integers and all lengths", "why_tests_cant": "unbounded lengths and steps", "anchors": ["src/indices/indices.cc:range", "src/indices/concat.cc", "include/tensor/gen.h"]}
{"id": "C31", "title": "Reductions: sum, mean, min, max, norm0, scprod", "statement": "sum adds every element once; min/max return an attained element bounding all others and reject an empty tensor; norm0 is the largest modulus and 0 for an empty tensor; scprod(a,b) = sum of a_i conj(b_i); mean(t,n) averages over index n, whichever it is.", "quantifier": "all tensors of every shape, all indices n", "why_tests_cant": "all sizes", "anchors": ["src/tensor/tensor_sum_d.cc", "src/tensor/tensor_max_d.cc", "src/tensor/tensor_min_d.cc", "src/tensor/tensor_norm0_d.cc", "src/tensor/tensor_norm2_d.cc", "src/tensor/tensor_mean_ndx.cc"]}
{"id": "C32", "title": "sort and sort_indices", "statement": "sort(v) is the ordered permutation of v (descending if asked); sort_indices(v) is a permutation of positions p with v(range(p)) = sort(v); this also for integer index vectors.", "quantifier": "all vectors, both directions, all representable values", "why_tests_cant": "all permutations and duplicates; values above 2^53", "anchors": ["src/tensor/tensor_sort_d.cc", "src/tensor/tensor_sort_i.cc"]}
{"id": "C33", "title": "eye/zeros/ones/linspace", "statement": "eye(n,m)(i,j) is 1 on the diagonal and 0 elsewhere; zeros/ones are constant; linspace(a,b,n) has n points, starts at a, equally spaced, ends at b (n>1, exact arithmetic).", "quantifier": "all sizes and end points", "why_tests_cant": "all sizes", "anchors": ["include/tensor/detail/tensor_matrix.hpp", "src/indices/linspace.hpp"]}
{"id": "C34", "title": "Building a sparse matrix from coordinate lists", "statement": "Sparse(rows,cols,data,nrows,ncols) with distinct in-range coordinates gives the matrix with those entries, whatever the order of the lists; nrows/ncols default to the smallest sizes that contain all entries; the compressed representation is well formed (row pointers monotone, columns strictly increasing inside each row and in range).", "quantifier": "all coordinate lists and sizes", "why_tests_cant": "all orders and patterns", "anchors": ["include/tensor/detail/sparse_base.hpp:Sparse(COO),sort"]}
{"id": "C35", "title": "Sparse <-> dense conversion is lossless", "statement": "full(Sparse(A)) = A for every matrix A, Sparse(A) stores no zero, its compressed form is well formed and S(i,j) = full(S)(i,j) for all i,j of a well-formed S.", "quantifier": "all matrices", "why_tests_cant": "all sizes and zero patterns", "anchors": ["include/tensor/detail/sparse_base.hpp", "src/sparse/full_d.cc"]}
{"id": "C36", "title": "Sparse arithmetic agrees with dense arithmetic", "statement": "full(A op B) = full(A) op full(B) for +,-,* (elementwise), and likewise for negation, multiples and quotients by a number, conj, real and imag; every result is well formed; A op B stores no zero; different dimensions abort.", "quantifier": "all pairs of well-formed sparse matrices", "why_tests_cant": "a three-way merge per row; all interleavings of column patterns", "anchors": ["src/sparse/sparse_binop.hpp", "include/tensor/detail/sparse_ops.hpp"]}
{"id": "C37", "title": "Sparse transpose, adjoint and kron agree with dense", "statement": "full(transpose(S)) = transpose(full(S)), full(adjoint(S)) = adjoint(full(S)), full(kron(S,T)) = kron(full(S),full(T)); results are well formed.", "quantifier": "all well-formed sparse matrices", "why_tests_cant": "all sizes and patterns", "anchors": ["src/sparse/sparse_transpose_d.cc", "src/sparse/sparse_adjoint_z.cc", "src/sparse/sparse_kron.hpp"]}
{"id": "C38", "title": "Sparse-dense products agree with dense products", "statement": "mmult(S,t) = mmult(full(S),t) for dense tensors of any rank, and mmult(t,S) = mmult(t,full(S)).", "quantifier": "all well-formed sparse matrices and all dense tensors with matching dimension", "why_tests_cant": "hand-written loops with running pointers; all shapes", "anchors": ["src/sparse/mmult_sparse_tensor.h", "src/sparse/mmult_tensor_sparse.h"]}
{"id": "C39", "title": "SDF files give back what was stored", "statement": "For any sequence of dump() calls with names of at most 63 non-NUL characters, reading the file with the matching load() calls in the same order (naming the variables or passing an empty name) yields the same dimensions and bit-identical elements.", "quantifier": "all record sequences, names, shapes, element bit patterns", "why_tests_cant": "unbounded record sequences and contents", "anchors": ["src/sdf/odata_file.cc", "src/sdf/idata_file.cc"]}
{"id": "C40", "title": "SDF rejects wrong names, wrong types and foreign files", "statement": "load() with a non-empty name different from the stored one, or of another type, aborts; opening a file that was not written by the same word size/endianness aborts.", "quantifier": "all names, record types, headers", "why_tests_cant": "all pairs of names, incl. prefixes and over-long names", "anchors": ["src/sdf/idata_file.cc:read_tag,read_header", "src/sdf/odata_file.cc:write_variable_name"]}
{"id": "C41", "title": "SDF detects truncated files", "statement": "Loading from a file that ends before the record is complete is reported as an error and never yields made-up data.", "quantifier": "all truncation points of all files", "why_tests_cant": "every prefix of every file", "anchors": ["src/sdf/idata_file.cc:read_raw_with_endian"]}
{"id": "C42", "title": "Appending in several sessions yields one readable file", "statement": "Opening the same file for output several times in append mode and dumping in each session gives one file with a single header followed by all records in order.", "quantifier": "all sequences of sessions and records", "why_tests_cant": "unbounded histories", "anchors": ["src/sdf/odata_file.cc:OutDataFile", "src/sdf/data_file.cc:DataFile"]}
{"id": "C43", "title": "SDF_PARANOID files are replaced atomically", "statement": "Whatever instant the program dies, the named file holds either its complete previous contents or the complete new contents; a file that did not exist before never appears incomplete.", "quantifier": "every crash point of every paranoid session, and every sequence of crashed sessions", "why_tests_cant": "crash points cannot be enumerated by unit tests", "anchors": ["src/sdf/data_file.cc:DataFile,close", "src/sdf/rename_file.cc", "src/sdf/odata_file.cc"]}
{"id": "C44", "title": "SDF_SHARED gives exclusive access", "statement": "At no time do two processes have the same file open in SDF_SHARED mode.", "quantifier": "all numbers of processes and all interleavings of their system calls", "why_tests_cant": "schedules", "anchors": ["src/sdf/data_file.cc:get_lock,giveup_lock,DataFile,close"]}
{"id": "C45", "title": "Jobs enumerate every combination of variable values exactly once", "statement": "Iterating a Job from start to end visits each element of the Cartesian product of the variables' values exactly once, number_of_jobs() being its size.", "quantifier": "all lists of variables with any positive number of steps", "why_tests_cant": "mixed-radix decoding over unbounded lists", "anchors": ["src/tools/jobs.cc:select_job,compute_number_of_jobs,operator++,to_do"]}
{"id": "C46", "title": "Job blocks partition the work", "statement": "For --job-blocks n, the blocks --this-job 0..n-1 run every job exactly once among them; omitting --this-job means block 0; --first-job/--last-job run exactly the given interval.", "quantifier": "all numbers of jobs and blocks", "why_tests_cant": "rounding of the block size for all pairs", "anchors": ["src/tools/jobs.cc:Job::Job"]}
{"id": "C47", "title": "Job files and command line define the same variables", "statement": "--job file defines the variables listed in the file, one per line, exactly as the corresponding --variable options would.", "quantifier": "all job files", "why_tests_cant": "all file contents", "anchors": ["src/tools/jobs.cc:parse_file,parse_line,split_string"]}
{"id": "C48", "title": "Flags are a registry of independent settings", "statement": "create_key returns a fresh key with the given value; set changes exactly one key; get returns the last value set; setting an unknown key aborts.", "quantifier": "all histories of create/set/get", "why_tests_cant": "histories", "anchors": ["src/tools/flags.cc", "include/tensor/flags.h"]}
{"id": "C49", "title": "The random generator is reproducible and follows its definition", "statement": "After set_seed(s) the k-th raw output depends only on s and k and equals the tempered k-th term of the MT19937-64 recurrence; the generator never reads outside its state, for any number of draws and reseedings; doubles lie in [0,1).", "quantifier": "all seeds, all draw counts and reseed histories", "why_tests_cant": "period 2^19937; block refill boundaries", "anchors": ["src/rand/rand64.cc", "src/rand/rand.cc"]}
{"id": "C50", "title": "rand(lower,upper) stays in [lower,upper)", "statement": "For lower < upper, rand<int>, rand<long>, rand<unsigned long> and rand<double> (lower,upper) return a value in [lower,upper); rand<double>(upper) returns a value in [0,upper).", "quantifier": "all limits and all generator outputs", "why_tests_cant": "bad values can be rare", "anchors": ["include/tensor/rand.h", "src/rand/rand64.cc:genrand_res53"]}
{"id": "C51", "title": "fftshift rotates and its backward form undoes it", "statement": "fftshift(t,dim,FORWARD) moves element k of index dim to (k + floor(N/2)) mod N; BACKWARD is the inverse; shapes unchanged; the all-dimension form shifts each index.", "quantifier": "all shapes incl. odd, even and unit extents, all ranks and dims", "why_tests_cant": "all sizes", "anchors": ["src/fftw/fftshift.cc"]}
{"id": "C52", "title": "find_blocks finds the block structure of a matrix", "statement": "The reported row/column sets are pairwise disjoint, every nonzero element lies in exactly one block, each block is connected (minimal), and the count is right; 'no blocks' is reported exactly when there is a single one.", "quantifier": "all matrices", "why_tests_cant": "a union-find-like pass with relabelling; all zero patterns", "anchors": ["src/linalg/find_blocks.hpp"]}
{"id": "C53", "title": "block_svd handles every square or economic decomposition", "statement": "block_svd succeeds for every matrix for which svd succeeds, places every block's singular triplet in a distinct slot, and U S VT equals the input.", "quantifier": "all matrices, both modes", "why_tests_cant": "block shapes vary with the zero pattern", "anchors": ["src/linalg/block_svd.hpp"]}
{"id": "C54", "title": "expm evaluates the diagonal Pade approximant", "statement": "The numerator and denominator built by expm(A,q) are N_q(A) and N_q(-A) of the [q/q] Pade approximant of exp, and the result is (N/D)^(2^j) for the scaling exponent j.", "quantifier": "all orders q >= 1, all matrices, exact arithmetic", "why_tests_cant": "recurrence over unbounded order", "anchors": ["src/linalg/expm_d.cc", "src/linalg/expm_z.cc"]}
{"id": "C55", "title": "Negative dimensions are rejected", "statement": "Constructing a tensor with a negative dimension is an error; it never yields a usable tensor reporting that dimension.", "quantifier": "all dimension lists with a negative entry", "why_tests_cant": "every position and value of the negative entry must be caught", "anchors": ["src/indices/indices.cc:total_size", "include/tensor/detail/tensor_base.hpp"]}
{"id": "C56", "title": "Assigning a tensor to a slice of itself reads the old values", "statement": "t.at(r1,...,rn) = t stores at the k-th selected position the k-th element t had before the assignment.", "quantifier": "all tensors and all in-range range combinations selecting as many positions as t has elements", "why_tests_cant": "the outcome depends on the order in which positions are overwritten, hence on the whole index list", "anchors": ["src/tensor/tensor_view.hpp:mutable_view::operator=(const Tensor&)"]}
{"id": "C57", "title": "Compound assignment with a number uses the number's value at the call", "statement": "t += x, t -= x, t *= x and t /= x replace every element e of t by e op x, where x is the value passed at the call, also when x is a reference to an element of t itself.", "quantifier": "all tensors, operators and numbers, including references into t", "why_tests_cant": "aliasing between the number and the tensor, for every position", "anchors": ["include/tensor/detail/tensor_ops.hpp", "include/tensor/detail/functional.h:plus_constant"]}
{"id": "C58", "title": "Infinity norm of a matrix", "statement": "matrix_norminf(m) is the largest of the sums of the moduli of the elements of a row, 0 if there are no rows, and anything but a matrix is rejected.", "quantifier": "all matrices of every size, real or complex", "why_tests_cant": "all sizes, and matrices without columns", "anchors": ["src/tensor/matrix_norminf_d.cc", "src/tensor/matrix_norminf_z.cc:matrix_norminf"]}
{"id": "C59", "title": "all_equal of sparse matrices compares the matrices", "statement": "all_equal(S,T) holds exactly when S and T have the same dimensions and the same element at every position.", "quantifier": "all pairs of well-formed sparse matrices", "why_tests_cant": "the comparison is of representations; it is right only if no operation leaves two representations of one matrix", "anchors": ["include/tensor/sparse.h:all_equal"]}
{"id": "C60", "title": "Opening a file for input leaves it unchanged", "statement": "Constructing an InDataFile neither deletes nor changes the named file, whatever the locking flag.", "quantifier": "all file contents and all flags", "why_tests_cant": "all files and flags, and every crash point", "anchors": ["src/sdf/data_file.cc:DataFile", "src/sdf/idata_file.cc:InDataFile"]}
{"id": "C61", "title": "A closed output file takes no more data", "statement": "After OutDataFile::close(), dump() aborts without touching any file and a further close(), such as the one of the destructor, has no effect.", "quantifier": "all modes, histories of dumps and records", "why_tests_cant": "all histories", "anchors": ["src/sdf/odata_file.cc:close,write_raw"]}
{"id": "C62", "title": "Variable definitions are read as documented", "statement": "--variable name,min[,max[,nsteps]] is cut into words at blanks, tabs, newlines, commas and semicolons and defines nsteps equally spaced values from min to max, 10 if nsteps is missing, or the single value min; definitions with fewer than two or more than four words are refused.", "quantifier": "all definition strings", "why_tests_cant": "all strings and step counts", "anchors": ["src/tools/jobs.cc:split_string,parse_line", "include/tensor/jobs.h:Variable"]}
{"id": "C63", "title": "get_value returns the value of the variable in the current job", "statement": "In every job of the loop get_value(name) is the value the current combination gives to the first variable of that name; it aborts, and get_value_with_default returns the default, if there is none.", "quantifier": "all variable lists, all jobs, all names", "why_tests_cant": "all combinations", "anchors": ["src/tools/jobs.cc:find_variable,get_value,get_value_with_default"]}
{"id": "C64", "title": "fftw is the discrete Fourier transform along the chosen dimensions", "statement": "fftw and fftw_inplace (over all dimensions, over one dimension, or over the dimensions marked in a vector of flags) give a tensor of the same dimensions whose elements are the unnormalised discrete Fourier transform of the input along exactly those dimensions, of any tensor including the empty one; transforming back with the opposite direction gives the input times the number of points transformed; a dimension out of range or a vector of flags of the wrong size is refused.", "quantifier": "all ranks, extents, dimension choices, directions and elements", "why_tests_cant": "the stride and ordering computation must be right for every shape and choice of dimensions", "anchors": ["src/fftw/fftw.cc", "src/fftw/fftw_inplace.cc", "src/fftw/fftw_common.cc:do_fftw"]}
{"id": "C65", "title": "solve(A,B) solves A X = B", "statement": "For a square matrix A and a tensor B whose first dimension is the number of equations, solve(A,B) returns X with the dimensions of B such that A X = B for every position of the other dimensions of B, or aborts because A is singular; non-square A, A that is not a matrix, and mismatched B are refused, and an empty system has an empty solution.", "quantifier": "all matrices, all ranks and extents of B", "why_tests_cant": "the layout of the right-hand sides must be right for every shape of B", "anchors": ["src/linalg/solve_d.cc:solve", "src/linalg/solve_z.cc:solve"]}
{"id": "C66", "title": "solve_with_svd(A,B,tol) is the pseudoinverse solution", "statement": "solve_with_svd(A,B,tol) returns X = V (1/S) U* B over the singular values above tol; if the discarded ones are zero, X is the least-squares solution of least norm, for every matrix A including the zero matrix, and solves A X = B whenever that has a solution.", "quantifier": "all matrices, right-hand sides of any rank, tolerances, ranks of A", "why_tests_cant": "all ranks and all truncation points", "anchors": ["src/linalg/solve_with_svd_d.cc:solve_with_svd", "src/linalg/solve_with_svd_z.cc:solve_with_svd"]}
{"id": "C67", "title": "eig returns eigenvalues and eigenvectors, also complex ones of real matrices", "statement": "For a square, non-empty matrix A, eig(A, R, L) returns n eigenvalues of A; column k of R, if asked for, is a right eigenvector of the k-th, A R = R D; L, if asked for, satisfies L A = D L. The complex eigenvalues of a real matrix come in conjugate pairs assembled from the real and imaginary parts LAPACK stores in two columns. Anything else than a square non-empty matrix is refused.", "quantifier": "all square matrices, all arrangements of real and complex eigenvalues, all choices of outputs", "why_tests_cant": "any interleaving of real eigenvalues and conjugate pairs must be unpacked rightly", "anchors": ["src/linalg/eig_d.cc:eig", "src/linalg/eig_z.cc:eig"]}
{"id": "C68", "title": "eigs returns the requested eigenvalues in order with their eigenvectors", "statement": "eigs(A, type, neig, vectors) returns the neig eigenvalues of A that come first for the type (largest or smallest magnitude, real or imaginary part), in order, and in the columns of vectors an eigenvector of each, A v = w v. Matrices that are not square, neig of zero and neig above the number of rows are refused.", "quantifier": "all square matrices, selectors and numbers of eigenvalues", "why_tests_cant": "all spectra and ties", "anchors": ["src/arpack/eigs_d.cc:eigs", "src/arpack/eigs_z.cc:eigs", "src/arpack/arpack_t.cc:sort_values,ARPACK"]}
{"id": "C69", "title": "cgs solves Hermitian definite systems within as many steps as unknowns", "statement": "cgs(A,b,x0,maxiter,tol) runs the method of conjugate gradients from x0: the residual it tests is the true residual b - A x of the approximation it returns, it stops at the first approximation whose residual is below the tolerance, and if A is Hermitian and definite and maxiter is the default or at least the number of unknowns, the approximation returned is within the tolerance. It aborts when A is singular along the direction of the search.", "quantifier": "all linear maps and matrices, right-hand sides, initial guesses, tolerances and numbers of steps, in exact arithmetic", "why_tests_cant": "finite termination is a theorem about all Hermitian definite matrices of all sizes", "anchors": ["src/linalg/cgs.cc:do_cgs", "src/linalg/cgs_d.cc:cgs", "src/linalg/cgs_z.cc:cgs", "src/tools/map.cc:MatrixMap"]}
{"id": "C70", "title": "eig_power returns the Rayleigh quotient and the normalized power of the start", "statement": "eig_power_right(A,v) and eig_power_left(A,v) replace v by a unit vector along A^(j+1) v (or (A^T)^(j+1) v) and return the eigenvalue estimate of the step before; started at an eigenvector they return its eigenvalue and leave it there. They stop after the number of steps asked for, or when A u - e u is within the tolerance or the estimate stops changing. From a start with a part along the eigenvector of the largest eigenvalue, the number and the vector approach that eigenvalue and eigenvector by the square of the ratio of the eigenvalues in every step; what is returned is an eigenvalue up to the tolerance, or the result of all the steps asked for. A matrix that is not square is refused.", "quantifier": "all square matrices, real or complex, start vectors, tolerances and numbers of iterations, in exact arithmetic", "why_tests_cant": "all matrices and all starts", "anchors": ["src/linalg/eig_power.hpp:eig_power_loop", "src/linalg/eig_power_d.cc:eig_power_right,eig_power_left", "src/linalg/eig_power_z.cc:eig_power_right,eig_power_left"]}
{"id": "C71", "title": "svd returns a singular value decomposition of the shape asked for, or reports a failure", "statement": "For a matrix A with M > 0 rows and N > 0 columns svd(A,U,VT,economic) returns min(M,N) nonnegative singular values in descending order, and, as far as asked for, unitary U (MxM) and VT (NxN) with A = U S VT, or in the economic mode the first min(M,N) columns of U and rows of VT. Asking for fewer outputs does not write anywhere else. Anything but a non-empty matrix is refused, and a failure of the iteration to converge is reported.", "quantifier": "all matrices of all sizes, tall, wide and square, all choices of outputs, both modes", "why_tests_cant": "job letters, leading dimensions and buffer sizes must fit for every shape and choice of outputs", "anchors": ["src/linalg/svd_d.cc:svd", "src/linalg/svd_z.cc:svd"]}
{"id": "C72", "title": "eig_sym diagonalizes Hermitian matrices", "statement": "For a Hermitian (symmetric) matrix A eig_sym(A, V) returns the eigenvalues, real and in ascending order, and, if asked for, a matrix V with orthonormal columns such that A V = V D and adjoint(V) A = D adjoint(V). For other square matrices the result is that of the Hermitian matrix with the same upper triangle. Anything but a non-empty square matrix is refused, and a failure of the iteration to converge is reported.", "quantifier": "all square matrices, real or complex, with and without vectors", "why_tests_cant": "all matrices of all sizes", "anchors": ["src/linalg/eig_sym_d.cc:eig_sym", "src/linalg/eig_sym_z.cc:eig_sym"]}
{"id": "C73", "title": "eigs finds eigenvalues of matrices, maps and sparse matrices by an honest dialogue with ARPACK", "statement": "eigs(A, type, k, vectors, converged) of an n x n matrix, a sparse matrix or a linear map with n > 4 and 0 < k < n starts ARPACK with legal parameters for the k eigenvalues asked for and with the starting vector if one was given, answers each request of the library with the product by the operator, changing nothing else, and returns the values and vectors that the library extracts; if the library does not end well, this is said in *converged, or the program stops if converged is null. So what is returned are eigenvalues and eigenvectors of the operator. With n <= 4 the same follows from LAPACK. Orders that do not exist, non-square operators and impossible numbers of eigenvalues are refused. The ARPACK object calls the library only when the library expects it, whatever the order in which its methods are called.", "quantifier": "all sizes, operators, orders, numbers of eigenvalues, starting vectors, all behaviours of the library (all dialogues, of any length), all sequences of method calls", "why_tests_cant": "the dialogue depends on the library and the operator and has no fixed length; a test sees a few of them", "anchors": ["src/arpack/arpack_t.cc:update, get_data, set_start_vector", "src/arpack/eigs_d.cc:eigs", "src/arpack/eigs_z.cc:eigs", "src/arpack/eigs_map_d.cc:do_eigs", "src/arpack/eigs_map_z.cc:do_eigs", "src/arpack/eigs_sp_d.cc:eigs", "src/arpack/eigs_sp_z.cc:eigs"]}
{"id": "C74", "title": "Datasets of jobs survive crashes and concurrent jobs", "statement": "Any number of processes may run jobs that write their results with Job::open_dataset into the same directory, in any interleaving, and may be killed at any point: a record that exists (dataset_record_exists) is complete, being exactly what one process of that job wrote, and never changes again; a process that closes its record finds there what it wrote; a process whose record is already there gets a null dataset and changes nothing; no process aborts, unless the name of the dataset is that of a plain file, in which case all do and nothing is changed. A job that was killed can be run again.", "quantifier": "all numbers of processes, assignments of jobs, results, interleavings of their system calls, and points at which processes are killed", "why_tests_cant": "the guarantee is about every interleaving of several processes and every crash point", "anchors": ["src/tools/jobs_dataset.cc:Job::open_dataset, Job::dataset_record_exists", "src/sdf/data_file.cc:DataFile::open, close", "src/sdf/odata_file.cc:OutDataFile", "src/sdf/rename_file.cc:rename_file"]}
{"id": "C75", "title": "The Python reader loads what the library wrote", "statement": "sdf.load(file) in Python returns, for a file written by any sequence of dumps and sessions of the C++ library, a dictionary that maps each name to the last value written under it: real and complex tensors and numbers with the same shape, type and elements bit by bit. A damaged file is not read as if it were whole.", "quantifier": "all sequences of dumps, values, names, shapes and opening modes; all contents of uninitialised memory; all cuts of the file", "why_tests_cant": "two programs in two languages must agree on every file", "anchors": ["python/sdf.py:SDF.load, load_record, load_tag, load_tensor", "src/sdf/odata_file.cc:OutDataFile::dump"]}
{"id": "C76", "title": "Python datasets hold one slice per record", "statement": "load_dataset(path) returns for each name an array with one more dimension than those in the files, whose k-th slice along it is the array of the k-th record of the directory, and load_sorted_dataset(path, field) the same with the records in increasing order of the first element of the field, whatever jobs wrote the records and were killed.", "quantifier": "all numbers of files, names, shapes, values and orders of the directory; all histories of jobs", "why_tests_cant": "all directories that a set of jobs can leave", "anchors": ["python/sdf.py:load_dataset, load_sorted_dataset, combine_dataset", "src/tools/jobs_dataset.cc:Job::open_dataset"]}
{"id": "C77", "title": "Threads may use vectors that share data", "statement": "Threads that use different Vector or Tensor variables, or only const operations (copying included) on the same variable, behave as if every variable had private contents, under every schedule: no freed memory is touched, no variable of one thread changes because of another, and nothing is leaked.", "quantifier": "all numbers of threads, programs of vector operations, contents and schedules of memory accesses", "why_tests_cant": "the schedule is chosen by the operating system and the bad ones are rare", "anchors": ["include/tensor/detail/refcount.hpp:pointer::reference, dereference, RefPointer::appropriate, operator=", "include/tensor/vector.h:Vector"]}
{"id": "C78", "title": "The text output shows dimensions and elements", "statement": "Writing a vector or tensor to a stream appends its dimensions and its elements in storage order, between brackets and separated by commas; tensors with equal text have equal dimensions and equal element texts; sparse matrices are written as the dense ones they stand for; matrix_form writes matrices row by row, refuses tensors of higher rank, and its brackets match.", "quantifier": "all element types, shapes, contents, stream settings and previous contents of the stream", "why_tests_cant": "unambiguity is a statement about all pairs of tensors", "anchors": ["include/tensor/detail/io.hpp:write_to_stream, operator<<", "include/tensor/io.h:operator<<, MatrixForm", "src/views/matrix_form.cc:MatrixForm::display", "include/tensor/numbers.h:operator<<"]}
{"id": "C79", "title": "real, imag and to_complex are inverse and elementwise", "statement": "real(z) and imag(z) have the dimensions of z and hold the parts of its elements; to_complex(real(z), imag(z)) is z; for r and i of equal dimensions r and i are the parts of to_complex(r, i), and other dimensions are refused; to_complex(r) has real part r and imaginary part imag(r), which is zero; conj, round and index_to_tensor act element by element.", "quantifier": "all shapes and contents, for any numbers with two parts", "why_tests_cant": "the iterators advance without bounds checks, so every size matters", "anchors": ["src/tensor/tensor_real_z.cc:real", "src/tensor/tensor_imag_z.cc:imag", "src/tensor/tensor_imag_d.cc:imag", "src/tensor/tensor_to_complex.cc:to_complex", "src/tensor/tensor_conj.cc:conj", "src/tensor/tensor_round_d.cc:round", "src/indices/to_tensor.cc:index_to_tensor"]}
{"id": "C80", "title": "The record a job saves tells its parameters", "statement": "A job that calls dump_variables() on a new file, possibly followed by other records, leaves a file from which every variable is loaded back, under its name, with the value get_value() has in that job; a loop over all jobs that appends to one file leaves the variables of every job, in the order of the jobs, and nothing else. Names of more than 63 characters are cut and cannot be loaded back.", "quantifier": "all variable definitions, all jobs, all file modes, all further records", "why_tests_cant": "all combinations of values, and the whole history of the loop", "anchors": ["src/tools/jobs_save.cc:Job::dump_variables", "src/sdf/odata_file.cc:OutDataFile::dump", "include/tensor/jobs.h:Job::Variable::value"]}
{"id": "C81", "title": "Equally spaced doubles", "statement": "linspace(min, max, n) of doubles returns n finite numbers, in order from min to max: the first is min, the last is max, no number lies outside the interval, and each is within a few units of rounding of the exact point; when min, max and the step are integers below 2^53 all numbers are exact.", "quantifier": "all pairs of doubles, all n", "why_tests_cant": "the rounding of every pair of doubles and every n; comparisons in tests use tolerances", "anchors": ["src/indices/linspace.hpp:linspace", "src/indices/linspace_d.cc", "include/tensor/tensor.h:linspace"]}
{"id": "C82", "title": "Reductions of doubles: rounding, overflow and NaNs", "statement": "sum(t), scprod(a,b), mean(t) and norm2(t) of doubles return a number within the accumulated rounding error of the exact value whenever they are finite; a finite result means that all elements were finite; sums and products of small integers are exact. matrix_norminf(a) of finite numbers is within the same error of the greatest row sum, and finite unless that is near the largest double. norm2 is finite, and not zero, when the exact norm is a positive double. max, min, norm0 and sort respect the order of the doubles, and a NaN among the elements is not lost.", "quantifier": "all tensors of doubles, of any size, with infinities, NaNs, zeros of both signs and subnormal numbers", "why_tests_cant": "rounding, overflow and underflow of all doubles; tests compare with a tolerance", "anchors": ["src/tensor/tensor_sum_d.cc:sum", "src/tensor/tensor_norm2_d.cc:scprod, norm2", "src/tensor/tensor_mean_d.cc:mean", "src/tensor/tensor_max_d.cc:max", "src/tensor/tensor_norm0_d.cc:norm0", "src/tensor/matrix_norminf_d.cc:matrix_norminf", "src/tensor/tensor_sort_d.cc:sort"]}
{"id": "C83", "title": "Iterators and references that are kept", "statement": "A pointer, iterator or reference got from begin(), end() or at() of a vector or tensor reads and writes that vector and no other, at its current value, until the vector is copied, assigned (to or from), resized or destroyed; one got from begin_const() or operator[] const reads the current value until the vector is written, assigned, resized or destroyed, whatever happens to its copies. Afterwards nothing is promised, and writing through it may change a copy.", "quantifier": "all programs with any number of vectors and kept pointers, all interleavings", "why_tests_cant": "depends on the history of sharing of every vector", "anchors": ["include/tensor/refcount.h:RefPointer::begin, end, begin_const, end_const", "include/tensor/vector.h:Vector::begin, at, operator[]", "include/tensor/detail/refcount.hpp:appropriate"]}
{"id": "C84", "title": "Errors while writing an SDF file", "statement": "If the system cannot write what a program dumps into an SDF file (the file cannot be opened, the disk is full, a device fails), the program is told: the constructor, dump or close does not return normally unless everything dumped is in the file. In paranoid mode the previous file stays as it was unless the new one is complete.", "quantifier": "all modes, all sequences of values dumped, all previous contents, all patterns of errors of the system at opening, writing, flushing and closing", "why_tests_cant": "tests write to a disk that has room; the error may strike any one of the writes, after any number of its bytes", "anchors": ["src/sdf/odata_file.cc:write_raw_with_endian, OutDataFile::OutDataFile, close", "src/sdf/data_file.cc:DataFile::close"]}
{"id": "C85", "title": "Vectors when memory runs out", "statement": "If memory runs out (std::bad_alloc) in the middle of an operation on a vector and the program catches the exception, the operation has done nothing: every vector keeps its value, copies remain independent, no memory is released twice or used after release, and the program can go on. Copying, assigning, reading and destroying vectors need no memory.", "quantifier": "all element types, all sequences of operations on any number of vectors (also over the caller's memory), every choice of the allocations that fail, both orders of evaluation the language allows", "why_tests_cant": "tests run with plenty of memory; any allocation of any history may be the one that fails", "anchors": ["include/tensor/detail/refcount.hpp:RefPointer::appropriate, reallocate, clone, constructors", "include/tensor/vector.h:Vector"]}
{"id": "C86", "title": "Opening an SDF file in shared mode comes to an end", "statement": "A program that opens a data file in SDF_SHARED mode (the default, for reading and for writing) gets it as soon as the lock can be taken, or is told that it cannot; closing the file gives back the lock and the descriptor.", "quantifier": "all behaviours of the other processes and of the file system over time, all tables of open descriptors", "why_tests_cant": "tests run with a writable directory, with standard input open and without competitors", "anchors": ["src/sdf/data_file.cc:get_lock, giveup_lock, DataFile::DataFile, DataFile::close", "include/tensor/sdf.h:is_locked"]}
{"id": "C87", "title": "The Matlab reader returns what the library wrote", "statement": "sdf_load.m, applied to a data file written by the library, returns a struct with one field per name, whose value is the one written under that name, bit by bit and with the dimensions of Matlab; values written under the same name are stacked along a new last dimension; there are no other fields. A damaged file is reported.", "quantifier": "all sequences of writes of all value types under all names, all modes of opening and all numbers of sessions that append, all previous states of the reader", "why_tests_cant": "there are no tests of the Matlab files; names, shapes and sequences of records are unbounded", "anchors": ["matlab/sdf_load.m", "matlab/sdf_load_record.m", "src/sdf/data_file_out.cc:OutDataFile::dump"]}
{"id": "C88", "title": "Seeds: RANDSEED repeats a run, different seeds give different numbers, integers of the whole range", "statement": "If the environment variable RANDSEED holds a decimal number, the random numbers after the start of a program, or after rand_reseed(), are those of set_seed with that number, whatever the program did before. Without it the numbers are determined by the bytes read from /dev/urandom. Different seeds, and different bytes, give different numbers within one block. The generator never gets stuck at zero. rand<T>() for the integer types reaches the whole range of T and nothing else.", "quantifier": "all texts of RANDSEED, all bytes, all seeds, all previous uses of the generator, all numbers of draws, 64-bit and 32-bit builds", "why_tests_cant": "2^64 seeds, a period of 2^19937 - 1, and a property of pairs of runs", "anchors": ["src/rand/rand.cc:rand_reseed", "src/rand/rand.cc:rand<int>", "src/rand/rand64.cc:init_by_array", "include/tensor/rand.h"]}
{"id": "C89", "title": "Random tensors are repeatable and their elements are the numbers of the generator", "statement": "After set_seed(s), whatever the program did before, the tensors made by random() and randomize() have the dimensions asked for and their elements, in order of storage and one tensor after the other, are the successive numbers of the generator, in [0,1); complex elements take two numbers each, the same ones on every machine. Sparse::random(rows, columns, density) keeps exactly the numbers not above the density, divided by it, and stores no zeros and nothing but numbers in (0,1].", "quantifier": "all seeds, previous histories, sequences of shapes, densities, 64-bit and 32-bit builds, all orders of evaluation that C++ allows", "why_tests_cant": "2^64 seeds, unbounded shapes, and choices of the compiler that one build does not show", "anchors": ["include/tensor/detail/tensor_base.hpp:randomize", "include/tensor/detail/tensor_base.hpp:random", "include/tensor/detail/sparse_base.hpp:random", "src/rand/rand.cc:rand<cdouble>"]}
{"id": "C90", "title": "Products of tensors of doubles are accurate for every order of summation", "statement": "fold, foldin, mmult and foldc of tensors of doubles, scprod of complex tensors and the products of sparse matrices with tensors return, for each element, a number within n rounding errors of the exact sum of the products that the definition prescribes, n being the number of terms; it is finite unless the sum of the moduli is near the largest double, and exact when the factors are integers and the sum of the moduli is at most 2^53. A result that is finite comes only from finite factors: no NaN or infinity is lost. This holds whatever the order, grouping and fusing of the additions that BLAS chooses for each element. Shapes that do not match are refused.", "quantifier": "all tensors of all ranks, shapes and doubles (including infinities and NaNs), all contracted indices, all BLAS implementations that form every product once and add them up in any order", "why_tests_cant": "Tests compare with a tolerance, for one BLAS and a few random matrices; neither the error for every input nor the orders of other BLAS implementations can be sampled.", "anchors": ["src/tensor/tensor_fold_d.cc:fold", "src/tensor/tensor_fold_z.cc:foldc", "src/tensor/tensor_foldin_d.cc:foldin", "src/tensor/gemm.cc:gemm", "src/sparse/mmult_sparse_tensor.h:mult_sp_t", "src/tensor/tensor_norm2_z.cc:scprod"]}
{"id": "C91", "title": "Sharing of memory between tensors cannot be observed", "statement": "Copies, assignments, Tensor(dims, t), reshape and slices let tensors share blocks of memory. A program that defines, copies, assigns, reshapes, reads, writes, fills, adds, multiplies, negates, slices, assigns to slices of and destroys tensors and indices sees every variable as if it had a value of its own: the elements it reads and the final dimensions and elements of all variables are those of the values, in particular t += t, t *= t (for every order in which the compiler asks for the iterators) and t.at(r) = t(s) use the elements from before the statement. A statement changes no tensor but the one it writes. When all variables are gone all memory is released.", "quantifier": "all histories of these statements on any number of variables, all element types and operations, all ranges of non-negative size, all sharing patterns, all orders of evaluation of the arguments of std::transform and of the two sides of an assignment; numbers in t op= number that are not elements of t", "why_tests_cant": "Whether two tensors share a block depends on the whole history of copies and writes, and no test sees the block; a missing copy shows only for the one history in which the second owner is read later.", "anchors": ["include/tensor/refcount.h:RefPointer", "include/tensor/detail/tensor_base.hpp:Tensor", "include/tensor/detail/tensor_ops.hpp:operator*=", "include/tensor/detail/tensor_slice.hpp:view", "src/tensor/tensor_view.hpp:operator()", "src/tensor/tensor_t_op_t.cc"]}
{"id": "C92", "title": "Random numbers are spread evenly and the outputs determine what follows", "statement": "Every 64-bit (32-bit) word is the output of the generator for exactly one word of its state. rand<unsigned long>(lower, upper) gives each of the upper - lower values for 2^64 / (upper - lower) of the 2^64 outputs, rounded down or up; rand<int>(lower, upper) does so for 2^32 times that share of 2^32; rand<double>() gives each of the 2^53 multiples of 2^-53 in [0, 1) for exactly 2^11 outputs (or pairs of outputs of the 32-bit generator). Two programs that used the generator in any way and then see the same 312 (624) consecutive outputs see the same outputs ever after.", "quantifier": "all bounds and values; all histories of seeding, reseeding and drawing; all numbers of later draws", "why_tests_cant": "The shares range over 2^64 outputs; a histogram of samples cannot tell one output more or less, nor exclude a value that never comes.", "anchors": ["include/tensor/rand.h:rand", "src/rand/rand64.cc:genrand_int64", "src/rand/rand32.cc:genrand_int32", "src/rand/rand64.cc:genrand_res53"]}
{"id": "C93", "title": "The Matlab reader of data sets collects what the jobs wrote", "statement": "sdf_load_dataset(directory) returns a struct with one field for each name under which the library wrote values into the files of the directory. The field holds all values of that name, one after the other in the order of the jobs, and nothing else. Names in the global SDF_AVOID are left out, and the call changes no later call. sdf_load_dataset(directory, field) returns that one field.", "quantifier": "all directories and ways to write them; all files and all sequences of records in them; all names to avoid", "why_tests_cant": "The result depends on the path, on the names of the files, and on every record of every file; a test has few of each.", "anchors": ["matlab/sdf_load_dataset.m:sdf_load_dataset", "matlab/sdf_load_dataset.m:sdf_load_one_file", "matlab/sdf_load_dataset.m:sdf_load_variable"]}
{"id": "C94", "title": "The functions on files do what their names say and lose no data", "statement": "file_exists tells whether there is a file, isdir whether there is a directory. delete_file returns true exactly when it has removed the file and make_directory when it has created the directory; otherwise they change nothing. rename_file moves the file and touches no other; without overwrite it never replaces a file, and when it fails no file is lost.", "quantifier": "all contents of the directory; all types and permissions of the files; all pairs of names, also equal ones", "why_tests_cant": "A test runs with files it has just created, which it may read and write; the failures need other permissions, types and pairs of names.", "anchors": ["src/sdf/file_exists.cc:file_exists", "src/sdf/delete_file.cc:delete_file", "src/sdf/rename_file.cc:rename_file", "src/sdf/isdir.cc:isdir", "src/sdf/make_directory.cc:make_directory"]}
{"id": "C95", "title": "The sorting routines of the bundled ARPACK sort, with the most wanted value last", "statement": "dsortr, dsesrt and zsortc end for every length. They rearrange the first n values together with their companions (a second array, or the columns of a matrix), touch nothing else, and leave the values in the order of the code: by increasing magnitude for LM, by decreasing magnitude for SM, by increasing value for LA and so on, so that the most wanted values are the last ones. Without the flag the companions are not touched; an unknown code changes nothing.", "quantifier": "all lengths; all arrays of doubles, including infinities, ties and NaNs; all codes; all leading dimensions of the matrix", "why_tests_cant": "Shell's method with its halved gaps goes through other exchanges for every length and every order of the values; a test sorts a few arrays.", "anchors": ["src/arpack-f2c/dsortr.f.c:dsortr_", "src/arpack-f2c/dsesrt.f.c:dsesrt_", "src/arpack-f2c/zsortc.f.c:zsortc_"]}
{"id": "C96", "title": "The bundled ARPACK selects the wanted eigenvalues that have converged", "statement": "At the end of an iteration of a real symmetric problem ARPACK puts the wanted Ritz values (largest or smallest, in value or in magnitude, or at both ends) after the others, each with its error estimate, uses as shifts only values that are not wanted, counts the wanted values that pass the convergence test and ends when they all do. The status is success only then. With eigenvectors the values given back are exactly the wanted values that passed the test, each with its vector and in increasing order, and the internal count never disagrees (no error -17). Without eigenvectors they are wanted values, as many as have passed the test, and those with the smallest error estimates relative to their magnitudes.", "quantifier": "all numbers of wanted and unwanted values; all values and estimates that are numbers, ties and infinities included; all tolerances; all codes; all numbers of iterations; all vectors", "why_tests_cant": "Which value ends where depends on ties, on estimates that vanish and on the order of the unsorted values; a test runs a few matrices whose values are all different.", "anchors": ["src/arpack-f2c/dsgets.f.c:dsgets_", "src/arpack-f2c/dsconv.f.c:dsconv_", "src/arpack-f2c/dsaup2.f.c:dsaup2_", "src/arpack-f2c/dseupd.f.c:dseupd_"]}
{"id": "C97", "title": "ARPACK accepts the parameters of the library and its work array is large enough", "statement": "For each number of eigenvalues that the library accepts, 0 < k < n, the four routines of ARPACK that it calls accept the parameters; so k = n - 1 eigenvalues can be asked for, as the error message says. All parts into which these routines divide the work array are inside of the array that the library allocates, those in use together do not overlap, and the second routine finds the values and error bounds that the first has left where the first put them.", "quantifier": "all sizes of matrices, numbers of eigenvalues, orders; all parameters of the routines; all sizes of the array; whatever the rest of ARPACK does", "why_tests_cant": "the number of vectors and the sizes depend on n and k in a way that has several regimes; an overlap of parts is seen only in wrong numbers", "anchors": ["src/arpack/arpack_t.cc:Arpack, get_data", "src/arpack-f2c/dsaupd.f.c:dsaupd_", "src/arpack-f2c/dseupd.f.c:dseupd_", "src/arpack-f2c/znaupd.f.c:znaupd_", "src/arpack-f2c/zneupd.f.c:zneupd_"]}
{"id": "C98", "title": "Any number of copies of a vector may be alive", "statement": "Copies of vectors and tensors behave as independent values and their memory is released once, after the last of them, however many copies there are.", "quantifier": "all programs of creations, copies, assignments, writes and destructions of vectors, with any number of vectors alive; machines where the addition of ints wraps and where it is undefined", "why_tests_cant": "the limit is beyond what a test allocates, and that nothing happens below it holds for all histories only by an invariant", "anchors": ["include/tensor/detail/refcount.hpp:pointer, RefPointer::reference, dereference, appropriate", "include/tensor/refcount.h:RefPointer::ref_count"]}
{"id": "C99", "title": "The error estimates of eigs on real matrices are true", "statement": "For real symmetric matrices, eigs works on a Lanczos factorization of the matrix: orthonormal vectors that the matrix maps to combinations of their neighbours, up to a remainder that is orthogonal to all of them. This holds from the first step on and after every implicit restart, whatever the shifts and the random vectors are. So the error estimate that decides whether an eigenvalue has converged is the exact residual of the vector that is returned, there is an eigenvalue of the matrix within it, and when the iteration stops early, it has found vectors whose span the matrix maps into itself. eigs does the same for matrices that are not symmetric.", "quantifier": "all sizes, matrices, starting vectors, random vectors, numbers of vectors, all histories of restarts with all shifts", "why_tests_cant": "the number of restarts has no bound and the shifts depend on the matrix; a test can compare eigenvalues of a few matrices only, and a wrong estimate shows as an early stop in rare cases", "anchors": ["src/arpack-f2c/dsaitr.f.c:dsaitr_", "src/arpack-f2c/dgetv0.f.c:dgetv0_", "src/arpack-f2c/dsapps.f.c:dsapps_", "src/arpack-f2c/dsaup2.f.c:dsaup2_", "src/arpack-f2c/dseigt.f.c:dseigt_", "include/tensor/linalg.h:eigs"]}
{"id": "C100", "title": "The error estimates of eigs on complex matrices are true", "statement": "For complex matrices, eigs works on an Arnoldi factorization of the matrix: orthonormal vectors, an upper Hessenberg matrix with elements below the diagonal that are real and not negative, and a remainder orthogonal to all the vectors. This holds from the first step on and after every implicit restart, whatever the shifts and the random vectors are. So the error estimate that decides whether an eigenvalue has converged is the exact residual of the vector that is returned, a matrix with orthogonal eigenvectors has an eigenvalue within it, the restart multiplies the first vector by the polynomial with the shifts as zeros, and when the iteration stops early, it has found vectors whose span the matrix maps into itself.", "quantifier": "all sizes, complex matrices, starting vectors, random vectors, numbers of vectors, all histories of restarts with all complex shifts", "why_tests_cant": "the number of restarts has no bound and the shifts depend on the matrix; an element below the diagonal that becomes imaginary in the middle of a restart is met by chance only, and the wrong result looks converged", "anchors": ["src/arpack-f2c/znaitr.f.c:znaitr_", "src/arpack-f2c/zgetv0.f.c:zgetv0_", "src/arpack-f2c/znapps.f.c:znapps_", "src/arpack-f2c/znaup2.f.c:znaup2_", "src/arpack-f2c/zneigh.f.c:zneigh_", "include/tensor/linalg.h:eigs"]}
{"id": "C101", "title": "The bundled ARPACK selects the wanted eigenvalues of complex problems", "statement": "At the end of an iteration of a complex problem ARPACK puts the wanted Ritz values (largest or smallest in magnitude, real part or imaginary part) after the others, each with its error estimate, uses as shifts only values that are not wanted, counts the wanted values that pass the convergence test and ends when they all do. The status is success exactly then. With eigenvectors the values given back are exactly the wanted values that passed the test, and the internal count never disagrees (no error -15). Without eigenvectors they are wanted values, as many as have passed the test, and those with the smallest error estimates relative to their magnitudes. A value with an error estimate equal to zero is never used as a shift.", "quantifier": "all numbers of wanted and unwanted values; all complex values and estimates that are numbers, ties and infinities included; all tolerances; all six codes; all numbers of iterations; any routine for the magnitude and any order in which LAPACK moves the selected values to the front", "why_tests_cant": "Which value ends where depends on ties (conjugate values have the same magnitude), on estimates that vanish and on the order of the unsorted values; a test runs a few matrices whose values are all different.", "anchors": ["src/arpack-f2c/zngets.f.c:zngets_", "src/arpack-f2c/znaup2.f.c:znaup2_", "src/arpack-f2c/zneupd.f.c:zneupd_", "src/arpack-f2c/zsortc.f.c:zsortc_"]}
{"id": "C102", "title": "Solvers release the operators they make and use them only while they exist", "statement": "cgs, eig_power and eigs can be called with a matrix, a sparse matrix or a function, for instance a function with fixed parameters made by with_args. Whatever the program has done before and however many times the solver applies the operator, every application uses the elements that the matrix has at the call, or those that the parameters had when with_args was called, no matter what the program has written into its own tensors since then. The solver never uses memory that has been given back. When it returns, everything it has made for the operator has been released, so that a program whose own tensors, functions and operators have ended holds no memory.", "quantifier": "all histories of calls on vectors, functions with parameters, operators and solvers; all numbers of applications and all ways in which a solver ends", "why_tests_cant": "a leak or a use after release is not seen in the results; which of the copies is the last one depends on the whole history", "anchors": ["include/tensor/map.h:MatrixMap", "include/tensor/map.h:FunctionMap", "include/tensor/map.h:with_args", "include/tensor/linalg.h:cgs", "include/tensor/linalg.h:eig_power", "include/tensor/linalg.h:eigs", "src/tools/map.cc:MatrixMap", "src/linalg/cgs.cc:solve", "src/linalg/eig_power.hpp:eig_power_loop", "src/arpack/eigs_map_d.cc:do_eigs", "src/arpack/eigs_map_z.cc:do_eigs", "src/arpack/eigs_sp_d.cc:eigs"]}
{"id": "C103", "title": "Sizes reach BLAS, LAPACK and ARPACK unchanged, or the call is refused", "statement": "Tensors are counted with 64 bits, and BLAS, LAPACK and ARPACK count with the integers that they were built with, of 32 bits for instance. Contractions and matrix products, solve, svd and the iterative eigs give the results that are documented for tensors of any size, or refuse the call: no size is cut on its way to the library, and no computation of a size overflows.", "quantifier": "all tensors, all indices of contraction, all numbers of right-hand sides, all sizes and numbers of eigenvalues of iterative problems; all widths of the integers", "why_tests_cant": "the sizes at which the conversion matters need tensors of many gigabytes, and nothing is reported when it goes wrong; tests on small tensors cannot tell a cut size from the true one", "anchors": ["include/tensor/tensor_blas.h:integer", "src/tensor/gemm.cc:gemm", "src/tensor/tensor_fold.cc:do_fold", "src/tensor/tensor_foldin.cc:do_foldin_into", "src/linalg/solve_d.cc:solve", "src/linalg/solve_z.cc:solve", "src/linalg/svd_d.cc:svd", "src/linalg/svd_z.cc:svd", "src/arpack/arpack_t.cc:Arpack"]}
{"id": "C104", "title": "sdf_sort_1d sorts all fields of a struct alike", "statement": "sdf_sort_1d.m, given the struct that sdf_load.m or sdf_load_dataset.m returns and the names of some fields with one number per entry, sorts the entries by the first of these numbers, then by the second, and so on; entries that agree in all of them stay in their order. The entries of every field, the slices along its last dimension, are put in this same order; names and dimensions do not change. Fields with another number of entries are left as they are, with a warning.", "quantifier": "all structs, all numbers, shapes and contents of fields, all lists of names to sort by", "why_tests_cant": "there are no tests of the Matlab files; shapes, numbers of fields and ties are unbounded", "anchors": ["matlab/sdf_sort_1d.m:sdf_sort_1d"]}
{"id": "C105", "title": "sdf_sort_2d arranges a scan over two parameters as matrices", "statement": "sdf_sort_2d.m, given a struct whose entries are the points of a grid of two parameters, each once and in any order, sorts the entries and replaces the last dimension of every field by two: the entry (i, j) of every field is that of the i-th value of the first parameter and the j-th value of the second. The size of the grid is found from the parameters if it is not given.", "quantifier": "all sizes and values of the grid, all orders of the entries, all structs; the size given or not", "why_tests_cant": "there are no tests of the Matlab files; grids, spacings and orders are unbounded", "anchors": ["matlab/sdf_sort_2d.m:sdf_sort_2d"]}
{"id": "C106", "title": "SDF files on AIX are those of other machines", "statement": "On AIX, where numbers are big endian in memory, OutDataFile reverses the bytes of every number, so that the file is byte by byte the one a little-endian machine writes; InDataFile reverses them again and gives back what was written. Files can therefore be exchanged between both kinds of machines and read by Matlab, and a file that ends early is noticed.", "quantifier": "all values of all types, names and lengths (beyond the buffer of 1024 bytes), all orders of loads, all contents of uninitialised memory", "why_tests_cant": "no test runs on a big-endian machine; lengths and contents are unbounded", "anchors": ["src/sdf/odata_file.cc:write_raw_with_endian", "src/sdf/idata_file.cc:read_raw_with_endian", "src/sdf/data_file.cc:endian"]}
{"id": "C107", "title": "toc gives the time since tic", "statement": "toc() returns the seconds that have passed since the last call of tic(), and toc(when) those since the call of tic() that returned when, whatever was called in between: to a microsecond in spite of rounding, never negative, positive if a microsecond has passed, and not less than an earlier toc().", "quantifier": "all sequences of calls of tic, toc() and toc(when), all moments of the clock at which they are made", "why_tests_cant": "the clock cannot be put in a test; moments and histories of calls are unbounded, and rounding depends on all bits of them", "anchors": ["src/tools/tictoc.cc:tic", "src/tools/tictoc.cc:toc", "include/tensor/tools.h:tic"]}

(* Products of tensors of doubles: fold, foldc, foldin, mmult (M_Fold) on top of a
   BLAS that rounds, scprod of complex tensors (M_Reduce) and the products with
   sparse matrices (M_Sparse). *)
From Coq Require Import Reals Permutation.
From Flocq Require Import BinarySingleNaN.
From Verif Require Import Base Spec M_Tensor M_Fold M_Reduce M_Sparse M_Double M_DoubleReduce S_DoubleReduce S_FoldDouble.

(* fused multiply-add, which BLAS kernels use; gemm.cc:30-79 *)
Definition dfma : double -> double -> double -> double := @Bfma 53 1024 prec53 prec53_1024 mode_NE.

(* What a BLAS may compute for the sum of the products of l, gemm.cc:30-79.
   TRUSTED: BLAS is external code.  It is modelled as any code that forms each
   product once and adds them up in double precision in any order and grouping,
   with separate or fused multiplications, starting from zeros or not, and
   subtracting where a sign says so.  Fast algorithms (Strassen, zgemm3m) and wider
   accumulators are not covered. *)
Inductive evaluates : terms -> double -> Prop :=
| ev_zero s : evaluates [] (B754_zero s)
| ev_mul x y : evaluates [(x, y)] (dmul x y)
| ev_add l m v w : evaluates l v -> evaluates m w -> evaluates (l ++ m) (dadd v w)
| ev_fma x y l v : evaluates l v -> evaluates ((x, y) :: l) (dfma x y v)
| ev_opp l v : evaluates l v -> evaluates (map (fun p => (dopp (fst p), snd p)) l) (dopp v)
| ev_perm l m v : Permutation l m -> evaluates l v -> evaluates m v.

(* A BLAS for A computes a scalar product, perhaps in a different way for each
   element of the result; gemm.cc:30-79 *)
Definition dot_fun (A : Type) : Type := nat -> list (A * A) -> A.
(* dgemm and zgemm; gemm.cc:30-79 *)
Definition real_blas (dot : dot_fun double) : Prop := forall q l, evaluates l (dot q l).
(* gemm.cc:46-79 *)
Definition complex_blas (dot : dot_fun complex) : Prop :=
  forall q l, evaluates (real_terms l) (fst (dot q l)) /\ evaluates (imag_terms l) (snd (dot q l)).

Section Any.
Context {A : Type} (N : numops A) (dot : dot_fun A).
(* gemm(op1, op2, m, n, k, 1, A, lda, B, ldb, 0, C, ldc), gemm.cc:30-79: as
   M_Fold.gemm, with the scalar products of this BLAS *)
Definition gemm_any : gemm_fun := fun op1 op2 m n k ra offA lda rb offB ldb offC ldc =>
  for_ n (fun j => for_ m (fun i c =>
    l <- for_ k (fun p l =>
           x <- ra c (offA + blas_pos op1 lda i p) ;;
           y <- rb c (offB + blas_pos op2 ldb p j) ;;
           Ok (l ++ [(blas_val N op1 x, blas_val N op2 y)])) [] ;;
    wr c (offC + (i + ldc * j)) (dot (offC + (i + ldc * j)) l))).
(* fold, tensor_fold_d.cc:39-45, tensor_fold_z.cc:39-45 *)
Definition fold_any := do_fold_with N gemm_any false false false.
(* foldc on complex tensors, tensor_fold_z.cc:62-68 *)
Definition foldc_any := do_fold_with N gemm_any true false false.
(* mmult, tensor_fold_d.cc:68-71 *)
Definition mmult_any jdims junk (m1 m2 : tensor A) := fold_any jdims junk m1 (-1)%Z m2 0%Z.
(* foldin, tensor_foldin_d.cc:34-40 *)
Definition foldin_any := do_foldin_into_with gemm_any false false.
End Any.

(* The operations of std::complex<double>.  The product is the formula; the C++
   compiler also turns some NaNs into infinities (C99 annex G), here [fix] is what
   it returns when both parts of the formula are NaN.  tensor_norm2_z.cc:29-36,
   mmult_sparse_tensor.h:47-57 *)
Definition cmul (fix_nan : complex -> complex -> complex) (x y : complex) : complex :=
  let re := dsub (dmul (fst x) (fst y)) (dmul (snd x) (snd y)) in
  let im := dadd (dmul (fst x) (snd y)) (dmul (snd x) (fst y)) in
  if is_nan re && is_nan im then fix_nan x y else (re, im).
(* numbers.h:44-58 *)
Definition Cnum (fix_nan : complex -> complex -> complex) : numops complex :=
  mkNum (dofZ 0, dofZ 0) (dofZ 1, dofZ 0) cadd (cmul fix_nan) cconj.
(* scprod(CTensor, CTensor), tensor_norm2_z.cc:29-36 *)
Definition scprod_complex fix_nan : tensor complex -> tensor complex -> outcome complex := scprod (Cnum fix_nan).
(* mmult(RSparse, RTensor), mmult_sparse_tensor.h:80-109 *)
Definition mmult_sparse_double := mmult_sp_t Dnum.

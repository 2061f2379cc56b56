(* Model of the integers of BLAS, LAPACK and ARPACK.  The library counts with
   64 bits (index, size_t), and hands sizes on as blas::integer,
   include/tensor/tensor_blas.h:86-123, which is an int in most configurations.
   Here it has [bits] bits, and the functions of M_Fold, M_Solve, M_Svd and
   M_Arpack are modelled again with the conversions. *)
From Verif Require Import Base Spec M_Tensor M_Fold M_Svd.
From Coq Require Import ZArith.
Local Open Scope nat_scope.

Section Integers.
Context (bits : nat).

(* the largest integer, tensor_blas.h:91 *)
Definition imax : Z := (2 ^ (Z.of_nat bits - 1) - 1)%Z.
(* the conversion from index or size_t: modulo 2^bits, as all compilers for two's
   complement do.  gemm.cc:30, solve_d.cc:40, svd_d.cc:62 *)
Definition to_integer (x : Z) : Z :=
  let r := (x mod 2 ^ Z.of_nat bits)%Z in if (r <=? imax)%Z then r else (r - 2 ^ Z.of_nat bits)%Z.
(* the result of +, - or * on integers: what does not fit is undefined,
   arpack_t.cc:81-82, 105-107 *)
Definition fit (x : Z) : outcome Z := if (- imax - 1 <=? x)%Z && (x <=? imax)%Z then Ok x else UB.

(* gemm, gemm.cc:30-79, around a BLAS [g]: the six sizes are converted.  BLAS
   looks at them first, and stops (xerbla) with a negative size or with a leading
   dimension that is less than the number of rows, or 0. *)
Definition gemm_int {A} (g : @gemm_fun A) : @gemm_fun A :=
  fun op1 op2 m n k ra offA lda rb offB ldb offC ldc c =>
  let i x := to_integer (Z.of_nat x) in
  _ <- assert_ ((0 <=? i m)%Z && (0 <=? i n)%Z && (0 <=? i k)%Z) ;;
  _ <- assert_ (Z.max 1 (match op1 with OpN => i m | _ => i k end) <=? i lda)%Z ;;
  _ <- assert_ (Z.max 1 (match op2 with OpN => i k | _ => i n end) <=? i ldb)%Z ;;
  _ <- assert_ (Z.max 1 (i m) <=? i ldc)%Z ;;
  g op1 op2 (Z.to_nat (i m)) (Z.to_nat (i n)) (Z.to_nat (i k)) ra offA (Z.to_nat (i lda)) rb offB (Z.to_nat (i ldb))
    offC (Z.to_nat (i ldc)) c.

(* fold, tensor_fold_d.cc:39-45; foldc, tensor_fold_z.cc:62-68; foldin,
   tensor_foldin_d.cc:34-40 *)
Definition fold_int {A} (N : numops A) (g : @gemm_fun A) (do_conj : bool) := do_fold_with N (gemm_int g) do_conj false false.
(* tensor_foldin_d.cc:34-40 *)
Definition foldin_int {A} (g : @gemm_fun A) := do_foldin_into_with (gemm_int g) false false.
(* mmult, tensor_fold_d.cc:68-71 *)
Definition mmult_int {A} (N : numops A) (g : @gemm_fun A) jdims junk (m1 m2 : tensor A) := fold_int N g false jdims junk m1 (-1)%Z m2 0%Z.

(* solve(A, B), solve_d.cc:38-91 and, if [cplx], solve_z.cc:32-83.  The tests of
   the sizes: (size_t)n != A.columns(), where a negative n is huge, and
   n != (blas::integer)A.columns().  A negative n in new blas::integer[n]
   throws; xGESV reports negative sizes in info. *)
Definition solve_int {A} (gesv : nat -> nat -> list A -> nat -> list A -> nat -> list A * Z) (cplx : bool) (a b : tensor A) : outcome (tensor A) :=
  rows <- dimension a 0 ;;
  let n := to_integer (Z.of_nat rows) in
  rowsb <- dimension b 0 ;;
  let ldb := to_integer (Z.of_nat rowsb) in
  columns <- dimension a 1 ;;
  _ <- assert_ (if cplx then (n =? to_integer (Z.of_nat columns))%Z else (n =? Z.of_nat columns)%Z) ;;
  _ <- assert_ (n =? ldb)%Z ;;
  if (ldb =? 0)%Z then UB else
  _ <- assert_ (0 <=? n)%Z ;;
  let nrhs := to_integer (Z.of_nat (length (data b)) / ldb)%Z in
  _ <- assert_ (0 <=? nrhs)%Z ;;
  let '(output, info) := gesv (Z.to_nat n) (Z.to_nat nrhs) (data a) (Z.to_nat n) (data b) (Z.to_nat ldb) in
  _ <- assert_ (info =? 0)%Z ;;
  Ok (mkT (dims b) output).

(* svd(A, U, VT, economic), svd_d.cc:49-105, svd_z.cc:44-103.  If m or n is
   negative so is k, and RTensor output(k) throws. *)
Definition svd_int {A R} gesvd (junk : nat -> A) (junkr : nat -> R) (t : tensor A) (wantU wantV economic : bool) :
  outcome (tensor R * option (tensor A) * option (tensor A)) :=
  rows <- dimension t 0 ;;
  _ <- assert_ (0 <? rows) ;;
  columns <- dimension t 1 ;;
  _ <- assert_ (0 <? columns) ;;
  _ <- assert_ (length (dims t) =? 2) ;;
  let m := to_integer (Z.of_nat rows) in let n := to_integer (Z.of_nat columns) in
  _ <- assert_ ((0 <=? m) && (0 <=? n))%Z ;;
  let m := Z.to_nat m in let n := Z.to_nat n in
  let k := Nat.min m n in
  let output := new_tensor junkr [k] in
  let foo := alloc junk 1 in
  let U := if wantU then Some (new_tensor junk [m; if economic then k else m]) else None in
  let VT := if wantV then Some (new_tensor junk [if economic then k else n; n]) else None in
  let j (want : bool) := if want then if economic then JobS else JobA else JobN in
  let ldu := if wantU then m else 1 in
  let ldv := if wantV then if economic then k else n else 1 in
  let buf o := match o with Some v => data v | None => foo end in
  '(info, s, u, v) <- call_gesvd gesvd (j wantU) (j wantV) m n (data t) m (data output) (buf U) ldu (buf VT) ldv ;;
  Ok (mkT (dims output) s, option_map (fun U => mkT (dims U) u) U, option_map (fun VT => mkT (dims VT) v) VT).

(* the constructor of the ARPACK object, arpack_t.cc:25-116, from the place where
   the sizes are set, arpack_t.cc:62-110: n, nev, ncv, lworkl, and the numbers
   of elements of resid, V, workd, workl, workv, rwork.  A negative number of
   elements in new[] throws.  [n0] and [nev0] are the size_t given by the user;
   maxit is in M_Arpack. *)
Record arpack_sizes := mkSizes { z_n : Z; z_nev : Z; z_ncv : Z; z_lworkl : Z;
  z_resid : Z; z_V : Z; z_workd : Z; z_workl : Z; z_workv : Z; z_rwork : Z }.
(* arpack_t.cc:75, 82, 107-110 *)
Definition new_array (x : Z) : outcome Z := _ <- assert_ (0 <=? x)%Z ;; Ok x.
(* arpack_t.cc:62-110 *)
Definition arpack_int (real_problem : bool) (n0 nev0 : Z) : outcome arpack_sizes :=
  let n := to_integer n0 in
  let nev := to_integer nev0 in
  n1 <- fit (n - 1)%Z ;;
  _ <- assert_ (negb ((nev =? 0) || (n1 <? nev))%Z) ;;
  resid <- new_array n ;;
  nev2 <- fit (2 * nev)%Z ;;
  let ncv := Z.min (Z.max nev2 20) n in
  nv <- fit (n * ncv)%Z ;;
  V <- new_array nv ;;
  lworkl <- (if real_problem then ncv8 <- fit (ncv + 8)%Z ;; fit (ncv * ncv8)%Z
             else c3 <- fit (3 * ncv)%Z ;; c35 <- fit (c3 + 5)%Z ;; fit (ncv * c35)%Z) ;;
  lworkv <- fit (ncv * 3)%Z ;;
  n3 <- fit (n * 3)%Z ;;
  workd <- new_array n3 ;;
  workl <- new_array lworkl ;;
  workv <- new_array lworkv ;;
  rwork <- new_array ncv ;;
  Ok (mkSizes n nev ncv lworkl resid V workd workl workv rwork).
End Integers.

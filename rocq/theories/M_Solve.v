(* Model of solve and solve_with_svd, src/linalg/solve_d.cc, solve_z.cc,
   solve_with_svd_d.cc, solve_with_svd_z.cc *)
From Verif Require Import Base Spec M_Tensor M_Arith M_Range M_Fold M_Scale M_BlockSvd.
Local Open Scope nat_scope.

Section Solve.
Context {A : Type}.
(* LAPACK: dgesv(n, nrhs, a, lda, b, ldb) gives the new contents of b, and info *)
Context (gesv : nat -> nat -> list A -> nat -> list A -> nat -> list A * Z).

(* solve(A, B), solve_d.cc:38-91, solve_z.cc:32-83.  The conversions to
   blas::integer are taken to be exact. *)
Definition solve (a b : tensor A) : outcome (tensor A) :=
  n <- dimension a 0 ;;
  let lda := n in
  ldb <- dimension b 0 ;;
  columns <- dimension a 1 ;;
  _ <- assert_ (n =? columns) ;;
  _ <- assert_ (n =? ldb) ;;
  if ldb =? 0 then UB (* division by zero, line 66 *) else
  let nrhs := length (data b) / ldb in
  let '(output, info) := gesv n nrhs (data a) lda (data b) ldb in
  _ <- assert_ (info =? 0)%Z ;;
  Ok (mkT (dims b) output).
End Solve.

Section SolveSvd.
(* A: elements; R: real numbers, embedded by [inj] *)
Context {A R : Type} (N : numops A) (inj : R -> A) (rone : R) (rdiv : R -> R -> R) (rzero eps : R) (le : R -> R -> bool).
Context (svd : tensor A -> bool -> outcome (tensor R * tensor A * tensor A)).
Context (jdims : nat -> nat) (junk : nat -> A) (junkr : nat -> R).

(* the loop of solve_with_svd_d.cc:44-50, from i; state: U, s, VT.  [rest] bounds
   the number of iterations: i < s.size() fails at the latest when i is the size
   that s had on entry, because s never grows. *)
Fixpoint discard (fuel rest i : nat) (tol : R) (st : tensor A * tensor R * tensor A) : outcome (tensor A * tensor R * tensor A) :=
  match rest with
  | 0 => Ok st
  | S rest =>
    let '(U, s, VT) := st in
    if i <? length (data s) then
      x <- rd (data s) i ;;
      if le x tol then
        let r := SStep 0 (Z.of_nat i - 1) 1 in
        U <- slice_t fuel junk U [SFull; r] ;;
        s <- slice_t fuel junkr s [r] ;;
        VT <- slice_t fuel junk VT [r; SFull] ;;
        discard fuel rest (S i) tol (U, s, VT)
      else discard fuel rest (S i) tol (U, s, VT)
    else Ok st
  end.

(* solve_with_svd(A, B, tol), solve_with_svd_d.cc:36-54, solve_with_svd_z.cc:36-54.
   SVD_ECONOMIC is true; scale_inplace converts the real 1.0/s to the type of
   the elements (tensor_scale_z.cc:68-71). *)
Definition solve_with_svd (fuel : nat) (a b : tensor A) (tol : R) : outcome (tensor A) :=
  '(s, U, VT) <- svd a true ;;
  let tol := if le tol rzero then eps else tol in
  '(U, s, VT) <- discard fuel (length (data s)) 0 tol (U, s, VT) ;;
  X <- foldc N jdims junk U 0 b 0 ;;
  v <- n_op_t rdiv junkr rone s ;;
  X <- scale_inplace N X 0 (to_complex inj v) ;;
  foldc N jdims junk VT 0 X 0.
End SolveSvd.

(* Model of the iterative solvers: cgs, src/linalg/cgs.cc; eig_power,
   src/linalg/eig_power.hpp; and of the maps they take, src/tools/map.cc *)
From Verif Require Import Base Spec M_Tensor M_Arith M_Fold M_Reduce S_Expm S_Sparse M_Sparse.
Local Open Scope nat_scope.

Section Cgs.
(* A: numbers; R: real numbers, of which sqrt, abs and < are used *)
Context {A R : Type} (N : numops A) (K : fieldops A).
Context (rabs : A -> R) (rsqrt : R -> R) (rmul : R -> R -> R) (lt : R -> R -> bool) (rzero : R).
Context (junk : nat -> A).

(* a map: Map<Tensor>::operator(), map.h:28-31 *)
Context (Amap : tensor A -> outcome (tensor A)).

(* the loop of cgs.cc:44-60, at most [left_] more times; [eps] is 1e-15 *)
Context (eps tol : R).
(* the loop of cgs.cc:44-60 *)
Fixpoint cgs_loop (left_ : nat) (x r p : tensor A) (rsold : A) : outcome (tensor A) :=
  match left_ with
  | 0 => Ok x
  | S left_ =>
    Ap <- Amap p ;;
    beta <- scprod N p Ap ;;
    if lt (rabs beta) (rmul eps (rabs rsold)) then Abort else
    pAp <- scprod N p Ap ;;
    let alpha := fdiv K rsold pAp in
    ap <- n_op_t (nmul N) junk alpha p ;;
    x <- op_assign_t (nadd N) x ap ;;
    aAp <- n_op_t (nmul N) junk alpha Ap ;;
    r <- op_assign_t (fsub K) r aAp ;;
    rsnew <- scprod N r r ;;
    if lt (rsqrt (rabs rsnew)) tol then Ok x else
    gp <- n_op_t (nmul N) junk (fdiv K rsnew rsold) p ;;
    p <- t_op_t (nadd N) junk r gp ;;
    cgs_loop left_ x r p rsnew
  end.
End Cgs.

Section Cgs2.
Context {A R : Type} (N : numops A) (K : fieldops A).
Context (rabs : A -> R) (rsqrt : R -> R) (rmul : R -> R -> R) (lt : R -> R -> bool) (rzero : R).
Context (junk : nat -> A) (Amap : tensor A -> outcome (tensor A)) (eps : R).
(* the default tolerance 1e-10 *)
Context (tol0 : R).

(* cgs, cgs.cc:27-64 (do_cgs, cgs_map_d.cc, cgs_map_z.cc).  [x_start] is the
   initial guess; when the caller gives none the code draws it at random around
   b, so that any value of [x_start] stands for that case too.  while
   (maxiter-- >= 0) runs maxiter + 1 times. *)
Definition cgs (b x_start : tensor A) (maxiter : Z) (tol : R) : outcome (tensor A) :=
  maxiter <- (if (maxiter =? 0)%Z then n <- dimension b 0 ;; Ok (Z.of_nat n) else Ok maxiter) ;;
  let tol := if lt rzero tol then tol else tol0 in
  let x := x_start in
  Ax <- Amap x ;;
  r <- t_op_t (fsub K) junk b Ax ;;
  rsold <- scprod N r r ;;
  if lt tol (rsqrt (rabs rsold)) then
    cgs_loop N K rabs rsqrt rmul lt junk Amap eps tol (Z.to_nat (maxiter + 1)) x r r rsold
  else Ok x.
End Cgs2.

(* MatrixMap<Tensor>::operator(), map.cc:32-35 *)
Definition matrix_map {A} (N : numops A) (jdims : nat -> nat) (junk : nat -> A) (m : tensor A) (transpose : bool) (arg : tensor A) : outcome (tensor A) :=
  if transpose then mmult N jdims junk arg m else mmult N jdims junk m arg.

Section Power.
Context {A R : Type} (N : numops A) (sub : A -> A -> A).
Context (rabs : A -> R) (rre : A -> R) (rsqrt : R -> R) (rmul : R -> R -> R) (lt : R -> R -> bool) (rzero : R).
(* division of a number by a real number *)
Context (divr : A -> R -> A).
Context (junk : nat -> A) (Amap : tensor A -> outcome (tensor A)).

(* norm2, tensor_norm2_d.cc:24-27, tensor_norm2_z.cc:24-27 *)
Definition norm2 (v : tensor A) : outcome R := s <- scprod N v v ;; Ok (rsqrt (rre s)).
(* v /= norm2(v); the divisor is a temporary. Used in eig_power.hpp:44, 57 *)
Definition normalize (v : tensor A) : outcome (tensor A) :=
  s <- norm2 v ;;
  d <- for_ (length (data v)) (fun i d => x <- rd d i ;; wr d i (divr x s)) (data v) ;;
  Ok (mkT (dims v) d).

Context (tol : R).
(* the loop of eig_power.hpp:53-65, from the i-th iteration on, at most [left_]
   more times; the result is (eig, *vector) *)
Fixpoint power_loop (left_ i : nat) (v : tensor A) (eig old_eig : A) : outcome (A * tensor A) :=
  match left_ with
  | 0 => Ok (eig, v)
  | S left_ =>
    v_new <- Amap v ;;
    eig <- scprod N v v_new ;;
    ev <- n_op_t (nmul N) junk eig v ;;
    diff <- t_op_t sub junk v_new ev ;;
    let err := norm0 lt rzero rabs diff in
    v <- normalize v_new ;;
    if lt err (rmul tol (rabs eig)) then Ok (eig, v) else
    if (0 <? i) && lt (rabs (sub eig old_eig)) (rmul tol (rabs eig)) then Ok (eig, v) else
    power_loop left_ (S i) v eig eig
  end.
End Power.

Section Power2.
Context {A R : Type} (N : numops A) (sub : A -> A -> A).
Context (rabs : A -> R) (rre : A -> R) (rsqrt : R -> R) (rmul : R -> R -> R) (lt : R -> R -> bool) (rzero : R).
Context (divr : A -> R -> A) (junk : nat -> A) (Amap : tensor A -> outcome (tensor A)).
(* the default tolerance, 1e-11; the uninitialised eig and old_eig *)
Context (tol0 : R) (jeig : A).

(* eig_power_loop, eig_power.hpp:31-71.  [rnd] is the random vector used when
   *vector does not have [dim] elements. *)
Definition eig_power (dim : nat) (vector rnd : tensor A) (iter : nat) (tol : R) : outcome (A * tensor A) :=
  let tol := if lt rzero tol then tol else tol0 in
  let v := if length (data vector) =? dim then vector else rnd in
  let iter := if iter =? 0 then Nat.max 20 (length (data v)) else iter in
  v <- normalize N rre rsqrt divr v ;;
  power_loop N sub rabs rre rsqrt rmul lt rzero divr junk Amap tol (S iter) 0 v jeig jeig.

End Power2.

(* eig_power_right and eig_power_left of a matrix, eig_power_d.cc:31-52,
   eig_power_z.cc:31-52 *)
Definition eig_power_matrix {A R} (N : numops A) (sub : A -> A -> A) (rabs rre : A -> R) (rsqrt : R -> R) (rmul : R -> R -> R)
  (lt : R -> R -> bool) (rzero : R) (divr : A -> R -> A) (jdims : nat -> nat) (junk : nat -> A) (tol0 : R) (jeig : A)
  (O : tensor A) (transpose : bool) (vector rnd : tensor A) (iter : nat) (tol : R) : outcome (A * tensor A) :=
  rows <- dimension O 0 ;;
  columns <- dimension O 1 ;;
  _ <- assert_ (rows =? columns) ;;
  eig_power N sub rabs rre rsqrt rmul lt rzero divr junk (matrix_map N jdims junk O transpose) tol0 jeig columns vector rnd iter tol.

(* MatrixMap<Sparse>::operator(), map.cc:32-35, instantiated in map_sp_d.cc:24,
   map_sp_z.cc:24; cgs of a sparse matrix, cgs_sp_d.cc:31-36, cgs_sp_z.cc:31-36, is
   cgs of this map *)
Definition sparse_map {A} (N : numops A) (jdims : nat -> nat) (junk : nat -> A) (m : sparse A) (transpose : bool) (arg : tensor A) : outcome (tensor A) :=
  if transpose then mmult_t_sp N jdims junk arg m else mmult_sp_t N jdims junk m arg.

(* eig_power_right and eig_power_left of a sparse matrix, eig_power_sp_d.cc:31-52,
   eig_power_sp_z.cc:31-52 *)
Definition eig_power_sparse {A R} (N : numops A) (sub : A -> A -> A) (rabs rre : A -> R) (rsqrt : R -> R) (rmul : R -> R -> R)
  (lt : R -> R -> bool) (rzero : R) (divr : A -> R -> A) (jdims : nat -> nat) (junk : nat -> A) (tol0 : R) (jeig : A)
  (O : sparse A) (transpose : bool) (vector rnd : tensor A) (iter : nat) (tol : R) : outcome (A * tensor A) :=
  _ <- assert_ (srows O =? scols O) ;;
  eig_power N sub rabs rre rsqrt rmul lt rzero divr junk (sparse_map N jdims junk O transpose) tol0 jeig (scols O) vector rnd iter tol.

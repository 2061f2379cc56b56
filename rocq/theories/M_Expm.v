(* Model of expm, src/linalg/expm_d.cc, src/linalg/expm_z.cc *)
From Verif Require Import Base Spec S_Expm M_Tensor M_Arith M_Fold M_Reduce.
Local Open Scope nat_scope.

(* A: element type; R: the type of the norm.  The real factor c and the number
   exp2(j) are elements of A here (in expm_z.cc they are doubles that multiply
   or divide complex numbers).  Exact arithmetic. *)
Section Expm.
Context {A R : Type} (N : numops A) (K : fieldops A).
Context (lt : R -> R -> bool) (rzero : R) (radd : R -> R -> R) (modulus : A -> R).
(* (int)floor(log2(x)): UB when the result is not an int, as for x = 0 *)
Context (floor_log2 : R -> outcome Z).
(* linalg::solve *)
Context (solve : tensor A -> tensor A -> outcome (tensor A)).
Context (jdims : nat -> nat) (junk : nat -> A) (jaux : nat -> R).

(* one step of the loop, expm_d.cc:64-74; k = i + 2; state: c, X, N, D *)
Definition pade_step (A0 : tensor A) (order i : nat) (st : A * tensor A * tensor A * tensor A)
  : outcome (A * tensor A * tensor A * tensor A) :=
  let '(c, X, Nm, D) := st in
  let k := i + 2 in
  let c := fdiv K (nmul N c (fnat K (order - k + 1))) (fnat K (k * (2 * order - k + 1))) in
  X <- mmult N jdims junk A0 X ;;
  cX <- n_op_t (nmul N) junk c X ;;
  Nm <- t_op_t (nadd N) junk Nm cX ;;
  D <- (if Nat.even k then t_op_t (nadd N) junk D cX else t_op_t (fsub K) junk D cX) ;;
  Ok (c, X, Nm, D).

(* the numerator and the denominator, expm_d.cc:58-74; A0 is the scaled matrix.
   The unsigned int product 2*order is assumed not to wrap (order < 2^31). *)
Definition pade_parts (A0 : tensor A) (order : nat) : outcome (tensor A * tensor A) :=
  n <- dimension A0 0 ;;
  let c := fdiv K (none_ N) (fnat K 2) in
  I1 <- eye N junk n n ;;
  cA <- n_op_t (nmul N) junk c A0 ;;
  Nm <- t_op_t (nadd N) junk I1 cA ;;
  I2 <- eye N junk n n ;;
  cA2 <- n_op_t (nmul N) junk c A0 ;;
  D <- t_op_t (fsub K) junk I2 cA2 ;;
  '(_, _, Nm, D) <- for_ (order - 1) (pade_step A0 order) (c, A0, Nm, D) ;;
  Ok (Nm, D).

(* expm_d.cc:46-80 *)
Definition expm (Aunorm : tensor A) (order : nat) : outcome (tensor A) :=
  _ <- assert_ (length (dims Aunorm) =? 2) ;;
  cols <- dimension Aunorm 1 ;;
  rows <- dimension Aunorm 0 ;;
  _ <- assert_ (cols =? rows) ;;
  nrm <- matrix_norminf lt rzero radd modulus jaux Aunorm ;;
  e <- floor_log2 nrm ;;
  let j := Z.to_nat (Z.max 0 (e + 1)) in
  A0 <- t_op_n (fdiv K) junk Aunorm (fnat K (2 ^ j)) ;;
  '(Nm, D) <- pade_parts A0 order ;;
  X <- solve D Nm ;;
  for_ j (fun _ X => mmult N jdims junk X X) X.
End Expm.

(* the exact value of (int)floor(log2(x)) for a rational number: UB unless x > 0 *)
From Coq Require Import QArith Qcanon.
(* Computed in expm_d.cc:53-54 *)
Definition floor_log2_Qc (x : Qc) : outcome Z :=
  if (Qnum x <=? 0)%Z then UB else
  let e := (Z.log2 (Qnum x) - Z.log2 (Zpos (Qden x)))%Z in
  Ok (if Qle_bool ((2 # 1) ^ e)%Q x then e else (e - 1)%Z).
(* the order and the modulus of the rational numbers, for matrix_norminf. Called in expm_d.cc:53 *)
Definition Qc_ltb (x y : Qc) : bool := negb (Qle_bool y x).
(* the modulus, for expm_d.cc:53 *)
Definition Qc_abs (x : Qc) : Qc := if Qle_bool 0 x then x else Qcopp x.

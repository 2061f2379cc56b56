(* Vocabulary of the properties of linear systems of equations. *)
From Verif Require Import Base Spec S_Fold.

Section Systems.
Context {A : Type} (N : numops A).

(* the matrix a applied to the vector x, which has n entries *)
Definition mulv (a : tensor A) (n : nat) (x : nat -> A) (i : nat) : A :=
  sum_n N n (fun k => nmul N (val N a [i; k]) (x k)).
(* its adjoint applied to the vector x, which has m entries *)
Definition mulv_adj (a : tensor A) (m : nat) (x : nat -> A) (j : nat) : A :=
  sum_n N m (fun i => nmul N (nconj N (val N a [i; j])) (x i)).
(* the right-hand side, or solution, at the position w of the other dimensions *)
Definition at_rest (b : tensor A) (w : list nat) (k : nat) : A := val N b (k :: w).

(* a, n by n, annihilates a vector that is not zero *)
Definition singular (a : tensor A) (n : nat) : Prop :=
  exists x, (exists k, k < n /\ x k <> nzero N) /\ forall i, i < n -> mulv a n x i = nzero N.

(* What LAPACK documents for xGESV with the n by n matrix in a and the nrhs
   right-hand sides in b, one after another: it solves the equations and sets
   info to 0, or finds the matrix singular and sets it to something else. *)
Definition gesv_good (gesv : nat -> nat -> list A -> nat -> list A -> nat -> list A * Z) (n nrhs : nat) (a b : list A) : Prop :=
  let '(x, info) := gesv n nrhs a n b n in
  length x = length b /\
  (info = 0%Z -> forall i j, i < n -> j < nrhs ->
     sum_n N n (fun k => nmul N (nth (i + n * k) a (nzero N)) (nth (k + n * j) x (nzero N))) = nth (i + n * j) b (nzero N)) /\
  (info <> 0%Z -> exists v, (exists k, k < n /\ v k <> nzero N) /\
     forall i, i < n -> sum_n N n (fun k => nmul N (nth (i + n * k) a (nzero N)) (v k)) = nzero N).
End Systems.

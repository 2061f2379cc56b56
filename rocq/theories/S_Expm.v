(* Vocabulary for the matrix exponential: a field of characteristic zero,
   matrices as functions, their powers, and the Pade polynomial of exp. *)
From Coq Require Import QArith Qcanon Factorial.
From Verif Require Import Base Spec.
Local Open Scope nat_scope.

(* subtraction, division and the natural numbers of a field *)
Record fieldops (A : Type) := mkField { fsub : A -> A -> A; fdiv : A -> A -> A; fnat : nat -> A }.
Arguments mkField {A}. Arguments fsub {A}. Arguments fdiv {A}. Arguments fnat {A}.
Record fieldlaws {A} (N : numops A) (K : fieldops A) : Prop := {
  f_num : numlaws N;
  f_sub : forall x y, nadd N (fsub K x y) y = x;
  f_div : forall x y, y <> nzero N -> nmul N (fdiv K x y) y = x;
  f_nat_0 : fnat K 0 = nzero N;
  f_nat_S : forall n, fnat K (S n) = nadd N (fnat K n) (none_ N);
  f_char : forall n, fnat K (S n) <> nzero N
}.

(* the rational numbers *)
Definition Qcnum : numops Qc := mkNum (Q2Qc 0) (Q2Qc 1) Qcplus Qcmult (fun x => x).
Definition Qcfield : fieldops Qc := mkField Qcminus Qcdiv (fun n => Q2Qc (inject_Z (Z.of_nat n))).

Section Matrices.
Context {A : Type} (N : numops A) (K : fieldops A) (n : nat).
Definition matrix := nat -> nat -> A.
Definition mid : matrix := fun i j => if i =? j then none_ N else nzero N.
Definition mmul (P Q : matrix) : matrix := fun i j => sum_n N n (fun x => nmul N (P i x) (Q x j)).
Fixpoint mpow (P : matrix) (k : nat) : matrix := match k with 0 => mid | S k => mmul P (mpow P k) end.

(* the [q/q] Pade approximant of exp is N_q(x)/N_q(-x) with
   N_q(x) = sum over k <= q of  q! (2q-k)! / ((2q)! k! (q-k)!) x^k *)
Definition pade_coef (q k : nat) : A :=
  fdiv K (fnat K (fact q * fact (2 * q - k))) (fnat K (fact (2 * q) * fact k * fact (q - k))).
Definition pade (q : nat) (P : matrix) : matrix :=
  fun i j => sum_n N (S q) (fun k => nmul N (pade_coef q k) (mpow P k i j)).
Definition mneg (P : matrix) : matrix := fun i j => fsub K (nzero N) (P i j).
End Matrices.

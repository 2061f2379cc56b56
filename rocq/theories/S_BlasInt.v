(* Vocabulary for C103: sizes that an integer of BLAS and LAPACK holds. *)
From Coq Require Import ZArith List.
Local Open Scope Z_scope.

(* x is at most the largest integer with this number of bits *)
Definition holds (bits : nat) (x : Z) : Prop := x <= 2 ^ (Z.of_nat bits - 1) - 1.

(* what a run of ARPACK for k eigenvalues of n needs: 2 k, at least 20 and at most
   n basis vectors of length n, three vectors to work with, and an array whose
   size is quadratic in the number of basis vectors *)
Definition basis (n k : Z) : Z := Z.min (Z.max (2 * k) 20) n.
Definition work (real_problem : bool) (c : Z) : Z := if real_problem then c * c + 8 * c else 3 * (c * c) + 5 * c.
Definition arpack_holds (bits : nat) (real_problem : bool) (n k : Z) : Prop :=
  holds bits (2 * k) /\ holds bits (n * basis n k) /\ holds bits (work real_problem (basis n k)) /\ holds bits (3 * n).

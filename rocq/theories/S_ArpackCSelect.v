(* Vocabulary of the properties of the selection of complex eigenvalues *)
From Coq Require Import String List Reals Permutation.
From Verif Require Import Base M_Double S_Double M_DoubleReduce S_DoubleReduce S_ArpackSort S_ArpackSelect.
Import ListNotations.
Local Open Scope R_scope.

(* the parts of z are numbers and so is its magnitude, as lapy2 computes it *)
Definition cnumbers (lapy2 : double -> double -> double) (z : double * double) : Prop :=
  is_number (fst z) /\ is_number (snd z) /\ is_number (lapy2 (fst z) (snd z)).

(* the value at place i has converged: the magnitude of its estimate passes the
   test with the magnitude of the value *)
Definition cconverged (lapy2 : double -> double -> double) (tol eps23 : double) (ritz bounds : list (double * double)) (i : nat) : Prop :=
  exists x b, nth_error ritz i = Some x /\ nth_error bounds i = Some b /\
    passes tol eps23 (lapy2 (fst x) (snd x)) (lapy2 (fst b) (snd b)).

(* the magnitude of the relative estimate of the error of x *)
Definition crelative (lapy2 : double -> double -> double) (eps23 : double) (x b : double * double) : double * double :=
  (relative eps23 (lapy2 (fst x) (snd x)) (fst b), relative eps23 (lapy2 (fst x) (snd x)) (snd b)).

(* the magnitude is zero for zero only, and is never less *)
Definition faithful (lapy2 : double -> double -> double) (z : double * double) : Prop :=
  0 <= spot (lapy2 (fst z) (snd z)) /\ (spot (lapy2 (fst z) (snd z)) = 0 <-> spot (fst z) = 0 /\ spot (snd z) = 0).

(* A routine that reorders, given which places are selected: it counts them, and
   the first values that it gives are those of the selected places, each once. *)
Definition reorders {A} (trsen : list bool -> list A -> list A * Z * Z) : Prop :=
  forall select l, length select = length l ->
    exists V l', Permutation V (filter (fun i => nth i select false) (seq 0 (length l))) /\
      trsen select l = (l', Z.of_nat (length V), 0%Z) /\ length l' = length l /\ picks V l (firstn (length V) l').

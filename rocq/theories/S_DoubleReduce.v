(* Vocabulary for reductions of doubles: exact sums of real numbers. *)
From Coq Require Import Reals.
From Flocq Require Import BinarySingleNaN.
From Verif Require Import Base Spec M_Double S_Double.
Local Open Scope R_scope.

(* x1 + ... + xn, |x1| + ... + |xn|, x1 y1 + ... + xn yn, |x1 y1| + ... *)
Definition Rsum (l : list R) : R := fold_right Rplus 0 l.
Definition exact_sum (l : list double) : R := Rsum (map value l).
Definition exact_abs_sum (l : list double) : R := Rsum (map (fun x => Rabs (value x)) l).
Definition exact_dot (a b : list double) : R := Rsum (map (fun p => value (fst p) * value (snd p)) (combine a b)).
Definition exact_abs_dot (a b : list double) : R := Rsum (map (fun p => Rabs (value (fst p) * value (snd p))) (combine a b)).
(* the accumulated relative error of k roundings *)
Definition growth (k : nat) : R := (1 + uro) ^ k - 1.

Definition not_a_number (x : double) : Prop := is_nan x = true.
Definition is_number (x : double) : Prop := is_nan x = false.

(* the row i of a matrix with c columns, and the greatest of the sums of the
   moduli of the rows *)
Definition row_of (a : tensor double) (c i : nat) : list double := map (fun j => nth (i + nth 0 (dims a) 0%nat * j) (data a) B754_nan) (seq 0 c).
Definition exact_norminf (a : tensor double) (r c : nat) : R := fold_right Rmax 0 (map (fun i => exact_abs_sum (row_of a c i)) (seq 0 r)).

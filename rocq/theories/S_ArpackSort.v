(* Vocabulary of the properties of the sorting routines of ARPACK: what the codes
   of the orders mean *)
From Coq Require Import String List Reals Permutation.
From Flocq Require Import BinarySingleNaN Core.
From Verif Require Import Base M_Double S_Double S_DoubleReduce.
Import ListNotations.
Local Open Scope R_scope.

(* the place of a double on the line, with the infinities at its ends; a NaN has
   none *)
Definition spot (x : double) : R :=
  match x with B754_infinity false => bpow radix2 1024 | B754_infinity true => - bpow radix2 1024 | _ => value x end.

(* The quantity that is largest for the values asked for with a code: the
   magnitude (LM), its opposite (SM), the value (LA) and its opposite (SA). *)
Definition wish (w : string) (x : double) : R :=
  if String.eqb w "LM" then Rabs (spot x)
  else if String.eqb w "SM" then - Rabs (spot x)
  else if String.eqb w "LA" then spot x
  else - spot x.
Definition known_code (w : string) : Prop := In w ["LM"; "SM"; "LA"; "SA"]%string.

(* The same for complex numbers, where the magnitude is the one that LAPACK's
   dlapy2 computes and "LR", "SR", "LI", "SI" are for the real and the imaginary
   part. *)
Definition cwish (lapy2 : double -> double -> double) (w : string) (x : double * double) : R :=
  if String.eqb w "LM" then spot (lapy2 (fst x) (snd x))
  else if String.eqb w "SM" then - spot (lapy2 (fst x) (snd x))
  else if String.eqb w "LR" then spot (fst x)
  else if String.eqb w "SR" then - spot (fst x)
  else if String.eqb w "LI" then spot (snd x)
  else - spot (snd x).
Definition known_ccode (w : string) : Prop := In w ["LM"; "SM"; "LR"; "SR"; "LI"; "SI"]%string.

(* the first n elements are such that f does not decrease *)
Definition increasing {A} (f : A -> R) (n : nat) (l : list A) : Prop :=
  forall i j x y, (i <= j < n)%nat -> nth_error l i = Some x -> nth_error l j = Some y -> f x <= f y.

(* (y1, y2) is (x1, x2) with the first n elements rearranged, the same way in
   both, and the others as they were *)
Definition rearranged {A B} (n : nat) (x1 : list A) (x2 : list B) (y1 : list A) (y2 : list B) : Prop :=
  Permutation (combine (firstn n x1) (firstn n x2)) (combine (firstn n y1) (firstn n y2)) /\
  length y1 = length x1 /\ length y2 = length x2 /\ skipn n y1 = skipn n x1 /\ skipn n y2 = skipn n x2.

(* the element of column j and row i of a matrix stored by columns, lda apart *)
Definition column {A} (lda na : nat) (a : list A) (j : nat) : list A := firstn na (skipn (j * lda) a).

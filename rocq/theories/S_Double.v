(* Vocabulary for doubles: the real number a finite double stands for, and the
   unit roundoff. *)
From Coq Require Import Reals.
From Flocq Require Import Core BinarySingleNaN.
From Verif Require Import Base M_Double.

Definition value (x : double) : R := B2R x.
Definition finite (x : double) : Prop := is_finite x = true.
(* half the distance from 1 to the next double, and half the least positive double *)
Definition uro : R := bpow radix2 (-53).
Definition tiny : R := bpow radix2 (-1075).

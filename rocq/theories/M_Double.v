(* IEEE 754 double arithmetic, as C++ performs it on the elements of RTensor when
   double is binary64, rounding is to nearest even and nothing is kept in a wider
   format or contracted (the default of every x86-64 and of IEC 60559).  The
   definitions are those of Flocq (BinarySingleNaN): NaNs have no sign or payload.
   Every rounding, overflow, infinity and signed zero is there. *)
From Coq Require Import Reals.
From Flocq Require Import Core BinarySingleNaN.
From Verif Require Import Base Spec M_Linspace.

(* the element type of RTensor, tensor.h:366 *)
Definition double := binary_float 53 1024.
Lemma prec53 : FLX.Prec_gt_0 53. Proof. reflexivity. Qed.
Lemma prec53_1024 : Prec_lt_emax 53 1024. Proof. reflexivity. Qed.
(* the operators +, -, *, / of doubles, as in linspace.hpp:36-40, rand32.cc:175 *)
Definition dadd : double -> double -> double := @Bplus 53 1024 prec53 prec53_1024 mode_NE.
(* linspace.hpp:37 *)
Definition dsub : double -> double -> double := @Bminus 53 1024 prec53 prec53_1024 mode_NE.
(* linspace.hpp:39 *)
Definition dmul : double -> double -> double := @Bmult 53 1024 prec53 prec53_1024 mode_NE.
(* linspace.hpp:37 *)
Definition ddiv : double -> double -> double := @Bdiv 53 1024 prec53 prec53_1024 mode_NE.
(* tensor_norm2_d.cc:24-27 *)
Definition dsqrt : double -> double := @Bsqrt 53 1024 prec53 prec53_1024 mode_NE.
(* the operator <, as in tensor_max_d.cc:24-28 *)
Definition dlt : double -> double -> bool := @Bltb 53 1024.
(* m 2^e as a double: conversion of integers, e = 0, and literals, rand64.cc:173 *)
Definition dmake (m e : Z) : double := @binary_normalize 53 1024 prec53 prec53_1024 mode_NE m e false.
(* linspace.hpp:37-39 *)
Definition dofZ (z : Z) : double := dmake z 0.

(* the operations of linspace, linspace.hpp:36-40: n - 1.0 is n converted to double
   minus one *)
Definition Dlin : linops double := mkLin dsub ddiv dmul dadd (fun n => dsub (dofZ (Z.of_nat n)) (dofZ 1)) (fun i => dofZ (Z.of_nat i)).
(* linspace(double, double, n), linspace_d.cc:26-32 *)
Definition linspace_double : nat -> (nat -> double) -> double -> double -> nat -> outcome (tensor double) := linspace_number_with Dlin.

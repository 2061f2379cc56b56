(* Model of CSparse::random.  include/tensor/detail/sparse_base.hpp.
   std::abs of a complex number (numbers.h:29), the hypot of the C library, is an
   argument. *)
From Coq Require Import Reals.
From Flocq Require Import BinarySingleNaN.
From Verif Require Import Base Spec S_Reduce S_Sparse M_Tensor M_Sparse M_Rand M_Double M_DoubleReduce M_RandDouble M_RandTensor.

(* *it == number_zero<cdouble>(), sparse_base.hpp:162-172, 186-195: both parts *)
Definition czero (z : double * double) : bool := dzero (fst z) && dzero (snd z).
(* one element, sparse_base.hpp:264-267; complex /= double divides both parts *)
Definition cthin (habs : double * double -> double) (density : double) (z : double * double) : double * double :=
  if dlt density (habs z) then (dofZ 0, dofZ 0) else (ddiv (fst z) density, ddiv (snd z) density).
(* CSparse::random, sparse_base.hpp:254-270 *)
Definition csparse_random (habs : double * double -> double) (draw : nat -> mt_state -> outcome ((double * double) * mt_state))
    (junk : nat -> double * double) jrs jcol jdata (rows columns : nat) (density : double) (st : mt_state)
    : outcome (sparse (double * double) * mt_state) :=
  '(output, st) <- randomize draw (new_tensor junk [rows * columns]) st ;;
  d <- for_ (length (data output)) (fun k d => x <- rd d k ;; wr d k (cthin habs density x)) (data output) ;;
  t <- reshape (mkT (dims output) d) [rows; columns] ;;
  s <- of_dense czero jrs jcol jdata t ;;
  Ok (s, st).

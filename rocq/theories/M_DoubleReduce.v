(* Reductions of RTensor (M_Reduce, M_Cgs) in IEEE arithmetic. *)
From Coq Require Import Reals.
From Flocq Require Import BinarySingleNaN.
From Verif Require Import Base Spec S_Reduce M_Tensor M_Reduce M_Double.

(* the operations on double; conj(double) is the identity, numbers.h:44 *)
Definition Dnum : numops double := mkNum (dofZ 0) (dofZ 1) dadd dmul (fun x => x).
(* abs(double), numbers.h:29 *)
Definition dabs : double -> double := @Babs 53 1024.
(* sum, tensor_sum_d.cc:24-27 *)
Definition sum_double : tensor double -> double := sum Dnum.
(* mean, tensor_mean_d.cc:23-26; r.size() is converted to double *)
Definition mean_double : tensor double -> double := mean Dnum ddiv (fun n => dofZ (Z.of_nat n)).
(* scprod, tensor_norm2_d.cc:29-36 *)
Definition scprod_double : tensor double -> tensor double -> outcome double := scprod Dnum.
(* norm2, tensor_norm2_d.cc:24-27; sqrt is correctly rounded *)
Definition norm2_double (t : tensor double) : outcome double := s <- scprod_double t t ;; Ok (dsqrt s).
(* max, min, norm0: tensor_max_d.cc:24-28, tensor_min_d.cc:24-28, tensor_norm0_d.cc:24-31 *)
Definition max_double : tensor double -> outcome double := max dlt.
(* tensor_min_d.cc:24-28 *)
Definition min_double : tensor double -> outcome double := min dlt.
(* tensor_norm0_d.cc:24-31 *)
Definition norm0_double : tensor double -> double := norm0 dlt (dofZ 0) dabs.
(* matrix_norminf, matrix_norminf_d.cc:23-53 *)
Definition matrix_norminf_double : (nat -> double) -> tensor double -> outcome double := matrix_norminf dlt (dofZ 0) dadd dabs.
(* sort(RTensor), tensor_sort_d.cc:26-36 *)
Definition sort_double : ((double -> double -> bool) -> list double -> list double) -> tensor double -> bool -> tensor double := sort dlt.
(* operator+ of std::complex adds the parts. Used in tensor_sum_z.cc:24-27 *)
Definition cadd (x y : double * double) : double * double := (dadd (fst x) (fst y), dadd (snd x) (snd y)).
(* sum(CTensor), tensor_sum_z.cc:24-27; to_complex(0) is 0 + 0i, numbers.h:56-58 *)
Definition sum_complex (t : tensor (double * double)) : double * double := fold_left cadd (data t) (dofZ 0, dofZ 0).

(* Model of the conversions between real and complex tensors and of Indices to
   tensors: src/tensor/tensor_real_z.cc, tensor_imag_d.cc, tensor_imag_z.cc,
   tensor_conj.cc, tensor_to_complex.cc, tensor_round_d.cc, src/indices/to_tensor.cc *)
From Verif Require Import Base Spec M_Tensor M_Arith.
Local Open Scope nat_scope.

Section Complex.
(* R: doubles; A: cdoubles, with std::real, std::imag and the constructor from two
   doubles *)
Context {A R : Type} (re im : A -> R) (mk : R -> R -> A) (zero : R).

(* real(CTensor), tensor_real_z.cc:25-35; imag(CTensor), tensor_imag_z.cc:25-35;
   conj(CTensor), tensor_conj.cc:26-37; round(RTensor), tensor_round_d.cc:48-53:
   two iterators advance together until that of the argument ends, as in unop *)
Definition real_t (junk : nat -> R) (t : tensor A) : outcome (tensor R) := unop re junk t.
(* tensor_imag_z.cc:25-35 *)
Definition imag_t (junk : nat -> R) (t : tensor A) : outcome (tensor R) := unop im junk t.
(* tensor_conj.cc:26-37 *)
Definition conj_t (conj : A -> A) (junk : nat -> A) (t : tensor A) : outcome (tensor A) := unop conj junk t.
(* tensor_round_d.cc:48-53 *)
Definition round_t (round : R -> R) (junk : nat -> R) (t : tensor R) : outcome (tensor R) := unop round junk t.

(* imag(RTensor), tensor_imag_d.cc:25-31; real(RTensor), tensor.h:502, and
   conj(RTensor), tensor.h:512, return their argument *)
Definition imag_real (junk : nat -> R) (t : tensor R) : outcome (tensor R) :=
  fill_with (new_tensor junk (dims t)) zero.

(* to_complex(RTensor), tensor_to_complex.cc:25-33: the loop ends with the output *)
Definition to_complex1 (junk : nat -> A) (r : tensor R) : outcome (tensor A) :=
  let output := new_tensor junk (dims r) in
  d <- for_ (length (data output)) (fun k d =>
     x <- rd (data r) k ;; wr d k (mk x zero)) (data output) ;;
  Ok (mkT (dims r) d).

(* to_complex(RTensor, RTensor), tensor_to_complex.cc:35-44: nothing is checked *)
Definition to_complex2 (junk : nat -> A) (r i : tensor R) : outcome (tensor A) :=
  let output := new_tensor junk (dims r) in
  d <- for_ (length (data output)) (fun k d =>
     x <- rd (data r) k ;; y <- rd (data i) k ;; wr d k (mk x y)) (data output) ;;
  Ok (mkT (dims r) d).
End Complex.

(* index_to_tensor(Indices), to_tensor.cc:25-30; [conv] converts an index to a double *)
Definition index_to_tensor {I R} (conv : I -> R) (junk : nat -> R) (ndx : list I) : outcome (tensor R) :=
  let output := new_tensor junk [length ndx] in
  d <- for_ (length ndx) (fun k d => x <- rd ndx k ;; wr d k (conv x)) (data output) ;;
  Ok (mkT [length ndx] d).

(* Specification vocabulary for C14, C15. *)
From Verif Require Import Base.

(* l' is l with the entries at positions n1 and n2 exchanged *)
Definition swapped {A} (n1 n2 : nat) (l l' : list A) : Prop :=
  forall k, nth_error l' k = nth_error l (if k =? n1 then n2 else if k =? n2 then n1 else k).

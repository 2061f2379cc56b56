(* Vocabulary of the contraction properties. *)
From Verif Require Import Base Spec.

(* the number stored at coordinates ix (zero outside, a case the theorems never
   use) *)
Definition val {A} (N : numops A) (t : tensor A) (ix : list nat) : A :=
  match elt t ix with Some v => v | None => nzero N end.

(* A result without any index left is stored as a vector with one element. *)
Definition scalar_dims (ds : list nat) : list nat := match ds with [] => [1] | _ => ds end.
Definition scalar_ix (ix : list nat) : list nat := match ix with [] => [0] | _ => ix end.

(* Vocabulary for fftshift. *)
From Verif Require Import Base Spec.

(* where position x of a dimension of extent d goes: the zero frequency, stored
   first, moves to the middle *)
Definition shifted (d x : nat) : nat := (x + d / 2) mod d.

(* the same for every dimension, or for those marked *)
Fixpoint shifted_all (ds ix : list nat) : list nat :=
  match ds, ix with d :: ds, x :: ix => shifted d x :: shifted_all ds ix | _, _ => [] end.
Fixpoint shifted_some (convert : list bool) (ds ix : list nat) : list nat :=
  match convert, ds, ix with
  | c :: convert, d :: ds, x :: ix => (if c : bool then shifted d x else x) :: shifted_some convert ds ix
  | _, _, _ => []
  end.

(* Vocabulary for reductions and sorting. *)
From Verif Require Import Base Spec S_Fold.
From Coq Require Export Permutation.

(* a strict total order, given as a boolean function: the order of the real
   numbers, or of the doubles that are not NaN *)
Record strict_total {R} (lt : R -> R -> bool) : Prop := {
  st_irrefl : forall x, lt x x = false;
  st_trans : forall x y z, lt x y = true -> lt y z = true -> lt x z = true;
  st_total : forall x y, lt x y = false -> lt y x = false -> x = y }.

(* no element comes before a smaller one *)
Definition ordered {R} (lt : R -> R -> bool) (l : list R) : Prop :=
  forall i j x y, i < j -> nth_error l i = Some x -> nth_error l j = Some y -> lt y x = false.

(* What the C++ standard promises of std::sort(first, last, comp) when comp is
   a strict weak order on the elements: a permutation in order.  (When it is
   not, nothing.) *)
Definition strict_weak {R} (lt : R -> R -> bool) (l : list R) : Prop :=
  (forall x, In x l -> lt x x = false) /\
  (forall x y z, In x l -> In y l -> In z l -> lt x y = true -> lt y z = true -> lt x z = true) /\
  (forall x y z, In x l -> In y l -> In z l ->
     lt x y = false -> lt y x = false -> lt y z = false -> lt z y = false -> lt x z = false /\ lt z x = false).
Definition is_std_sort {R} (sorter : (R -> R -> bool) -> list R -> list R) : Prop :=
  forall lt l, strict_weak lt l -> Permutation l (sorter lt l) /\ ordered lt (sorter lt l).

(* insertion sort, to show that such functions exist *)
Fixpoint insert {R} (lt : R -> R -> bool) (x : R) (l : list R) : list R :=
  match l with
  | [] => [x]
  | y :: l' => if lt x y then x :: l else y :: insert lt x l'
  end.
Definition insertion_sort {R} (lt : R -> R -> bool) (l : list R) : list R :=
  fold_right (insert lt) [] l.

(* rounding of an integer to the nearest double (53 significant bits, ties to
   even), as done by the conversion of a 64-bit integer *)
Definition round_double (x : Z) : Z :=
  let e := (Z.log2 (Z.abs x) - 52)%Z in
  if (e <=? 0)%Z then x else
  let p := (2 ^ e)%Z in
  let q := (Z.abs x / p)%Z in
  let r := (Z.abs x mod p)%Z in
  let q' := (if (2 * r <? p) then q else if (p <? 2 * r) then q + 1 else if Z.even q then q else q + 1)%Z in
  (Z.sgn x * (q' * p))%Z.

(* Parts of an array with indices from 1, as ARPACK counts them. *)
From Verif Require Import Base Spec.
From Coq Require Import ZArith List.
Import ListNotations.
Local Open Scope Z_scope.

(* a part: its first index and its number of elements *)
Definition part : Type := (Z * Z)%type.
(* the indices of a part *)
Definition member (i : Z) (b : part) : Prop := fst b <= i < fst b + snd b.
(* a part of an array of len elements *)
Definition inside (len : Z) (b : part) : Prop := forall i, member i b -> 1 <= i <= len.
(* no two of these parts have an index in common *)
Fixpoint apart (l : list part) : Prop :=
  match l with
  | [] => True
  | b :: l => (forall c i, In c l -> member i b -> ~ member i c) /\ apart l
  end.

(* Vocabulary of the properties of printing. *)
From Coq Require Import Ascii String Decimal DecimalString.
From Verif Require Import Base Spec.
Local Open Scope nat_scope.

(* texts *)
Notation text := (list ascii).
Definition lit (s : string) : text := list_ascii_of_string s.
(* the texts in ls, one after another, with sep between them *)
Fixpoint join (sep : text) (ls : list text) : text :=
  match ls with
  | [] => []
  | [x] => x
  | x :: ls => x ++ sep ++ join sep ls
  end.
(* a number in decimal digits *)
Definition decimal (n : nat) : text := lit (NilZero.string_of_uint (Nat.to_uint n)).
(* t is not empty and sep does not appear in it *)
Definition clean (sep : string) (t : text) : Prop := t <> [] /\ forall u v, t <> u ++ lit sep ++ v.

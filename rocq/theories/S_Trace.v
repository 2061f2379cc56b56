(* Vocabulary for squeeze. *)
From Verif Require Import Base Spec.

(* the dimensions different from one, in order *)
Definition non_unit (ds : list nat) : list nat := filter (fun d => negb (d =? 1)) ds.

(* the coordinates along those dimensions *)
Fixpoint drop_unit (ds ix : list nat) : list nat :=
  match ds, ix with
  | d :: ds', i :: ix' => if d =? 1 then drop_unit ds' ix' else i :: drop_unit ds' ix'
  | _, _ => []
  end.

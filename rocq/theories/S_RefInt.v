(* Vocabulary for C98. *)
From Verif Require Import Base M_RefCount.

(* how many vectors a program keeps alive after these operations: those it
   made less those it destroyed *)
Definition made {A} (o : op A) : Z :=
  match o with
  | ONew _ | ODefault | OWrap _ _ | OCopy _ => 1
  | ODestroy _ => -1
  | _ => 0
  end.

Fixpoint handles {A} (ops : list (op A)) : Z :=
  match ops with [] => 0%Z | o :: rest => (made o + handles rest)%Z end.

(* at no moment are there more than 2^31 - 1 of them *)
Definition few {A} (ops : list (op A)) : Prop :=
  forall k, (handles (firstn k ops) <= 2 ^ 31 - 1)%Z.

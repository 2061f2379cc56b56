(* Specification vocabulary for C77.  The values are those of S_RefCount:
   [srun] gives every variable a private list. *)
From Verif Require Import Base M_RefCount S_RefCount M_Threads.

(* An operation that uses the first [m] variables, those of the program that
   started the threads, only to read an element or the size. *)
Definition reads_only {A} (m : nat) (o : op A) : Prop :=
  match o with
  | ONew _ | ODefault | ORead _ _ | OSize _ => True
  | OCopy h | OWrite h _ _ | OResize h _ | ODestroy h => m <= h
  | OAssign h g => m <= h /\ m <= g
  | OWrap _ _ | OPoke _ _ _ => False
  end.

(* how many turns thread i gets *)
Definition turns (i : nat) (sched : list nat) : nat := count_occ Nat.eq_dec sched i.

(* An operation that does not change the first [m] variables, those of the
   program that started the threads; it may copy them. *)
Definition leaves {A} (m : nat) (o : op A) : Prop :=
  match o with
  | ONew _ | ODefault | ORead _ _ | OSize _ | OCopy _ => True
  | OWrite h _ _ | OResize h _ | ODestroy h | OAssign h _ => m <= h
  | OWrap _ _ | OPoke _ _ _ => False
  end.

(* equality of what two variables refer to, to count the variables that refer to a block *)
Definition adec : forall x y : option addr, {x = y} + {x <> y}.
Proof. repeat decide equality. Defined.

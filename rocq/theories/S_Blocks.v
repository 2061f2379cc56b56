(* Blocks of a matrix: the connected components of the graph whose vertices are
   the rows and columns and whose edges are the nonzero elements. *)
From Coq Require Import Sorted.
From Verif Require Import Base Spec.

Inductive vertex := Row (i : nat) | Col (j : nat).

Section Blocks.
Context (E : nat -> nat -> Prop).    (* E i j: element (i,j) is not zero *)

Inductive conn : vertex -> vertex -> Prop :=
| conn_refl v : conn v v
| conn_edge i j : E i j -> conn (Row i) (Col j)
| conn_sym v w : conn v w -> conn w v
| conn_trans u v w : conn u v -> conn v w -> conn u w.

(* rows and cols list the blocks: *)
Definition components (rows cols : list (list nat)) : Prop :=
  length rows = length cols /\
  (* each block is a component with at least one nonzero element, its rows and
     columns in ascending order *)
  (forall b R C, nth_error rows b = Some R -> nth_error cols b = Some C ->
     (exists i j, In i R /\ In j C /\ E i j) /\
     StronglySorted lt R /\ StronglySorted lt C /\
     (forall i, In i R -> forall i', In i' R <-> conn (Row i) (Row i')) /\
     (forall i, In i R -> forall j, In j C <-> conn (Row i) (Col j))) /\
  (* every nonzero element is in a block *)
  (forall i j, E i j -> exists b R C, nth_error rows b = Some R /\ nth_error cols b = Some C /\ In i R /\ In j C) /\
  (* no row and no column is in two blocks *)
  (forall b b' R R' i, nth_error rows b = Some R -> nth_error rows b' = Some R' -> In i R -> In i R' -> b = b') /\
  (forall b b' C C' j, nth_error cols b = Some C -> nth_error cols b' = Some C' -> In j C -> In j C' -> b = b').
End Blocks.

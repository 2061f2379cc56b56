(* Vocabulary for the functions on files: what is under a name. *)
From Verif Require Import Base.

(* the type of a file, as stat reports it *)
Inductive ftype := Regular | Dir | CharDev | BlockDev | Fifo | Socket.
(* what the process may do with it, and its bytes *)
Record node := mkNode { kind_of : ftype; readable_by : bool; writable_by : bool; bytes : list Z }.
(* the files by their names, and whether the process may change the directory *)
Record files := mkFiles { node_at : nat -> option node; dir_writable : bool }.
Definition same_but (s s' : files) (l : list nat) : Prop :=
  dir_writable s' = dir_writable s /\ forall n, ~ In n l -> node_at s' n = node_at s n.
Definition same_files (s s' : files) : Prop := same_but s s' [].
(* something is there that the process may read and write *)
Definition accessible (s : files) (f : nat) : Prop := exists x, node_at s f = Some x /\ readable_by x = true /\ writable_by x = true.

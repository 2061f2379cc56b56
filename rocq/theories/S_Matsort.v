(* Vocabulary for the Matlab functions that sort a struct of arrays. *)
From Coq Require Import QArith.
From Verif Require Import Base Spec S_Pysdf S_Matsdf.
Local Open Scope nat_scope.

(* A struct: the names of the fields, each with its array. *)
Definition record (E : Type) := list (list Z * tensor E).

(* The last dimension that is not one has l elements: the array has l entries. *)
Definition has_entries {E} (t : tensor E) (l : nat) : Prop :=
  exists before after, dims t = before ++ l :: after /\ 1 < l /\ Forall (fun d => d <= 1) after.

(* Each of the l entries of an array has this many elements, which lie together. *)
Definition entry_size {E} (t : tensor E) (l : nat) : nat := length (data t) / l.

(* The arrays of a record with l entries *)
Definition all_entries {E} (r : record E) (l : nat) : Prop :=
  NoDup (map fst r) /\ forall name t, get_item r name = Some t -> wf t /\ has_entries t l.

(* The entry p comes before the entry q when the columns are compared from the
   first to the last. *)
Definition before (cols : list (list Q)) (p q : nat) : Prop :=
  exists k, k < length cols /\
    (forall h, h < k -> nth p (nth h cols []) 0%Q == nth q (nth h cols []) 0%Q) /\
    (nth p (nth k cols []) 0%Q < nth q (nth k cols []) 0%Q)%Q.
Definition alike (cols : list (list Q)) (p q : nat) : Prop :=
  forall k, k < length cols -> nth p (nth k cols []) 0%Q == nth q (nth k cols []) 0%Q.

(* [order] lists 0, ..., l-1 sorted by the columns; entries that are alike stay in
   their order *)
Definition sorts (cols : list (list Q)) (l : nat) (order : list nat) : Prop :=
  length order = l /\ (forall p, p < l -> In p order) /\
  forall a b, a < b < l ->
    before cols (nth a order 0) (nth b order 0) \/
    (alike cols (nth a order 0) (nth b order 0) /\ nth a order 0 < nth b order 0).

(* The entry a of t' is the entry [order a] of t *)
Definition entries_from {E} (l : nat) (order : nat -> nat) (t t' : tensor E) : Prop :=
  length (data t') = length (data t) /\
  forall a c, a < l -> c < entry_size t l ->
    nth_error (data t') (c + entry_size t l * a) = nth_error (data t) (c + entry_size t l * order a).

(* numbers in increasing order, no two the same *)
Definition increasing (xs : list Q) : Prop :=
  forall i j, i < j < length xs -> (nth i xs 0%Q < nth j xs 0%Q)%Q.

(* The entries are the points of a grid, each of them once and in any order: the
   entry p has the coordinates number gx p and gy p *)
Definition on_grid (xs ys : list Q) (gx gy : nat -> nat) (x y : list Q) : Prop :=
  length x = length xs * length ys /\ length y = length xs * length ys /\
  (forall p, p < length xs * length ys ->
     gx p < length xs /\ gy p < length ys /\
     nth p x 0%Q == nth (gx p) xs 0%Q /\ nth p y 0%Q == nth (gy p) ys 0%Q) /\
  (forall p q, p < length xs * length ys -> q < length xs * length ys ->
     gx p = gx q -> gy p = gy q -> p = q).

(* No step between the second coordinates is as small as half of the first one. *)
Definition even (ys : list Q) : Prop :=
  forall j, S j < length ys -> (nth 1 ys 0%Q - nth 0 ys 0%Q < 2 * (nth (S j) ys 0%Q - nth j ys 0%Q))%Q.

(* rows or columns *)
Definition is_vector {E} (t : tensor E) (l : nat) : Prop := dims t = [l; 1] \/ dims t = [1; l].

(* The size of an array whose l entries become a matrix of n1 times n2 *)
Definition grid_dims (l n1 n2 : nat) (ds ds' : list nat) : Prop :=
  exists before after, ds = before ++ l :: after /\ Forall (fun d => d <= 1) after /\ ds' = strip (before ++ [n1; n2]).

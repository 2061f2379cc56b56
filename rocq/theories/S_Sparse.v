(* Vocabulary for sparse matrices. *)
From Verif Require Import Base Spec S_Reduce.

(* A sparse matrix as the class stores it: the entries of row i are those at the
   positions row_start[i], ..., row_start[i+1]-1 of column and sdata. *)
Record sparse (A : Type) := mkS {
  srows : nat; scols : nat; row_start : list nat; column : list nat; sdata : list A }.
Arguments mkS {A} srows scols row_start column sdata.
Arguments srows {A} s. Arguments scols {A} s. Arguments row_start {A} s.
Arguments column {A} s. Arguments sdata {A} s.

(* well formed: the row starts go up from 0 to the number of entries, and in
   each row the columns increase strictly and are in range *)
Record wf_sparse {A} (s : sparse A) : Prop := {
  ws_rows : length (row_start s) = S (srows s);
  ws_first : nth_error (row_start s) 0 = Some 0;
  ws_last : nth_error (row_start s) (srows s) = Some (length (column s));
  ws_data : length (sdata s) = length (column s);
  ws_mono : forall i a b, nth_error (row_start s) i = Some a -> nth_error (row_start s) (S i) = Some b -> a <= b;
  ws_range : forall k c, nth_error (column s) k = Some c -> c < scols s;
  ws_incr : forall i a b k c c', nth_error (row_start s) i = Some a -> nth_error (row_start s) (S i) = Some b ->
    a <= k -> S k < b -> nth_error (column s) k = Some c -> nth_error (column s) (S k) = Some c' -> c < c' }.

(* the (column, value) pairs of row i *)
Definition row_entries {A} (s : sparse A) (i : nat) : list (nat * A) :=
  let a := nth i (row_start s) 0 in let b := nth (S i) (row_start s) 0 in
  firstn (b - a) (skipn a (combine (column s) (sdata s))).

(* the value the row assigns to column j *)
Definition lookup {A} (zero : A) (j : nat) (r : list (nat * A)) : A :=
  match find (fun p => fst p =? j) r with Some p => snd p | None => zero end.

(* the number at row i and column j: the stored one, or zero *)
Definition entry {A} (zero : A) (s : sparse A) (i j : nat) : A := lookup zero j (row_entries s i).

(* no stored element is zero *)
Definition no_zeros {A} (zero : A) (s : sparse A) : Prop := ~ In zero (sdata s).

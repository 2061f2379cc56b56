(* What a singular value decomposition is. *)
From Verif Require Import Base Spec S_Fold S_Reduce S_Blocks.
Local Open Scope nat_scope.

Section Svd.
(* A: elements; R: real numbers, embedded by [inj] *)
Context {A R : Type} (N : numops A) (lt : R -> R -> bool) (rzero : R) (inj : R -> A).
Definition rval (s : tensor R) (k : nat) : R := nth k (data s) rzero.

(* U diag(s) VT = m *)
Definition decomposes (m : tensor A) (r c p : nat) (s : tensor R) (U VT : tensor A) : Prop :=
  forall i j, i < r -> j < c ->
    sum_n N p (fun k => nmul N (nmul N (val N U [i; k]) (inj (rval s k))) (val N VT [k; j])) = val N m [i; j].

Definition delta (k l : nat) : A := if k =? l then none_ N else nzero N.
(* inner product of columns k and l of U, of rows k and l of VT *)
Definition col_prod (U : tensor A) (r k l : nat) : A := sum_n N r (fun i => nmul N (nconj N (val N U [i; k])) (val N U [i; l])).
Definition row_prod (VT : tensor A) (c k l : nat) : A := sum_n N c (fun j => nmul N (val N VT [k; j]) (nconj N (val N VT [l; j]))).

(* the documented result of svd(m, &U, &VT, economic), svd_d.cc:34-50 *)
Definition shapes (r c : nat) (economic : bool) (s : tensor R) (U VT : tensor A) : Prop :=
  let p := Nat.min r c in
  wf s /\ dims s = [p] /\ wf U /\ dims U = [r; if economic then p else r] /\ wf VT /\ dims VT = [if economic then p else c; c].
Definition is_svd (m : tensor A) (r c : nat) (economic : bool) (s : tensor R) (U VT : tensor A) : Prop :=
  let p := Nat.min r c in
  shapes r c economic s U VT /\ decomposes m r c p s U VT /\
  (forall k l, k < p -> l < p -> col_prod U r k l = delta k l) /\
  (forall k l, k < p -> l < p -> row_prod VT c k l = delta k l) /\
  (forall k, k < p -> lt (rval s k) rzero = false) /\
  ordered (fun x y => lt y x) (data s).

(* m consists of the rows Rs and the columns Cs of a *)
Definition submatrix (a : tensor A) (Rs Cs : list nat) (m : tensor A) : Prop :=
  wf m /\ dims m = [length Rs; length Cs] /\
  forall x y i j, nth_error Rs x = Some i -> nth_error Cs y = Some j -> elt m [x; y] = elt a [i; j].

End Svd.

(* number of singular values that the blocks have together *)
Definition block_ranks (rows cols : list (list nat)) : nat :=
  list_sum (map (fun rc => Nat.min (length (fst rc)) (length (snd rc))) (combine rows cols)).

Section Hyps.
Context {A R T : Type} (N : numops A) (lt : R -> R -> bool) (rzero : R) (inj : R -> A).
Context (absv : A -> R) (divr : A -> R -> A) (significant : T -> A -> bool) (zero_tol : T).
(* moduli: x = |x| times a phase; and what find_blocks skips is zero *)
Definition polar : Prop :=
  (forall x, significant zero_tol x = true ->
     nmul N (inj (absv x)) (divr x (absv x)) = x /\
     nmul N (divr x (absv x)) (nconj N (divr x (absv x))) = none_ N /\ lt (absv x) rzero = false) /\
  (forall x, significant zero_tol x = false -> x = nzero N).

(* the nonzero elements of a *)
Definition nonzeros (a : tensor A) (i j : nat) : Prop := exists x, elt a [i; j] = Some x /\ significant zero_tol x = true.

(* svd decomposes the matrices it is given: the blocks of a with more than one
   element, and a itself if it has a single block *)
Definition svd_good (svd : tensor A -> bool -> outcome (tensor R * tensor A * tensor A)) (economic : bool) (m : tensor A) (r c : nat) : Prop :=
  exists s U VT, svd m economic = Ok (s, U, VT) /\ is_svd N lt rzero inj m r c economic s U VT.
Definition svd_good_on_blocks svd (economic : bool) (a : tensor A) (n m : nat) : Prop :=
  forall rows cols, components (nonzeros a) rows cols ->
    (length rows = 1 -> svd_good svd economic a n m) /\
    (length rows <> 1 -> forall b Rs Cs sub, nth_error rows b = Some Rs -> nth_error cols b = Some Cs -> submatrix a Rs Cs sub ->
       1 < length Rs * length Cs -> svd_good svd economic sub (length Rs) (length Cs)).
Definition square_blocks (a : tensor A) : Prop :=
  forall rows cols b Rs Cs, components (nonzeros a) rows cols -> nth_error rows b = Some Rs -> nth_error cols b = Some Cs -> length Rs = length Cs.
End Hyps.

(* Vocabulary of the properties of eigenvalues. *)
From Verif Require Import Base Spec S_Fold M_Eig.

Section Eigenvalues.
Context {C : Type} (N : numops C).

(* x, with n entries, is an eigenvector on the right, a x = w x *)
Definition right_vector (a : nat -> nat -> C) (n : nat) (w : C) (x : nat -> C) : Prop :=
  (exists k, k < n /\ x k <> nzero N) /\
  forall i, i < n -> sum_n N n (fun k => nmul N (a i k) (x k)) = nmul N w (x i).
(* the row of the conjugates of y is an eigenvector on the left, y^H a = w y^H *)
Definition left_vector (a : nat -> nat -> C) (n : nat) (w : C) (y : nat -> C) : Prop :=
  (exists k, k < n /\ y k <> nzero N) /\
  forall k, k < n -> sum_n N n (fun i => nmul N (nconj N (y i)) (a i k)) = nmul N w (nconj N (y k)).
Definition eigenvalue (a : nat -> nat -> C) (n : nat) (w : C) : Prop := exists x, right_vector a n w x.

(* complex numbers: [mk x y] is x + i y *)
Record is_complex {R : Type} (mk : R -> R -> C) (zero : R) (neg : R -> R) : Prop := {
  conj_mk : forall x y, nconj N (mk x y) = mk x (neg y);
  neg_zero : neg zero = zero }.
End Eigenvalues.

(* What LAPACK documents for xGEEV of the matrix a. *)
Section Dgeev.
Context {R C : Type} (N : numops C) (mk : R -> R -> C) (zero : R) (neg : R -> R).
Context (wantL wantR : bool) (a : nat -> nat -> R) (n : nat).
Notation ac := (fun i k => mk (a i k) zero).

(* w is an eigenvalue, with the right and left eigenvectors x and y if wanted *)
Definition eig_entry (w : C) (x y : nat -> C) : Prop :=
  eigenvalue N ac n w /\ (wantR = true -> right_vector N ac n w x) /\ (wantL = true -> left_vector N ac n w y).

(* Entries i, i+1, ... of the output of dgeev: a real eigenvalue takes one
   entry; a complex one and its conjugate two, with the real and the imaginary
   part of the eigenvector of the first in the two columns.  An imaginary part
   that is not zero is that of a complex eigenvalue. *)
Context (wr wi vl vr : nat -> R) (nonzero : R -> bool).
Inductive packed : nat -> Prop :=
| packed_end : packed n
| packed_real i : i < n -> nonzero (wi i) = false ->
    eig_entry (mk (wr i) zero) (fun j => mk (vr (j + n * i)) zero) (fun j => mk (vl (j + n * i)) zero) ->
    packed (S i) -> packed i
| packed_pair i : S i < n -> nonzero (wi i) = true ->
    eig_entry (mk (wr i) (wi i)) (fun j => mk (vr (j + n * i)) (vr (j + n * S i))) (fun j => mk (vl (j + n * i)) (vl (j + n * S i))) ->
    packed (S (S i)) -> packed i.
End Dgeev.

Definition dgeev_good {R C} (N : numops C) (mk : R -> R -> C) (zero : R) (neg : R -> R) (nonzero : R -> bool)
  (dgeev : bool -> bool -> nat -> list R -> list R * list R * list R * list R) (wantL wantR : bool) (n : nat) (a : list R) : Prop :=
  let '(wr, wi, vl, vr) := dgeev wantL wantR n a in
  length wr = n /\ length wi = n /\ (wantL = true -> length vl = n * n) /\ (wantR = true -> length vr = n * n) /\
  packed N mk zero wantL wantR (fun i k => nth (i + n * k) a zero) n
    (fun i => nth i wr zero) (fun i => nth i wi zero) (fun i => nth i vl zero) (fun i => nth i vr zero) nonzero 0.

Definition zgeev_good {C} (N : numops C)
  (zgeev : bool -> bool -> nat -> list C -> list C * list C * list C) (wantL wantR : bool) (n : nat) (a : list C) : Prop :=
  let '(w, vl, vr) := zgeev wantL wantR n a in
  let ac := fun i k => nth (i + n * k) a (nzero N) in
  length w = n /\ (wantL = true -> length vl = n * n) /\ (wantR = true -> length vr = n * n) /\
  forall i, i < n ->
    eigenvalue N ac n (nth i w (nzero N)) /\
    (wantR = true -> right_vector N ac n (nth i w (nzero N)) (fun j => nth (j + n * i) vr (nzero N))) /\
    (wantL = true -> left_vector N ac n (nth i w (nzero N)) (fun j => nth (j + n * i) vl (nzero N))).

(* the elements of a real matrix as complex numbers *)
Definition complex_entries {R C} (mk : R -> R -> C) (zero : R) (t : tensor R) (i k : nat) : C :=
  mk (match elt t [i; k] with Some x => x | None => zero end) zero.
(* v is given exactly when it is wanted, and is then an n by n matrix whose
   columns satisfy P *)
Definition columns_are {C} (N : numops C) (want : bool) (v : option (tensor C)) (n : nat) (P : nat -> (nat -> C) -> Prop) : Prop :=
  match v with
  | Some v => want = true /\ wf v /\ dims v = [n; n] /\ forall k, k < n -> P k (fun j => val N v [j; k])
  | None => want = false
  end.

(* ---- a few eigenvalues ---- *)
(* x comes before y for the selector t *)
Definition eig_before {R C} (re im modulus : C -> R) (lt : R -> R -> bool) (t : eigtype) (x y : C) : bool :=
  match t with
  | LargestMagnitude => lt (modulus y) (modulus x)
  | SmallestMagnitude => lt (modulus x) (modulus y)
  | LargestReal => lt (re y) (re x)
  | SmallestReal => lt (re x) (re y)
  | LargestImaginary => lt (im y) (im x)
  | SmallestImaginary => lt (im x) (im y)
  end.
(* sel lists neig of the n positions of w, in order, and none of the others
   comes before one of them *)
Definition first_ones {C} (bef : C -> C -> bool) (n neig : nat) (w : nat -> C) (sel : list nat) : Prop :=
  length sel = neig /\ NoDup sel /\ (forall i, In i sel -> i < n) /\
  (forall x y i j, x < y -> nth_error sel x = Some i -> nth_error sel y = Some j -> bef (w j) (w i) = false) /\
  (forall i k, In i sel -> k < n -> ~ In k sel -> bef (w k) (w i) = false).

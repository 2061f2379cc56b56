(* Vocabulary of the Fourier transform properties. *)
From Verif Require Import Base Spec S_Fold.

Section Dft.
Context {A : Type} (N : numops A).

Fixpoint npow (x : A) (n : nat) : A := match n with 0 => none_ N | S n => nmul N x (npow x n) end.

(* the number n *)
Definition number (n : nat) : A := sum_n N n (fun _ => none_ N).

(* The discrete Fourier transform of the array f, with extents ds, along the
   dimensions marked in conv, at the position k: along a marked dimension of
   extent d, sum over j of f(.., j, ..) * (w d)^(j * k). *)
Fixpoint dft (w : nat -> A) (ds : list nat) (conv : list bool) (f : list nat -> A) (k : list nat) : A :=
  match ds, conv, k with
  | d :: ds, true :: conv, k0 :: k =>
    sum_n N d (fun j => nmul N (dft w ds conv (fun ix => f (j :: ix)) k) (npow (w d) (j * k0)))
  | _ :: ds, false :: conv, k0 :: k => dft w ds conv (fun ix => f (k0 :: ix)) k
  | _, _, _ => f []
  end.

(* the tensor r is the transform of t along the marked dimensions *)
Definition transform_of (w : nat -> A) (conv : list bool) (t r : tensor A) : Prop :=
  wf r /\ dims r = dims t /\ forall ix, valid (dims t) ix -> elt r ix = Some (dft w (dims t) conv (val N t) ix).

(* number of points in the marked dimensions *)
Fixpoint points (ds : list nat) (conv : list bool) : nat :=
  match ds, conv with
  | d :: ds, c :: conv => (if c : bool then d else 1) * points ds conv
  | _, _ => 1
  end.

(* w is a principal n-th root of unity and w' its inverse *)
Definition inverse_roots (n : nat) (w w' : A) : Prop :=
  npow w n = none_ N /\ nmul N w w' = none_ N /\
  forall m, 0 < m < n -> sum_n N n (fun k => npow w (m * k)) = nzero N.
End Dft.

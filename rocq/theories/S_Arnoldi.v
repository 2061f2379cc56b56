(* Vocabulary for C100: complex vectors and Arnoldi factorizations. *)
From Coq Require Import Arith List Reals.
From Coquelicot Require Import Complex.
Open Scope R_scope.
Open Scope C_scope.

(* a vector of C^n is given by its components 0, ..., n - 1 *)
Definition cvec := nat -> C.

(* x 0 + ... + x (n - 1) *)
Fixpoint csum (n : nat) (x : nat -> C) : C :=
  match n with O => 0 | S k => csum k x + x k end.

(* scalar product and Euclidean length *)
Definition cdot (n : nat) (x y : cvec) : C := csum n (fun i => Cconj (x i) * y i).
Definition clen (n : nat) (x : cvec) : R := sqrt (Re (cdot n x x)).

(* matrix times vector *)
Definition cmul (n : nat) (A : nat -> nat -> C) (x : cvec) : cvec :=
  fun i => csum n (fun j => A i j * x j).

Definition hermitian (n : nat) (A : nat -> nat -> C) : Prop :=
  forall i j, (i < n)%nat -> (j < n)%nat -> A i j = Cconj (A j i).

(* the first k vectors of v have length 1 and are orthogonal *)
Definition corthonormal (n k : nat) (v : nat -> cvec) : Prop :=
  forall a b, (a < k)%nat -> (b < k)%nat ->
    cdot n (v a) (v b) = if Nat.eqb a b then 1 else 0.

(* the combination y 0 * v 0 + ... + y (k - 1) * v (k - 1) *)
Definition ccombine (k : nat) (v : nat -> cvec) (y : nat -> C) : cvec :=
  fun i => csum k (fun a => v a i * y a).

(* An Arnoldi factorization of length k: orthonormal vectors v, a matrix h
   that is zero below its first subdiagonal and has real numbers that are not
   negative there, and a remainder f orthogonal to v with
     A * V = V * H + f * e_{k-1}^T *)
Definition arnoldi (n : nat) (A : nat -> nat -> C) (k : nat)
    (v : nat -> cvec) (h : nat -> nat -> C) (f : cvec) : Prop :=
  corthonormal n k v /\
  (forall a, (a < k)%nat -> cdot n (v a) f = 0) /\
  (forall c i, (c < k)%nat -> (i < n)%nat ->
     cmul n A (v c) i = ccombine k v (fun r => h r c) i + (if Nat.eqb (S c) k then f i else 0)) /\
  (forall r c, (r < k)%nat -> (S c < r)%nat -> h r c = 0) /\
  (forall c, (S c < k)%nat -> Im (h (S c) c) = 0%R /\ (0 <= Re (h (S c) c))%R).

(* lartg f g gives a real c and complex s, r such that the unitary matrix
   with rows (c, s) and (- conj s, c) takes (f, g) to (r, 0) *)
Definition crotation (lartg : C -> C -> R * C * C) : Prop :=
  forall f g, let '(c, s, r) := lartg f g in
    RtoC c * RtoC c + Cconj s * s = 1 /\
    RtoC c * f + s * g = r /\ - Cconj s * f + RtoC c * g = 0.

Definition real (z : C) : Prop := Im z = 0%R.

(* for real f and g the rotation is real *)
Definition real_rotation (lartg : C -> C -> R * C * C) : Prop :=
  forall f g, real f -> real g -> let '(c, s, r) := lartg f g in real s /\ real r.

(* theta and the vector y are an eigenpair of the matrix h of order k *)
Definition critz (k : nat) (h : nat -> nat -> C) (theta : C) (y : nat -> C) : Prop :=
  clen k y = 1%R /\ forall r, (r < k)%nat -> cmul k h y r = theta * y r.

(* the distance of (theta, x) from being an eigenpair of A *)
Definition cresidual (n : nat) (A : nat -> nat -> C) (theta : C) (x : cvec) : R :=
  clen n (fun i => cmul n A x i - theta * x i).

(* u is an orthonormal basis of eigenvectors, l are their eigenvalues *)
Definition ceigenbasis (n : nat) (A : nat -> nat -> C) (u : nat -> cvec) (l : nat -> C) : Prop :=
  corthonormal n n u /\
  (forall k i, (k < n)%nat -> (i < n)%nat -> cmul n A (u k) i = l k * u k i) /\
  (forall (x : cvec) i, (i < n)%nat -> x i = ccombine n u (fun k => cdot n (u k) x) i).

(* the span of the vectors is mapped into itself *)
Definition cinvariant (n : nat) (A : nat -> nat -> C) (k : nat) (v : nat -> cvec) : Prop :=
  corthonormal n k v /\
  forall y, exists z, forall i, (i < n)%nat -> cmul n A (ccombine k v y) i = ccombine k v z i.

(* (A - s_k) ... (A - s_1) x for the shifts s_1, ..., s_k *)
Fixpoint cfilter (n : nat) (A : nat -> nat -> C) (shifts : list C) (x : cvec) : cvec :=
  match shifts with
  | nil => x
  | cons s rest => cfilter n A rest (fun i => cmul n A x i - s * x i)
  end.

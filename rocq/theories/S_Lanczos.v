(* Vocabulary for C99: vectors, symmetric matrices and Lanczos factorizations
   over the real numbers. *)
From Coq Require Import Arith List Reals.
Open Scope R_scope.

(* a vector of R^n is given by its components 0, ..., n - 1 *)
Definition vec := nat -> R.

(* x 0 + ... + x (n - 1) *)
Fixpoint sum (n : nat) (x : nat -> R) : R :=
  match n with O => 0 | S k => sum k x + x k end.

(* scalar product and Euclidean length *)
Definition dot (n : nat) (x y : vec) : R := sum n (fun i => x i * y i).
Definition len (n : nat) (x : vec) : R := sqrt (dot n x x).

(* matrix times vector *)
Definition mul (n : nat) (A : nat -> nat -> R) (x : vec) : vec :=
  fun i => sum n (fun j => A i j * x j).

Definition symmetric (n : nat) (A : nat -> nat -> R) : Prop :=
  forall i j, (i < n)%nat -> (j < n)%nat -> A i j = A j i.

(* the first k vectors of v have length 1 and are orthogonal *)
Definition orthonormal (n k : nat) (v : nat -> vec) : Prop :=
  forall a b, (a < k)%nat -> (b < k)%nat ->
    dot n (v a) (v b) = if Nat.eqb a b then 1 else 0.

(* the combination y 0 * v 0 + ... + y (k - 1) * v (k - 1) *)
Definition combine (k : nat) (v : nat -> vec) (y : nat -> R) : vec :=
  fun i => sum k (fun a => v a i * y a).

(* the symmetric tridiagonal matrix of order k with d on the diagonal and
   b 1, ..., b (k - 1) beside it, times a vector *)
Definition tridiagonal (k : nat) (d b y : nat -> R) : nat -> R :=
  fun c => (if Nat.eqb c 0 then 0 else b c * y (c - 1)%nat)
           + d c * y c
           + (if Nat.eqb (S c) k then 0 else b (S c) * y (S c)).

(* A Lanczos factorization of length k: orthonormal vectors v, the
   tridiagonal matrix T of d and b, and a remainder f orthogonal to v with
     A * V = V * T + f * e_{k-1}^T *)
Definition lanczos (n : nat) (A : nat -> nat -> R) (k : nat)
    (v : nat -> vec) (d b : nat -> R) (f : vec) : Prop :=
  orthonormal n k v /\
  (forall a, (a < k)%nat -> dot n (v a) f = 0) /\
  (forall c i, (c < k)%nat -> (i < n)%nat ->
     mul n A (v c) i
     = (if Nat.eqb c 0 then 0 else b c * v (c - 1)%nat i)
       + d c * v c i
       + (if Nat.eqb (S c) k then f i else b (S c) * v (S c) i)) /\
  (forall c, (0 < c < k)%nat -> 0 <= b c).

(* c and s are cosine and sine of a rotation that takes (f, g) to (r, 0) *)
Definition rotates (f g c s r : R) : Prop :=
  c * c + s * s = 1 /\ c * f + s * g = r /\ - s * f + c * g = 0.

(* lartg gives such a rotation for all f and g *)
Definition rotation (lartg : R -> R -> R * R * R) : Prop :=
  forall f g, let '(c, s, r) := lartg f g in rotates f g c s r.

(* u 0, ..., u (n - 1) with the values l: orthonormal eigenvectors of A that
   span the space *)
Definition eigenbasis (n : nat) (A : nat -> nat -> R) (u : nat -> vec) (l : nat -> R) : Prop :=
  orthonormal n n u /\
  (forall k i, (k < n)%nat -> (i < n)%nat -> mul n A (u k) i = l k * u k i) /\
  (forall (x : vec) i, (i < n)%nat -> x i = combine n u (fun k => dot n (u k) x) i).

(* theta and the vector y are an eigenpair of the tridiagonal matrix *)
Definition ritz (k : nat) (d b : nat -> R) (theta : R) (y : nat -> R) : Prop :=
  len k y = 1 /\ forall c, (c < k)%nat -> tridiagonal k d b y c = theta * y c.

(* the distance of (theta, x) from being an eigenpair of A *)
Definition residual (n : nat) (A : nat -> nat -> R) (theta : R) (x : vec) : R :=
  len n (fun i => mul n A x i - theta * x i).

(* a factorization of length k whose remainder is zero: the span of the
   vectors is mapped into itself *)
Definition invariant (n : nat) (A : nat -> nat -> R) (k : nat) (v : nat -> vec) : Prop :=
  orthonormal n k v /\
  forall y, exists z, forall i, (i < n)%nat -> mul n A (combine k v y) i = combine k v z i.

(* (A - s_k) ... (A - s_1) x for the shifts s_1, ..., s_k *)
Fixpoint filter (n : nat) (A : nat -> nat -> R) (shifts : list R) (x : vec) : vec :=
  match shifts with
  | nil => x
  | cons s rest => filter n A rest (fun i => mul n A x i - s * x i)
  end.

(* Vocabulary for the convergence of the power method, over the real numbers. *)
From Coq Require Import Reals.
From Verif Require Import Base Spec S_Expm S_Cgs.
Local Open Scope R_scope.

Definition Rnum : numops R := mkNum 0 1 Rplus Rmult (fun x => x).
Definition Rfield : fieldops R := mkField Rminus Rdiv INR.
Definition Rltb (x y : R) : bool := if Rlt_dec x y then true else false.
Definition sumR (n : nat) (f : nat -> R) : R := sum_n Rnum n f.

(* w 0, ..., w (p-1) are orthonormal eigenvectors of the matrix a with the
   eigenvalues l 0, ..., l (p-1) *)
Definition eigenvectors (n : nat) (a : nat -> nat -> R) (p : nat) (w : nat -> nat -> R) (l : nat -> R) : Prop :=
  (forall i j, (i < p)%nat -> (j < p)%nat -> dot Rnum n (w i) (w j) = if (i =? j)%nat then 1 else 0) /\
  (forall i k, (i < p)%nat -> (k < n)%nat -> app Rnum n a (w i) k = l i * w i k).
(* v = c 0 w 0 + ... + c (p-1) w (p-1) *)
Definition expands (n p : nat) (w : nat -> nat -> R) (c v : nat -> R) : Prop :=
  forall k, (k < n)%nat -> v k = sumR p (fun i => c i * w i k).
(* the squared tangent of the angle between v and w 0 *)
Definition tangent2 (p : nat) (c : nat -> R) : R := sumR (p - 1) (fun i => c (S i) * c (S i)) / (c 0%nat * c 0%nat).
(* all other eigenvalues are smaller than the first, by the factor q *)
Definition dominant (p : nat) (l : nat -> R) (q : R) : Prop :=
  0 <= q < 1 /\ l 0%nat <> 0 /\ forall i, (0 < i)%nat -> (i < p)%nat -> Rabs (l i) <= q * Rabs (l 0%nat).
(* x is a unit eigenvector of a with the eigenvalue lam, and every eigenvalue
   with an eigenvector orthogonal to x is smaller by the factor q *)
Definition leading (n : nat) (a : nat -> nat -> R) (lam q : R) (x : nat -> R) : Prop :=
  dot Rnum n x x = 1 /\ (forall k, (k < n)%nat -> app Rnum n a x k = lam * x k) /\ 0 <= q < 1 /\ lam <> 0 /\
  forall mu y, dot Rnum n x y = 0 -> (exists k, (k < n)%nat /\ y k <> 0) ->
    (forall k, (k < n)%nat -> app Rnum n a y k = mu * y k) -> Rabs mu <= q * Rabs lam.

(* The Lanczos iteration of the bundled ARPACK, for the standard problem
   (bmat = 'I', mode 1, src/arpack/arpack_t.cc:98), on real numbers.

   The doubles are replaced by real numbers: nothing is rounded, overflows or
   is a NaN. The reverse communication is replaced by a call: where the
   routines return to their caller to have a vector multiplied, the product
   with the matrix A is used. Arrays are functions of an index that begins at
   0 (the code begins at 1): column a of V is v a, h(a+1,2) is d a and
   h(a+1,1) is b a. Timing, counters and messages are left out. *)
From Coq Require Import Arith List Reals.
Import ListNotations.
From Verif Require Import S_Lanczos.
Open Scope R_scope.

(* writing one element of an array, as h[j + h_dim1] = ... in
   dsaitr.f.c:693-699 *)
Definition put {X} (f : nat -> X) (j : nat) (x : X) : nat -> X :=
  fun i => if Nat.eqb i j then x else f i.

(* dsaitr.f.c:761, 862 and dgetv0.f.c:456: the constant .717f, a float. *)
Definition near : R := 751829 / 1048576.

(* dgemv 'T' with the first k columns of v: the products of x with them.
   BLAS, external. dsaitr.f.c:675-676, 787-788, dgetv0.f.c:409-410 *)
Definition gemv_t (n k : nat) (v : nat -> vec) (x : vec) : nat -> R :=
  fun a => if Nat.ltb a k then dot n (v a) x else 0.

(* dgemv 'N' with alpha = -1 and beta = 1: r - V * w. BLAS, external.
   dsaitr.f.c:687-688, 798-799, dgetv0.f.c:412-413 *)
Definition gemv_n (k : nat) (v : nat -> vec) (w : nat -> R) (r : vec) : vec :=
  fun i => r i - combine k v w i.

(* what the routines keep: the vectors, the diagonal, the off-diagonal, the
   residual vector with its norm, and how many random vectors were drawn.
   dsaitr.f.c:246-249 (v, h, resid, rnorm) and dgetv0.f.c:174 (iseed) *)
Record lst := Lst {
  lv : nat -> vec; ld : nat -> R; lb : nat -> R; lres : vec; lnrm : R; lrnd : nat }.

(* dgetv0.f.c:405-482: the random vector is made orthogonal to the k vectors
   in at most six passes (iter = 0, ..., 5); nothing means ierr = -1. *)
Fixpoint orth (tries : nat) (n k : nat) (v : nat -> vec) (r : vec) (rnorm0 : R)
  : option (vec * R) :=
  match tries with
  | O => None
  | S t =>
      let s := gemv_t n k v r in
      let r' := gemv_n k v s r in
      let rnorm := len n r' in
      if Rlt_dec (rnorm0 * near) rnorm then Some (r', rnorm)
      else orth t n k v r' rnorm
  end.

(* dgetv0.f.c:285-482 with initv false, j = k + 1: r is what dlarnv gives.
   With j = 1 the vector is taken as it is (lines 389-391). *)
Definition getv0 (n k : nat) (v : nat -> vec) (r : vec) : option (vec * R) :=
  if Nat.eqb k 0 then Some (r, len n r) else orth 6 n k v r (len n r).

(* dsaitr.f.c:497-530: up to three starting vectors are tried. The second
   component is the number of vectors drawn so far. *)
Fixpoint restart (tries : nat) (n k : nat) (rand : nat -> vec) (v : nat -> vec)
    (drawn : nat) : option (vec * R) * nat :=
  match tries with
  | O => (None, drawn)
  | S t =>
      match getv0 n k v (rand drawn) with
      | Some x => (Some x, S drawn)
      | None => restart t n k rand v (S drawn)
      end
  end.

(* dsaitr.f.c:773-893: the passes of reorthogonalization, at most two
   (iter = 0, 1). k is the code's j, the number of vectors including the new
   one; alpha and beta are h(j,2) and h(j,1). *)
Fixpoint refine (tries : nat) (n k : nat) (v : nat -> vec) (fresh : bool)
    (alpha beta : R) (r : vec) (rnorm : R) : R * R * vec * R :=
  match tries with
  | O => (alpha, beta, fun _ => 0, 0)
  | S t =>
      let s := gemv_t n k v r in
      let r' := gemv_n k v s r in
      let beta' := if fresh then 0 else beta in
      let alpha' := alpha + s (k - 1)%nat in
      let rnorm1 := len n r' in
      if Rlt_dec (rnorm * near) rnorm1 then (alpha', beta', r', rnorm1)
      else refine t n k v fresh alpha' beta' r' rnorm1
  end.

(* dsaitr.f.c:541-923: the new vector is the residual divided by its norm,
   its product with A is made orthogonal to all vectors and becomes the new
   residual. rstart says that the residual is a random vector. The two ways
   of the division (lines 542-557) are one on real numbers; last says that
   j = k + np. Afterwards j = S k vectors are there. *)
Definition grow (n : nat) (A : nat -> nat -> R) (k : nat) (rstart last : bool)
    (s : lst) : lst :=
  let v := put (lv s) k (fun i => lres s i / lnrm s) in
  let w := mul n A (v k) in
  let wnorm := len n w in
  let c := gemv_t n (S k) v w in
  let r := gemv_n (S k) v c w in
  let fresh := (Nat.eqb k 0 || rstart)%bool in
  let alpha := c k in
  let beta := if fresh then 0 else lnrm s in
  let rnorm := len n r in
  let '(alpha, beta, r, rnorm) :=
    if Rlt_dec (wnorm * near) rnorm then (alpha, beta, r, rnorm)
    else refine 2 n (S k) v fresh alpha beta r rnorm in
  if Rlt_dec beta 0 then
    (if last
     then Lst v (put (ld s) k alpha) (put (lb s) k (- beta)) (fun i => - r i) rnorm (lrnd s)
     else Lst (put v (S k) (fun i => - v (S k) i)) (put (ld s) k alpha) (put (lb s) k (- beta))
            r rnorm (lrnd s))
  else Lst v (put (ld s) k alpha) (put (lb s) k beta) r rnorm (lrnd s).

(* How dsaitr ends: with info (0 for success, otherwise the size of the
   invariant subspace, dsaitr.f.c:514-530), or not at all: a division by a
   zero norm stops in dlascl (dsaitr.f.c:553-556). *)
Inductive ended := Ended (info : nat) (s : lst) | Stopped.

(* dsaitr.f.c:461-530, 925-955: np steps (at least one) beginning with k
   vectors; a zero residual is replaced by a random vector. *)
Fixpoint saitr (n : nat) (A : nat -> nat -> R) (rand : nat -> vec) (np k : nat)
    (s : lst) : ended :=
  match np with
  | O => Ended 0 s
  | S p =>
      if Rlt_dec 0 (lnrm s) then saitr n A rand p (S k) (grow n A k false (Nat.eqb p 0) s)
      else
        match restart 3 n k rand (lv s) (lrnd s) with
        | (Some (r, x), drawn) =>
            if Req_EM_T x 0 then Stopped
            else saitr n A rand p (S k)
                   (grow n A k true (Nat.eqb p 0) (Lst (lv s) (ld s) (lb s) r x drawn))
        | (None, drawn) => Ended k (Lst (lv s) (ld s) (lb s) (fun _ => 0) 0 drawn)
        end
  end.

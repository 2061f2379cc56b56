(* The Arnoldi iteration of the bundled ARPACK for complex matrices, for the
   standard problem (bmat = 'I', mode 1), on exact complex numbers.

   Doubles are replaced by real numbers: nothing is rounded, overflows or is a
   NaN. The reverse communication is replaced by a call: where the routines
   return to their caller to have a vector multiplied, the product with the
   matrix A is used. Arrays are functions of indices that begin at 0 (the code
   begins at 1): column a of V is v a, h(r+1,c+1) is h r c. Timing, counters
   and messages are left out. *)
From Coq Require Import Arith List Reals.
Import ListNotations.
From Coquelicot Require Import Complex.
From Verif Require Import S_Arnoldi.
Open Scope R_scope.
Open Scope C_scope.

(* writing one element of a vector of values, as znaitr.f.c:696-700 *)
Definition zput {X} (f : nat -> X) (j : nat) (x : X) : nat -> X :=
  fun i => if Nat.eqb i j then x else f i.

(* writing one element of a matrix, znapps.f.c:458-461 *)
Definition zput2 (h : nat -> nat -> C) (r c : nat) (x : C) : nat -> nat -> C :=
  zput h r (zput (h r) c x).

(* znaitr.f.c:768, 872 and zgetv0.f.c:453: the constant .717f, a float *)
Definition znear : R := (751829 / 1048576)%R.

(* zgemv 'C' with the first k columns of v: their scalar products with x.
   BLAS, external. znaitr.f.c:683-684, 795-796, zgetv0.f.c:401-403 *)
Definition zgemv_c (n k : nat) (v : nat -> cvec) (x : cvec) : nat -> C :=
  fun a => if Nat.ltb a k then cdot n (v a) x else 0.

(* zgemv 'N' with alpha = -1 and beta = 1: r - V * w. BLAS, external.
   znaitr.f.c:692-694, 808-810, zgetv0.f.c:404-407 *)
Definition zgemv_n (k : nat) (v : nat -> cvec) (w : nat -> C) (r : cvec) : cvec :=
  fun i => r i - ccombine k v w i.

(* what the routines keep: the vectors, the matrix H, the residual vector with
   its norm, and how many random vectors were drawn. znaitr.f.c:249-253 *)
Record ast := Ast {
  av : nat -> cvec; ah : nat -> nat -> C; ares : cvec; anrm : R; arnd : nat }.

(* zgetv0.f.c:399-480: the random vector is made orthogonal to the k vectors
   in at most two passes (iter = 0, 1); nothing means ierr = -1 *)
Fixpoint zorth (tries : nat) (n k : nat) (v : nat -> cvec) (r : cvec) (rnorm0 : R)
  : option (cvec * R) :=
  match tries with
  | O => None
  | S t =>
      let s := zgemv_c n k v r in
      let r' := zgemv_n k v s r in
      let rnorm := clen n r' in
      if Rlt_dec (rnorm0 * znear) rnorm then Some (r', rnorm)
      else zorth t n k v r' rnorm
  end.

(* zgetv0.f.c:277-480 with initv false, j = k + 1: r is what zlarnv gives.
   With j = 1 the vector is taken as it is (lines 380-382). *)
Definition zgetv0 (n k : nat) (v : nat -> cvec) (r : cvec) : option (cvec * R) :=
  if Nat.eqb k 0 then Some (r, clen n r) else zorth 2 n k v r (clen n r).

(* znaitr.f.c:518-553: up to three starting vectors are tried. The second
   component is the number of vectors drawn so far. *)
Fixpoint zrestart (tries : nat) (n k : nat) (rand : nat -> cvec) (v : nat -> cvec)
    (drawn : nat) : option (cvec * R) * nat :=
  match tries with
  | O => (None, drawn)
  | S t =>
      match zgetv0 n k v (rand drawn) with
      | Some x => (Some x, S drawn)
      | None => zrestart t n k rand v (S drawn)
      end
  end.

(* writing the first k elements of column c, znaitr.f.c:683-684, 811 *)
Definition zcolumn (h : nat -> nat -> C) (k c : nat) (w : nat -> C) : nat -> nat -> C :=
  fun r c' => if (Nat.eqb c' c && Nat.ltb r k)%bool then w r else h r c'.

(* znaitr.f.c:782-911: the passes of reorthogonalization, at most two
   (iter = 0, 1). k is the code's j, the number of vectors including the new
   one; its column of H is corrected. *)
Fixpoint zrefine (tries : nat) (n k : nat) (v : nat -> cvec)
    (h : nat -> nat -> C) (r : cvec) (rnorm : R) : (nat -> nat -> C) * cvec * R :=
  match tries with
  | O => (h, fun _ => RtoC 0, 0%R)
  | S t =>
      let s := zgemv_c n k v r in
      let r' := zgemv_n k v s r in
      let h' := zcolumn h k (k - 1) (fun a => h a (k - 1)%nat + s a) in
      let rnorm1 := clen n r' in
      if Rlt_dec (rnorm * znear) rnorm1 then (h', r', rnorm1)
      else zrefine t n k v h' r' rnorm1
  end.

(* znaitr.f.c:496, 518, 555-921: the new vector is the residual divided by
   its norm, its product with A is made orthogonal to all vectors and becomes
   the new residual. rstart says that the residual is a random vector, and
   then betaj = 0. The two ways of the division (lines 565-581) are one on
   real numbers. Afterwards j = S k vectors are there. *)
Definition zgrow (n : nat) (A : nat -> nat -> C) (k : nat) (rstart : bool) (s : ast) : ast :=
  let betaj := if rstart then 0%R else anrm s in
  let v := zput (av s) k (fun i => ares s i / anrm s) in
  let w := cmul n A (v k) in
  let wnorm := clen n w in
  let c := zgemv_c n (S k) v w in
  let h := zcolumn (ah s) (S k) k c in
  let r := zgemv_n (S k) v c w in
  let h := if Nat.ltb 0 k then zput2 h k (k - 1) betaj else h in
  let rnorm := clen n r in
  let '(h, r, rnorm) :=
    if Rlt_dec (wnorm * znear) rnorm then (h, r, rnorm)
    else zrefine 2 n (S k) v h r rnorm in
  Ast v h r rnorm (arnd s).

(* zlanhs with norm '1': the largest sum of moduli of a column of the
   Hessenberg matrix of order m. LAPACK, external. znaitr.f.c:951-954,
   znapps.f.c:395-398, 643-645 *)
Fixpoint zlanhs_upto (m k : nat) (h : nat -> nat -> C) : R :=
  match k with
  | O => 0%R
  | S c => Rmax (zlanhs_upto m c h)
             (fold_right Rplus 0%R (map (fun r => Cmod (h r c)) (seq 0 (Nat.min (S (S c)) m))))
  end.
(* znaitr.f.c:951-954 *)
Definition zlanhs (m : nat) (h : nat -> nat -> C) : R := zlanhs_upto m m h.

(* znaitr.f.c:941-959: what is negligible beside the diagonal elements i and
   i + 1; ulp and smlnum are the machine constants of lines 395-412 *)
Definition small_aitr (ulp smlnum : R) (m : nat) (h : nat -> nat -> C) (i : nat) : R :=
  let tst1 := (Cmod (h i i) + Cmod (h (S i) (S i)))%R in
  let tst1 := if Req_EM_T tst1 0 then zlanhs m h else tst1 in
  Rmax (ulp * tst1) smlnum.

(* znaitr.f.c:936-967: the check at the end, from i on *)
Fixpoint ztrim (ulp smlnum : R) (m cnt i : nat) (h : nat -> nat -> C) : nat -> nat -> C :=
  match cnt with
  | O => h
  | S t =>
      let h := if Rle_dec (Cmod (h (S i) i)) (small_aitr ulp smlnum m h i)
               then zput2 h (S i) i 0 else h in
      ztrim ulp smlnum m t (S i) h
  end.

(* How znaitr ends: with info (0 for success, otherwise the size of the
   invariant subspace, znaitr.f.c:543-552), or not at all: a division by a
   zero norm stops in zlascl (znaitr.f.c:575-580). *)
Inductive zended := Zended (info : nat) (s : ast) | Zstopped.

(* znaitr.f.c:481-553, 921-978: np steps (at least one) beginning with k
   vectors; a zero residual is replaced by a random vector. *)
Fixpoint zsteps (n : nat) (A : nat -> nat -> C) (rand : nat -> cvec) (np k : nat)
    (s : ast) : zended :=
  match np with
  | O => Zended 0 s
  | S p =>
      if Rlt_dec 0 (anrm s) then zsteps n A rand p (S k) (zgrow n A k false s)
      else
        match zrestart 3 n k rand (av s) (arnd s) with
        | (Some (r, x), drawn) =>
            if Req_EM_T x 0 then Zstopped
            else zsteps n A rand p (S k) (zgrow n A k true (Ast (av s) (ah s) r x drawn))
        | (None, drawn) => Zended k (Ast (av s) (ah s) (fun _ => RtoC 0) 0%R drawn)
        end
  end.

(* znaitr.f.c:395-978: the steps and the check at the end, which is not made
   when the routine gives up (lines 543-552) *)
Definition znaitr (ulp smlnum : R) (n : nat) (A : nat -> nat -> C) (rand : nat -> cvec)
    (np k : nat) (s : ast) : zended :=
  match zsteps n A rand np k s with
  | Zended 0 s =>
      let from := Nat.max 1 k in
      Zended 0 (Ast (av s) (ztrim ulp smlnum (k + np) (k + np - from) (from - 1) (ah s))
                  (ares s) (anrm s) (arnd s))
  | x => x
  end.

(* The implicit shifts of the bundled ARPACK (dsapps) and the iteration that
   uses them (dsaup2), on real numbers; see M_Lanczos for what is left out.
   Rotations come from dlartg of LAPACK, which is external: lartg f g gives
   (c, s, r). Indices begin at 0: the code's i is i + 1 here. *)
From Coq Require Import Arith List Reals.
Import ListNotations.
From Verif Require Import S_Lanczos M_Lanczos.
Open Scope R_scope.

(* dsapps.f.c:413-422, 491-500: columns i and i + 1 of Q are rotated, in the
   first lim rows only *)
Definition rot_q (lim i : nat) (c s : R) (q : nat -> nat -> R) : nat -> nat -> R :=
  fun r => if Nat.ltb r lim
           then put (put (q r) (S i) (- s * q r i + c * q r (S i))) i (c * q r i + s * q r (S i))
           else q r.

(* the arrays of dsapps: diagonal, off-diagonal, Q. dsapps.f.c:254-256 *)
Definition dbq : Type := (nat -> R) * (nat -> R) * (nat -> nat -> R).

(* dsapps.f.c:396-422 and 473-500: a rotation of rows and columns i, i + 1 of
   the tridiagonal matrix, in sweep number jj *)
Definition turn (m jj i : nat) (c s : R) (x : dbq) : dbq :=
  let '(d, b, q) := x in
  let a1 := c * d i + s * b (S i) in
  let a2 := c * b (S i) + s * d (S i) in
  let a4 := c * d (S i) - s * b (S i) in
  let a3 := c * b (S i) - s * d i in
  (put (put d i (c * a1 + s * a2)) (S i) (c * a4 - s * a3),
   put b (S i) (c * a3 + s * a4),
   rot_q (Nat.min (S i + jj) m) i c s q).

(* dsapps.f.c:435-503: the bulge is chased from i on, in cnt steps; c and s
   are those of the rotation before *)
Fixpoint chase (lartg : R -> R -> R * R * R) (m jj cnt i : nat) (c s : R) (x : dbq) : dbq :=
  match cnt with
  | O => x
  | S t =>
      let '(d, b, q) := x in
      let f := b i in
      let g := s * b (S i) in
      let b := put b (S i) (c * b (S i)) in
      let '(c, s, r) := lartg f g in
      let '(c, s, r) := if Rlt_dec r 0 then (- c, - s, - r) else (c, s, r) in
      let b := put b i r in
      chase lartg m jj t (S i) c s (turn m jj i c s (d, b, q))
  end.

(* dsapps.f.c:354-376: the end of the block that begins at i: the first place
   with a negligible element beside the diagonal, which is set to zero *)
Fixpoint find_end (eps : R) (m cnt i : nat) (d b : nat -> R) : nat * (nat -> R) :=
  match cnt with
  | O => ((m - 1)%nat, b)
  | S t =>
      if Rle_dec (b (S i)) (eps * (Rabs (d i) + Rabs (d (S i))))
      then (i, put b (S i) 0)
      else find_end eps m t (S i) d b
  end.

(* dsapps.f.c:521-524: the element at the end of the block is made
   nonnegative by a change of sign of a column *)
Definition fix_sign (m iend : nat) (x : dbq) : dbq :=
  let '(d, b, q) := x in
  if Rlt_dec (b iend) 0
  then (d, put b iend (- b iend),
        fun r => if Nat.ltb r m then put (q r) iend (- q r iend) else q r)
  else x.

(* dsapps.f.c:347-524: one block *)
Definition block (lartg : R -> R -> R * R * R) (eps : R) (m jj : nat) (shift : R)
    (istart : nat) (x : dbq) : nat * dbq :=
  let '(d, b, q) := x in
  let '(iend, b) := find_end eps m (m - 1 - istart) istart d b in
  let x :=
    if Nat.ltb istart iend then
      let '(c, s, _) := lartg (d istart - shift) (b (S istart)) in
      chase lartg m jj (iend - 1 - istart) (S istart) c s (turn m jj istart c s (d, b, q))
    else (d, b, q) in
  (iend, fix_sign m iend x).

(* dsapps.f.c:347-532: all blocks; nothing means that the jump of line 531
   has not come to an end within the given number of blocks *)
Fixpoint blocks (lartg : R -> R -> R * R * R) (eps : R) (m jj : nat) (shift : R)
    (fuel istart : nat) (x : dbq) : option dbq :=
  match fuel with
  | O => None
  | S t =>
      let '(iend, x) := block lartg eps m jj shift istart x in
      if Nat.ltb iend (m - 1) then blocks lartg eps m jj shift t (S iend) x else Some x
  end.

(* dsapps.f.c:538-545: the next sweep begins after the leading zeros *)
Fixpoint raise_top (cnt itop : nat) (b : nat -> R) : nat :=
  match cnt with
  | O => itop
  | S t => if Rlt_dec 0 (b (S itop)) then itop else raise_top t (S itop) b
  end.

(* dsapps.f.c:333-553: one sweep for each shift; jj counts them *)
Fixpoint sweeps (lartg : R -> R -> R * R * R) (eps : R) (m jj itop : nat)
    (shifts : list R) (x : dbq) : option (nat * dbq) :=
  match shifts with
  | [] => Some (itop, x)
  | sh :: rest =>
      match blocks lartg eps m jj sh m itop x with
      | Some x =>
          let '(d, b, q) := x in
          sweeps lartg eps m (S jj) (raise_top (m - 1 - itop) itop b) rest x
      | None => None
      end
  end.

(* dsapps.f.c:561-576 *)
Fixpoint settle (eps : R) (cnt i : nat) (d b : nat -> R) : nat -> R :=
  match cnt with
  | O => b
  | S t =>
      let b := if Rle_dec (b (S i)) (eps * (Rabs (d i) + Rabs (d (S i)))) then put b (S i) 0 else b in
      settle eps t (S i) d b
  end.

(* dsapps.f.c:596-604: columns kev, ..., 1 of V * Q are written from the
   last column of V backwards; i is the number of the column written last *)
Fixpoint back (m kev cnt i : nat) (q : nat -> nat -> R) (v : nat -> vec) : nat -> vec :=
  match cnt with
  | O => v
  | S t => back m kev t (S i) q
             (put v (m - S i)%nat (combine (m - i) v (fun r => q r (kev - S i)%nat)))
  end.

(* dsapps.f.c:309-325, 333-634, and the norm of the residual after it,
   dsaup2.f.c:912-955. np is the number of shifts, m = kev + np. *)
Definition sapps (lartg : R -> R -> R * R * R) (eps : R) (n kev : nat)
    (shifts : list R) (s : lst) : option lst :=
  let np := length shifts in
  let m := (kev + np)%nat in
  match shifts with
  | [] => Some (Lst (lv s) (ld s) (lb s) (lres s) (len n (lres s)) (lrnd s))
  | _ =>
      match sweeps lartg eps m 1 0 shifts
              (ld s, lb s, fun r c => if Nat.eqb r c then 1 else 0) with
      | None => None
      | Some (itop, (d, b, q)) =>
          let b := settle eps (m - 1 - itop) itop d b in
          let work := combine m (lv s) (fun r => q r kev) in
          let v := back m kev kev 0 q (lv s) in
          let v := fun c => if Nat.ltb c kev then v (np + c)%nat else v c in
          let v := if Rlt_dec 0 (b kev) then put v kev work else v in
          let r := fun i => q (m - 1)%nat (kev - 1)%nat * lres s i in
          let r := if Rlt_dec 0 (b kev) then fun i => r i + b kev * v kev i else r in
          Some (Lst v d b r (len n r) (lrnd s))
      end
  end.

(* How the iteration ends: no starting vector (info = -9), an invariant
   subspace of size k was found (info = -9999, np = k), all rounds done, or
   it stopped or did not end. dsaup2.f.c:436-444, 490-502, 547-559 *)
Inductive verdict :=
| NoStart | Subspace (k : nat) (s : lst) | Factored (s : lst) | Broken.

(* dsaup2.f.c:512-559, 912-970: rounds of m - kev shifts each and of
   extending the factorization to m vectors again. The numbers of shifts
   and the shifts themselves are given: the choice of them is modelled in
   M_ArpackSelect. *)
Fixpoint rounds (lartg : R -> R -> R * R * R) (eps : R) (n : nat) (A : nat -> nat -> R)
    (rand : nat -> vec) (m : nat) (hist : list (list R)) (s : lst) : verdict :=
  match hist with
  | [] => Factored s
  | shifts :: rest =>
      let kev := (m - length shifts)%nat in
      match sapps lartg eps n kev shifts s with
      | None => Broken
      | Some s =>
          match saitr n A rand (length shifts) kev s with
          | Stopped => Broken
          | Ended 0 s => rounds lartg eps n A rand m rest s
          | Ended info s => Subspace info s
          end
      end
  end.

(* dsaup2.f.c:408-502, 531-559: the starting vector (given by the caller or
   drawn, first says which), nev0 steps, and np0 more steps to have
   m = nev0 + np0 vectors; then the rounds. What V, H hold before does not
   matter. *)
Definition saup2 (lartg : R -> R -> R * R * R) (eps : R) (n : nat) (A : nat -> nat -> R)
    (rand : nat -> vec) (start : option vec) (nev0 np0 : nat) (hist : list (list R))
    (v : nat -> vec) (d b : nat -> R) : verdict :=
  let '(r, drawn) := match start with Some r => (r, 0%nat) | None => (rand 0%nat, 1%nat) end in
  let rnorm := len n r in
  if Req_EM_T rnorm 0 then NoStart
  else
    match saitr n A rand nev0 0 (Lst v d b r rnorm drawn) with
    | Stopped => Broken
    | Ended 0 s =>
        match saitr n A rand np0 nev0 s with
        | Stopped => Broken
        | Ended 0 s => rounds lartg eps n A rand (nev0 + np0) hist s
        | Ended info s => Subspace info s
        end
    | Ended info s => Subspace info s
    end.

(* dseigt.f.c:238-242: the error estimate of a Ritz value whose normalized
   vector y has the last component y (m - 1) *)
Definition estimate (m : nat) (rnorm : R) (y : nat -> R) : R := rnorm * Rabs (y (m - 1)%nat).

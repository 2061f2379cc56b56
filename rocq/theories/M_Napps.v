(* The implicit shifts of the bundled ARPACK for complex matrices (znapps) and
   the iteration that uses them (znaup2); see M_Arnoldi for what is left out.
   Rotations come from zlartg of LAPACK, which is external: lartg f g gives
   (c, s, r), c is real. Indices begin at 0: the code's i is i + 1 here.

   size is how the test for splitting measures an element: the code takes the
   absolute value of the real part (real_size below). *)
From Coq Require Import Arith List Reals.
Import ListNotations.
From Coquelicot Require Import Complex.
From Verif Require Import S_Arnoldi M_Arnoldi.
Open Scope R_scope.
Open Scope C_scope.

(* znapps.f.c:402: abs(d__1) with d__1 = h__[i__3].r *)
Definition real_size (z : C) : R := Rabs (Re z).

(* znapps.f.c:391-401, 636-649: what is negligible beside the diagonal
   elements i and i + 1 *)
Definition small_apps (ulp smlnum : R) (order : nat) (h : nat -> nat -> C) (i : nat) : R :=
  let tst1 := (Rabs (Re (h i i)) + Rabs (Im (h i i))
               + (Rabs (Re (h (S i) (S i))) + Rabs (Im (h (S i) (S i)))))%R in
  let tst1 := if Req_EM_T tst1 0 then zlanhs order h else tst1 in
  Rmax (ulp * tst1) smlnum.

(* znapps.f.c:379-421: the end of the block that begins at i: the first place
   with a negligible element below the diagonal, which is set to zero *)
Fixpoint zfind_end (size : C -> R) (ulp smlnum : R) (m jj cnt i : nat) (h : nat -> nat -> C)
  : nat * (nat -> nat -> C) :=
  match cnt with
  | O => ((m - 1)%nat, h)
  | S t =>
      if Rle_dec (size (h (S i) i)) (small_apps ulp smlnum (m - jj + 1) h i)
      then (i, zput2 h (S i) i 0)
      else zfind_end size ulp smlnum m jj t (S i) h
  end.

(* znapps.f.c:468-490: rows i and i + 1 are rotated, in the columns
   i, ..., m - 1 *)
Definition zleft (m i : nat) (c : R) (s : C) (h : nat -> nat -> C) : nat -> nat -> C :=
  fun r k =>
    if (Nat.leb i k && Nat.ltb k m)%bool then
      if Nat.eqb r i then c * h i k + s * h (S i) k
      else if Nat.eqb r (S i) then - Cconj s * h i k + c * h (S i) k
      else h r k
    else h r k.

(* znapps.f.c:496-519 and 525-548: columns i and i + 1 are rotated, in the
   first lim rows *)
Definition zright (lim i : nat) (c : R) (s : C) (h : nat -> nat -> C) : nat -> nat -> C :=
  fun r k =>
    if Nat.ltb r lim then
      if Nat.eqb k i then c * h r i + Cconj s * h r (S i)
      else if Nat.eqb k (S i) then - s * h r i + c * h r (S i)
      else h r k
    else h r k.

(* the matrices H and Q, znapps.f.c:147-149 *)
Definition hq : Type := (nat -> nat -> C) * (nat -> nat -> C).

(* znapps.f.c:450-548: one rotation in the block istart, ..., iend, in sweep
   number jj *)
Definition zturn (lartg : C -> C -> R * C * C) (m jj istart iend i : nat) (f g : C) (x : hq) : hq :=
  let '(h, q) := x in
  let '(c, s, r) := lartg f g in
  let h := if Nat.ltb istart i then zput2 (zput2 h i (i - 1) r) (S i) (i - 1) 0 else h in
  let h := zleft m i c s h in
  let h := zright (Nat.min (i + 3) (iend + 1)) i c s h in
  (h, zright (Nat.min (i + 1 + jj) m) i c s q).

(* znapps.f.c:449-562: the bulge is chased from i on, in cnt steps *)
Fixpoint zchase (lartg : C -> C -> R * C * C) (m jj istart iend cnt i : nat) (f g : C) (x : hq) : hq :=
  match cnt with
  | O => x
  | S t =>
      let x := zturn lartg m jj istart iend i f g x in
      zchase lartg m jj istart iend t (S i) (fst x (S i) i) (fst x (S (S i)) i) x
  end.

(* znapps.f.c:377-562: one block; blocks of order 1 and those behind the
   point of compression are left alone *)
Definition zblock (size : C -> R) (ulp smlnum : R) (lartg : C -> C -> R * C * C)
    (m kev jj : nat) (shift : C) (istart : nat) (x : hq) : nat * hq :=
  let '(h, q) := x in
  let '(iend, h) := zfind_end size ulp smlnum m jj (m - 1 - istart) istart h in
  if (Nat.eqb istart iend || Nat.leb kev istart)%bool then (iend, (h, q))
  else
    (iend, zchase lartg m jj istart iend (iend - istart) istart
             (h istart istart - shift) (h (S istart) istart) (h, q)).

(* znapps.f.c:376-579: all blocks; nothing means that the jump of lines 575-578
   has not come to an end within the given number of blocks *)
Fixpoint zblocks (size : C -> R) (ulp smlnum : R) (lartg : C -> C -> R * C * C)
    (m kev jj : nat) (shift : C) (fuel istart : nat) (x : hq) : option hq :=
  match fuel with
  | O => None
  | S t =>
      let '(iend, x) := zblock size ulp smlnum lartg m kev jj shift istart x in
      if Nat.ltb iend (m - 1)
      then zblocks size ulp smlnum lartg m kev jj shift t (S iend) x else Some x
  end.

(* znapps.f.c:364-586: one sweep for each shift; jj counts them *)
Fixpoint zsweeps (size : C -> R) (ulp smlnum : R) (lartg : C -> C -> R * C * C)
    (m kev jj : nat) (shifts : list C) (x : hq) : option hq :=
  match shifts with
  | [] => Some x
  | sh :: rest =>
      match zblocks size ulp smlnum lartg m kev jj sh m 0 x with
      | Some x => zsweeps size ulp smlnum lartg m kev (S jj) rest x
      | None => None
      end
  end.

(* zscal of znapps.f.c:604-606: row j + 1 from column j on *)
Definition zrow_scaled (m j : nat) (t : C) (h : nat -> nat -> C) : nat -> nat -> C :=
  fun r k => if (Nat.eqb r (S j) && Nat.leb j k && Nat.ltb k m)%bool then t * h r k else h r k.

(* zscal of znapps.f.c:607-614: the first lim elements of column j + 1 *)
Definition zcol_scaled (lim j : nat) (t : C) (h : nat -> nat -> C) : nat -> nat -> C :=
  fun r k => if (Nat.eqb k (S j) && Nat.ltb r lim)%bool then t * h r k else h r k.

(* znapps.f.c:594-622: the elements below the diagonal are made real and not
   negative, from j on *)
Fixpoint znormal (m np cnt j : nat) (x : hq) : hq :=
  match cnt with
  | O => x
  | S t =>
      let '(h, q) := x in
      let b := h (S j) j in
      let x :=
        if Rlt_dec (Re b) 0 then true else if Req_EM_T (Im b) 0 then false else true in
      if x then
        let u := b / RtoC (Cmod b) in
        let h := zrow_scaled m j (Cconj u) h in
        let h := zcol_scaled (Nat.min (j + 3) m) j u h in
        let q := zcol_scaled (Nat.min (j + np + 2) m) j u q in
        let h := zput2 h (S j) j (RtoC (Re (h (S j) j))) in
        znormal m np t (S j) (h, q)
      else znormal m np t (S j) (h, q)
  end.

(* znapps.f.c:624-654: the final check *)
Fixpoint zsettle (ulp smlnum : R) (order cnt i : nat) (h : nat -> nat -> C) : nat -> nat -> C :=
  match cnt with
  | O => h
  | S t =>
      let h := if Rle_dec (Re (h (S i) i)) (small_apps ulp smlnum order h i)
               then zput2 h (S i) i 0 else h in
      zsettle ulp smlnum order t (S i) h
  end.

(* znapps.f.c:675-683: columns kev, ..., 1 of V * Q are written from the last
   column of V backwards *)
Fixpoint zback (m kev cnt i : nat) (q : nat -> nat -> C) (v : nat -> cvec) : nat -> cvec :=
  match cnt with
  | O => v
  | S t => zback m kev t (S i) q
             (zput v (m - S i)%nat (ccombine (m - i) v (fun r => q r (kev - S i)%nat)))
  end.

(* znapps.f.c:340-715, and the norm of the residual after it,
   znaup2.f.c:895-925. np is the number of shifts, m = kev + np. *)
Definition znapps (size : C -> R) (ulp smlnum : R) (lartg : C -> C -> R * C * C)
    (n kev : nat) (shifts : list C) (s : ast) : option ast :=
  let np := length shifts in
  let m := (kev + np)%nat in
  match shifts with
  | [] => Some (Ast (av s) (ah s) (ares s) (clen n (ares s)) (arnd s))
  | _ =>
      match zsweeps size ulp smlnum lartg m kev 1 shifts
              (ah s, fun r c => if Nat.eqb r c then RtoC 1 else RtoC 0) with
      | None => None
      | Some x =>
          let '(h, q) := znormal m np kev 0 x in
          let h := zsettle ulp smlnum kev kev 0 h in
          let beta := h kev (kev - 1)%nat in
          let work := ccombine m (av s) (fun r => q r kev) in
          let v := zback m kev kev 0 q (av s) in
          let v := fun c => if Nat.ltb c kev then v (np + c)%nat else v c in
          let v := if Rlt_dec 0 (Re beta) then zput v kev work else v in
          let r := fun i => q (m - 1)%nat (kev - 1)%nat * ares s i in
          let r := if Rlt_dec 0 (Re beta) then fun i => r i + beta * v kev i else r in
          Some (Ast v h r (clen n r) (arnd s))
      end
  end.

(* How the iteration ends: no starting vector (info = -9), an invariant
   subspace of size k was found (info = -9999, np = k), all rounds done, or
   it stopped or did not end. znaup2.f.c:412-424, 475-483, 529-537 *)
Inductive zverdict :=
| Znostart | Zsubspace (k : nat) (s : ast) | Zfactored (s : ast) | Zbroken.

(* znaup2.f.c:489-538, 880-935: rounds of m - kev shifts each and of
   extending the factorization to m vectors again. The numbers of shifts and
   the shifts themselves are given. *)
Fixpoint zrounds (size : C -> R) (ulp smlnum : R) (lartg : C -> C -> R * C * C) (n : nat)
    (A : nat -> nat -> C) (rand : nat -> cvec) (m : nat) (hist : list (list C)) (s : ast)
  : zverdict :=
  match hist with
  | [] => Zfactored s
  | shifts :: rest =>
      let kev := (m - length shifts)%nat in
      match znapps size ulp smlnum lartg n kev shifts s with
      | None => Zbroken
      | Some s =>
          match znaitr ulp smlnum n A rand (length shifts) kev s with
          | Zstopped => Zbroken
          | Zended 0 s => zrounds size ulp smlnum lartg n A rand m rest s
          | Zended info s => Zsubspace info s
          end
      end
  end.

(* znaup2.f.c:400-538: the starting vector (given by the caller or drawn),
   nev0 steps, and np0 more steps to have m = nev0 + np0 vectors; then the
   rounds. What V holds before does not matter; H is in the work array, which
   znaupd.f.c:642-649 fills with zeros. *)
Definition znaup2 (size : C -> R) (ulp smlnum : R) (lartg : C -> C -> R * C * C) (n : nat)
    (A : nat -> nat -> C) (rand : nat -> cvec) (start : option cvec) (nev0 np0 : nat)
    (hist : list (list C)) (v : nat -> cvec) : zverdict :=
  let '(r, drawn) := match start with Some r => (r, 0%nat) | None => (rand 0%nat, 1%nat) end in
  let rnorm := clen n r in
  if Req_EM_T rnorm 0 then Znostart
  else
    match znaitr ulp smlnum n A rand nev0 0 (Ast v (fun _ _ => RtoC 0) r rnorm drawn) with
    | Zstopped => Zbroken
    | Zended 0 s =>
        match znaitr ulp smlnum n A rand np0 nev0 s with
        | Zstopped => Zbroken
        | Zended 0 s => zrounds size ulp smlnum lartg n A rand (nev0 + np0) hist s
        | Zended info s => Zsubspace info s
        end
    | Zended info s => Zsubspace info s
    end.

(* zneigh.f.c:309-310: the error estimate of a Ritz value whose normalized
   vector y has the last component y (m - 1), here its modulus as used in
   znaup2.f.c:608-616 *)
Definition zestimate (m : nat) (rnorm : R) (y : nat -> C) : R := (rnorm * Cmod (y (m - 1)%nat))%R.

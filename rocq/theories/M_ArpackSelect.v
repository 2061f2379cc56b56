(* Model of how the ARPACK that comes with the library selects eigenvalues for real
   problems: src/arpack-f2c/dsgets.f.c, dsconv.f.c, the end of an iteration in
   dsaup2.f.c and the selection in dseupd.f.c.  Places count from zero.  The
   timing and the messages are left out. *)
From Verif Require Import Base M_Double M_DoubleReduce M_ArpackSort.
From Coq Require Import String List.
From Flocq Require Import BinarySingleNaN.
Import ListNotations.
Local Open Scope Z_scope.

(* x <= y of doubles, as in dsconv.f.c:176 *)
Definition dle : double -> double -> bool := @Bleb 53 1024.
(* x == y of doubles, as in dsaup2.f.c:636 *)
Definition deq : double -> double -> bool := @Beqb 53 1024.
(* the macro max of f2c.h, (a) >= (b) ? (a) : (b), as in dsconv.f.c:175 *)
Definition dmax (a b : double) : double := if dle b a then a else b.

(* the sorting part of dsgets, dsgets.f.c:218-256.  The companions are only moved
   and may be of any type. *)
Definition arrange {B} (fuel : nat) (which : string) (kev np : Z) (ritz : list double) (bounds : list B)
  : outcome (list double * list B) :=
  if String.eqb which "BE" then
    '(ritz, bounds) <- dsortr fuel "LA" true (kev + np) ritz bounds ;;
    let kevd2 := Z.quot kev 2 in
    if 1 <? kev then
      ritz <- dswap (Z.to_nat (Z.min kevd2 np)) ritz 0 (Z.max kevd2 np) ;;
      bounds <- dswap (Z.to_nat (Z.min kevd2 np)) bounds 0 (Z.max kevd2 np) ;;
      Ok (ritz, bounds)
    else Ok (ritz, bounds)
  else dsortr fuel which true (kev + np) ritz bounds.

(* dcopy(n, x, 1, y, 1) of BLAS, as in dsgets.f.c:269 *)
Definition dcopy {A} (n : Z) (x y : list A) : outcome (list A) :=
  for_ (Z.to_nat n) (fun i y => v <- rdZ x (Z.of_nat i) ;; wrZ y (Z.of_nat i) v) y.

(* dsgets, dsgets.f.c:133-293 *)
Definition dsgets (fuel : nat) (ishift : Z) (which : string) (kev np : Z) (ritz bounds shifts : list double)
  : outcome (list double * list double * list double) :=
  '(ritz, bounds) <- arrange fuel which kev np ritz bounds ;;
  if (ishift =? 1) && (0 <? np) then
    '(bounds, ritz) <- dsortr fuel "SM" true np bounds ritz ;;
    shifts <- dcopy np ritz shifts ;;
    Ok (ritz, bounds, shifts)
  else Ok (ritz, bounds, shifts).

(* the test of dsconv.f.c:174-176 and dseupd.f.c:614-618 *)
Definition small (tol eps23 r b : double) : bool := dle b (dmul tol (dmax eps23 (dabs r))).

(* dsconv, dsconv.f.c:161-182, for the n elements from place np on, as it is called
   in dsaup2.f.c:605-606.  The copy of the estimates in workl is left out. *)
Definition dsconv (tol eps23 : double) (np n : Z) (ritz bounds : list double) : outcome Z :=
  for_ (Z.to_nat n) (fun i nconv =>
    r <- rdZ ritz (np + Z.of_nat i) ;; b <- rdZ bounds (np + Z.of_nat i) ;;
    Ok (if small tol eps23 r b then nconv + 1 else nconv)) 0.

(* the unwanted values with estimates equal to zero, dsaup2.f.c:633-641 *)
Definition zero_estimates (np nev : Z) (bounds : list double) : outcome (Z * Z) :=
  for_ (Z.to_nat np) (fun j s => b <- rdZ bounds (Z.of_nat j) ;; Ok (if deq b (dofZ 0) then (fst s - 1, snd s + 1) else s)) (np, nev).

(* the estimates are scaled, dsaup2.f.c:716-723, and scaled back, 739-746 *)
Definition rescale (op : double -> double -> double) (eps23 : double) (nev0 : Z) (ritz bounds : list double) : outcome (list double) :=
  for_ (Z.to_nat nev0) (fun j bounds =>
    r <- rdZ ritz (Z.of_nat j) ;; b <- rdZ bounds (Z.of_nat j) ;; wrZ bounds (Z.of_nat j) (op b (dmax eps23 (dabs r)))) bounds.

(* wprime, dsaup2.f.c:694-705.  For other codes, which dsaupd.f.c:617-624 does not
   let through, the code before is kept; here it is an unknown code. *)
Definition opposite (which : string) : string :=
  if String.eqb which "LM" then "SM" else if String.eqb which "SM" then "LM"
  else if String.eqb which "LA" then "SA" else if String.eqb which "SA" then "LA" else "".

(* the preparation to exit, dsaup2.f.c:654-777; np and nev as the zero estimates
   have left them *)
Definition saup2_exit (fuel : nat) (which : string) (eps23 : double) (nev0 nev np kplusp nconv : Z) (ritz bounds : list double)
  : outcome (list double * list double) :=
  '(ritz, bounds) <-
    (if String.eqb which "BE" then
      '(ritz, bounds) <- dsortr fuel "SA" true kplusp ritz bounds ;;
      let nevd2 := Z.quot nev0 2 in
      let nevm2 := nev0 - nevd2 in
      if 1 <? nev then
        ritz <- dswap (Z.to_nat (Z.min nevd2 np)) ritz nevm2 (Z.max (kplusp - nevd2) (kplusp - np)) ;;
        bounds <- dswap (Z.to_nat (Z.min nevd2 np)) bounds nevm2 (Z.max (kplusp - nevd2) (kplusp - np)) ;;
        Ok (ritz, bounds)
      else Ok (ritz, bounds)
    else dsortr fuel (opposite which) true kplusp ritz bounds) ;;
  bounds <- rescale ddiv eps23 nev0 ritz bounds ;;
  '(bounds, ritz) <- dsortr fuel "LA" true nev0 bounds ritz ;;
  bounds <- rescale dmul eps23 nev0 ritz bounds ;;
  dsortr fuel (if String.eqb which "BE" then "LA" else which) true nconv ritz bounds.

(* What happens at the end of an iteration: the iterations end, with a code, the
   number of converged values (the np that dsaupd.f.c:732 gives back), the arrays
   ritz and bounds and the copies in workl that dseupd reads; or they go on with
   nev, np and the shifts. *)
Inductive decision :=
| Exit (info nconv : Z) (ritz bounds irz ibd : list double)
| Go (nev np : Z) (ritz bounds shifts : list double).

(* dsaup2.f.c:579-841, from the values ritz and the estimates bounds that dseigt
   has found.  The parts of workl are apart: the copies, dsaup2.f.c:579-580, and
   the shifts.  iter is the number of the iteration. *)
Definition saup2_decide (fuel : nat) (which : string) (ishift nev0 np0 : Z) (tol eps23 : double) (iter mxiter : Z)
  (ritz bounds shifts : list double) : outcome decision :=
  let kplusp := nev0 + np0 in
  let irz := ritz in
  let ibd := bounds in
  '(rb, shifts) <- dsgets fuel ishift which nev0 np0 ritz bounds shifts ;;
  let ritz := fst rb in
  let bounds := snd rb in
  nconv <- dsconv tol eps23 np0 nev0 ritz bounds ;;
  '(np, nev) <- zero_estimates np0 nev0 bounds ;;
  if (nev0 <=? nconv) || (mxiter <? iter) || (np =? 0) then
    '(ritz, bounds) <- saup2_exit fuel which eps23 nev0 nev np kplusp nconv ritz bounds ;;
    let info := if (mxiter <? iter) && (nconv <? nev) then 1 else 0 in
    let info := if (np =? 0) && (nconv <? nev0) then 2 else info in
    Ok (Exit info nconv ritz bounds irz ibd)
  else if (nconv <? nev) && (ishift =? 1) then
    let nev' := nev + Z.min nconv (Z.quot np 2) in
    let nev' := if (nev' =? 1) && (6 <=? kplusp) then Z.quot kplusp 2 else if (nev' =? 1) && (2 <? kplusp) then 2 else nev' in
    let np' := kplusp - nev' in
    if nev <? nev' then
      '(rb, shifts) <- dsgets fuel ishift which nev' np' ritz bounds shifts ;; Ok (Go nev' np' (fst rb) (snd rb) shifts)
    else Ok (Go nev' np' ritz bounds shifts)
  else Ok (Go nev np ritz bounds shifts).

(* the marks, dseupd.f.c:610-626; ix are the indices that dsgets has moved, which
   are kept as doubles in the C code *)
Definition mark (tol eps23 : double) (ncv nconv : Z) (irz ibd : list double) (ix : list Z) : outcome (list bool * Z * bool) :=
  for_ (Z.to_nat ncv) (fun j s =>
    let '(select, numcnv, reord) := s in
    r <- rdZ irz (ncv - 1 - Z.of_nat j) ;;
    jj <- rdZ ix (ncv - 1 - Z.of_nat j) ;;
    if numcnv <? nconv then
      b <- rdZ ibd jj ;;
      if small tol eps23 r b then
        select <- wrZ select jj true ;;
        Ok (select, numcnv + 1, reord || (nconv <? jj + 1))
      else Ok s
    else Ok s) (repeat false (Z.to_nat ncv), 0, false).

(* the loop L20, dseupd.f.c:691-736.  The columns are exchanged by three copies
   through workl(iw), 723-728. *)
Fixpoint partition {B} (fuel : nat) (select : list bool) (ncv : Z) (l r : Z) (hd : list double) (q : list B)
  : outcome (list double * list B) :=
  match fuel with
  | O => Hang
  | S fuel =>
    sl <- rdZ select l ;;
    '(s, hq) <-
      (if sl : bool then Ok ((l + 1, r), (hd, q)) else
       sr <- rdZ select r ;;
       if negb sr then Ok ((l, r - 1), (hd, q)) else
       hd <- exchange hd l r ;;
       q <- dswap (Z.to_nat ncv) q (ncv * l) (ncv * r) ;;
       Ok ((l + 1, r - 1), (hd, q))) ;;
    if fst s <? snd s then partition fuel select ncv (fst s) (snd s) (fst hq) (snd hq) else Ok hq
  end.

(* dseupd with vectors, for the mode 1 that the library uses, up to the vectors of
   the tridiagonal matrix, dseupd.f.c:567-750, 775-777.  hd and q are what dsteqr
   of LAPACK gives.  The result: info, and the values d with the first columns of
   q.  nconv is not zero. *)
Definition dseupd_vectors {B} (fuel : nat) (which : string) (nev ncv nconv : Z) (tol eps23 : double) (irz ibd hd : list double) (q : list B)
  : outcome (Z * list double * list B) :=
  '(irz, ix) <- arrange fuel which nev (ncv - nev) irz (map Z.of_nat (seq 0 (Z.to_nat ncv))) ;;
  '(sn, reord) <- mark tol eps23 ncv nconv irz ibd ix ;;
  if negb (snd sn =? nconv) then Ok (-17, [], []) else
  '(hd, q) <- (if reord && negb (ncv =? 1) then partition fuel (fst sn) ncv 0 (ncv - 1) hd q else Ok (hd, q)) ;;
  d <- mapM (fun i => rdZ hd (Z.of_nat i)) (seq 0 (Z.to_nat nconv)) ;;
  '(d, q) <- dsesrt fuel "LA" true nconv d (Z.to_nat ncv) q ncv ;;
  Ok (0, d, q).

(* dseupd without vectors, dseupd.f.c:758 *)
Definition dseupd_values (nconv : Z) (ritz : list double) : outcome (list double) :=
  mapM (fun i => rdZ ritz (Z.of_nat i)) (seq 0 (Z.to_nat nconv)).

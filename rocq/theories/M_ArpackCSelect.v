(* Model of how the ARPACK that comes with the library selects eigenvalues for
   complex problems: src/arpack-f2c/zngets.f.c, the end of an iteration in
   znaup2.f.c and the selection in zneupd.f.c.  Complex numbers are pairs of
   doubles.  Places count from zero.  The timing and the messages are left out. *)
From Verif Require Import Base M_Double M_DoubleReduce M_ArpackSort M_ArpackSelect.
From Coq Require Import String List.
Import ListNotations.
Local Open Scope Z_scope.

Section Complex.
(* LAPACK's dlapy2, the magnitude of a complex number, as in znaup2.f.c:607 *)
Context (lapy2 : double -> double -> double).

(* the magnitude of an element of an array, znaup2.f.c:604-607 *)
Definition modulus (z : double * double) : double := lapy2 (fst z) (snd z).

(* zngets, zngets.f.c:207-223 *)
Definition zngets (fuel : nat) (ishift : Z) (which : string) (kev np : Z) (ritz bounds : list (double * double))
  : outcome (list (double * double) * list (double * double)) :=
  '(ritz, bounds) <- zsortc lapy2 fuel which true (kev + np) ritz bounds ;;
  if ishift =? 1 then
    '(bounds, ritz) <- zsortc lapy2 fuel "SM" true np bounds ritz ;;
    Ok (ritz, bounds)
  else Ok (ritz, bounds).

(* the test of znaup2.f.c:604-612 and zneupd.f.c:633-643 *)
Definition csmall (tol eps23 : double) (r b : double * double) : bool := dle (modulus b) (dmul tol (dmax eps23 (modulus r))).

(* the number of wanted values that pass the test, znaup2.f.c:599-616 *)
Definition nconverged (tol eps23 : double) (np n : Z) (ritz bounds : list (double * double)) : outcome Z :=
  for_ (Z.to_nat n) (fun i nconv =>
    r <- rdZ ritz (np + Z.of_nat i) ;; b <- rdZ bounds (np + Z.of_nat i) ;;
    Ok (if csmall tol eps23 r b then nconv + 1 else nconv)) 0.

(* the test of znaup2.f.c:645 *)
Definition czero (b : double * double) : bool := deq (fst b) (dofZ 0) && deq (snd b) (dofZ 0).
(* the unwanted values with estimates equal to zero, znaup2.f.c:641-650 *)
Definition czero_estimates (np nev : Z) (bounds : list (double * double)) : outcome (Z * Z) :=
  for_ (Z.to_nat np) (fun j s => b <- rdZ bounds (Z.of_nat j) ;; Ok (if czero b then (fst s - 1, snd s + 1) else s)) (np, nev).

(* the estimates are scaled, znaup2.f.c:715-728, and scaled back, 745-758 *)
Definition crescale (op : double -> double -> double) (eps23 : double) (nev0 : Z) (ritz bounds : list (double * double))
  : outcome (list (double * double)) :=
  for_ (Z.to_nat nev0) (fun j bounds =>
    r <- rdZ ritz (Z.of_nat j) ;; b <- rdZ bounds (Z.of_nat j) ;;
    let rtemp := dmax eps23 (modulus r) in
    wrZ bounds (Z.of_nat j) (op rtemp (fst b), op rtemp (snd b))) bounds.

(* wprime, znaup2.f.c:689-706.  For other codes, which znaupd does not let
   through, the code before is kept; here it is an unknown code. *)
Definition copposite (which : string) : string :=
  if String.eqb which "LM" then "SM" else if String.eqb which "SM" then "LM"
  else if String.eqb which "LR" then "SR" else if String.eqb which "SR" then "LR"
  else if String.eqb which "LI" then "SI" else if String.eqb which "SI" then "LI" else "".

(* the preparation to exit, znaup2.f.c:681-766 *)
Definition naup2_exit (fuel : nat) (which : string) (eps23 : double) (nev0 kplusp nconv : Z) (ritz bounds : list (double * double))
  : outcome (list (double * double) * list (double * double)) :=
  '(ritz, bounds) <- zsortc lapy2 fuel (copposite which) true kplusp ritz bounds ;;
  bounds <- crescale (fun rtemp b => ddiv b rtemp) eps23 nev0 ritz bounds ;;
  '(bounds, ritz) <- zsortc lapy2 fuel "LM" true nev0 bounds ritz ;;
  bounds <- crescale dmul eps23 nev0 ritz bounds ;;
  zsortc lapy2 fuel which true nconv ritz bounds.

(* What happens at the end of an iteration: the iterations end, with a code, the
   number of converged values, the arrays ritz and bounds and the copies in workl
   that zneupd reads; or they go on with nev and np, and then the first np
   elements of ritz are the shifts, znaup2.f.c:883-884. *)
Inductive cdecision :=
| CExit (info nconv : Z) (ritz bounds irz ibd : list (double * double))
| CGo (nev np : Z) (ritz bounds : list (double * double)).

(* znaup2.f.c:564-822, from the values ritz and the estimates bounds that zneigh
   has found.  The copies in workl, znaup2.f.c:572-578, are apart. *)
Definition naup2_decide (fuel : nat) (which : string) (ishift nev0 np0 : Z) (tol eps23 : double) (iter mxiter : Z)
  (ritz bounds : list (double * double)) : outcome cdecision :=
  let kplusp := nev0 + np0 in
  let irz := ritz in
  let ibd := bounds in
  '(ritz, bounds) <- zngets fuel ishift which nev0 np0 ritz bounds ;;
  nconv <- nconverged tol eps23 np0 nev0 ritz bounds ;;
  '(np, nev) <- czero_estimates np0 nev0 bounds ;;
  if (nev0 <=? nconv) || (mxiter <? iter) || (np =? 0) then
    '(ritz, bounds) <- naup2_exit fuel which eps23 nev0 kplusp nconv ritz bounds ;;
    let info := if (mxiter <? iter) && (nconv <? nev0) then 1 else 0 in
    let info := if (np =? 0) && (nconv <? nev0) then 2 else info in
    Ok (CExit info nconv ritz bounds irz ibd)
  else if (nconv <? nev0) && (ishift =? 1) then
    let nev' := nev + Z.min nconv (Z.quot np 2) in
    let nev' := if (nev' =? 1) && (6 <=? kplusp) then Z.quot kplusp 2 else if (nev' =? 1) && (3 <? kplusp) then 2 else nev' in
    let np' := kplusp - nev' in
    if nev <? nev' then
      '(ritz, bounds) <- zngets fuel ishift which nev' np' ritz bounds ;; Ok (CGo nev' np' ritz bounds)
    else Ok (CGo nev' np' ritz bounds)
  else Ok (CGo nev np ritz bounds).

(* the marks, zneupd.f.c:629-651; ix are the indices that zngets has moved, which
   are kept as complex numbers in the C code *)
Definition cmark (tol eps23 : double) (ncv nconv : Z) (irz ibd : list (double * double)) (ix : list Z) : outcome (list bool * Z * bool) :=
  for_ (Z.to_nat ncv) (fun j s =>
    let '(select, numcnv, reord) := s in
    r <- rdZ irz (ncv - 1 - Z.of_nat j) ;;
    jj <- rdZ ix (ncv - 1 - Z.of_nat j) ;;
    b <- rdZ ibd jj ;;
    if (numcnv <? nconv) && csmall tol eps23 r b then
      select <- wrZ select jj true ;;
      Ok (select, numcnv + 1, reord || (nconv <? jj + 1))
    else Ok s) (repeat false (Z.to_nat ncv), 0, false).

(* zneupd with vectors, for the mode 1 that the library uses, up to the values d,
   zneupd.f.c:584-751.  heig are the values that zlahqr of LAPACK finds, 683-685;
   [trsen] is ztrsen of LAPACK, which moves the selected values to the front and
   gives their number and an error code, 711-713.  The result: info and d.  Here
   zngets is called with ishift equal to zero, so that it only sorts. *)
Definition zneupd_values (trsen : list bool -> list (double * double) -> list (double * double) * Z * Z)
  (fuel : nat) (which : string) (ncv nconv : Z) (tol eps23 : double) (irz ibd heig : list (double * double))
  : outcome (Z * list (double * double)) :=
  '(irz, ix) <- zsortc lapy2 fuel which true ncv irz (map Z.of_nat (seq 0 (Z.to_nat ncv))) ;;
  '(sn, reord) <- cmark tol eps23 ncv nconv irz ibd ix ;;
  if negb (snd sn =? nconv) then Ok (-15, []) else
  if reord : bool then
    let '(heig, nconv2, ierr) := trsen (fst sn) heig in
    let nconv := if nconv2 <? nconv then nconv2 else nconv in
    if ierr =? 1 then Ok (1, []) else
    d <- mapM (fun i => rdZ heig (Z.of_nat i)) (seq 0 (Z.to_nat nconv)) ;; Ok (0, d)
  else
    d <- mapM (fun i => rdZ heig (Z.of_nat i)) (seq 0 (Z.to_nat nconv)) ;; Ok (0, d).

(* zneupd without vectors, zneupd.f.c:895 *)
Definition zneupd_alone (nconv : Z) (ritz : list (double * double)) : outcome (list (double * double)) :=
  mapM (fun i => rdZ ritz (Z.of_nat i)) (seq 0 (Z.to_nat nconv)).
End Complex.

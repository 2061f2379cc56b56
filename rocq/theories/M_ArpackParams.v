(* Model of what the four routines of the bundled ARPACK that the library calls
   do first: the checks of their parameters and the division of the array workl,
   src/arpack-f2c/dsaupd.f.c, dseupd.f.c, znaupd.f.c, zneupd.f.c.  Integers do
   not overflow. *)
From Verif Require Import Base Spec S_Arpack S_ArpackParams.
From Coq Require Import ZArith List String.
Import ListNotations.
Local Open Scope Z_scope.

(* the parameters that are checked: n, nev, ncv, lworkl, which, bmat, howmny (as
   strings), rvec, iparam(1), iparam(3), iparam(7),
   dsaupd.f.c:447-451, dseupd.f.c:259-265 *)
Record params := mkParams {
  a_n : Z; a_nev : Z; a_ncv : Z; a_lworkl : Z; a_which : string; a_bmat : string; a_howmny : string; a_rvec : bool;
  a_ishift : Z; a_mxiter : Z; a_mode : Z }.

(* s_cmp(a, b) == 0 of codes of the same length, dsaupd.f.c:616-620 *)
Definition is (a b : string) : bool := String.eqb a b.
(* dsaupd.f.c:616-622, dseupd.f.c:418-424 *)
Definition real_which (w : string) : bool := is w "LM" || is w "SM" || is w "LA" || is w "SA" || is w "BE".
(* znaupd.f.c:582-588, zneupd.f.c:470-475 *)
Definition complex_which (w : string) : bool := is w "LM" || is w "SM" || is w "LR" || is w "SR" || is w "LI" || is w "SI".

(* if (c) ierr = e;  dsaupd.f.c:613-641 *)
Definition raise (c : bool) (e ierr : Z) : Z := if c then e else ierr.

(* dsaupd.f.c:581-643: the code in info, 0 if none *)
Definition saupd_check (p : params) : Z :=
  let ierr := if a_n p <=? 0 then -1 else if a_nev p <=? 0 then -2 else if (a_ncv p <=? a_nev p) || (a_n p <? a_ncv p) then -3 else 0 in
  let ierr := raise (a_mxiter p <=? 0) (-4) ierr in
  let ierr := raise (negb (real_which (a_which p))) (-5) ierr in
  let ierr := raise (negb (is (a_bmat p) "I") && negb (is (a_bmat p) "G")) (-6) ierr in
  let ierr := raise (a_lworkl p <? a_ncv p * a_ncv p + 8 * a_ncv p) (-7) ierr in
  if (a_mode p <? 1) || (5 <? a_mode p) then -10
  else if (a_mode p =? 1) && is (a_bmat p) "G" then -11
  else if (a_ishift p <? 0) || (1 <? a_ishift p) then -12
  else if (a_nev p =? 1) && is (a_which p) "BE" then -13 else ierr.

(* dseupd.f.c:394-467; nconv: iparam(5).  None: nothing is done, info is 0 *)
Definition seupd_check (p : params) (nconv : Z) : option Z :=
  if nconv =? 0 then None else
  let ierr := raise (nconv <=? 0) (-14) 0 in
  let ierr := raise (a_n p <=? 0) (-1) ierr in
  let ierr := raise (a_nev p <=? 0) (-2) ierr in
  let ierr := raise ((a_ncv p <=? a_nev p) || (a_n p <? a_ncv p)) (-3) ierr in
  let ierr := raise (negb (real_which (a_which p))) (-5) ierr in
  let ierr := raise (negb (is (a_bmat p) "I") && negb (is (a_bmat p) "G")) (-6) ierr in
  let ierr := raise (negb (is (a_howmny p) "A") && negb (is (a_howmny p) "P") && negb (is (a_howmny p) "S") && a_rvec p) (-15) ierr in
  let ierr := raise (a_rvec p && is (a_howmny p) "S") (-16) ierr in
  let ierr := raise (a_rvec p && (a_lworkl p <? a_ncv p * a_ncv p + 8 * a_ncv p)) (-7) ierr in
  let ierr := raise (negb ((a_mode p =? 1) || (a_mode p =? 2) || (a_mode p =? 3) || (a_mode p =? 4) || (a_mode p =? 5))) (-10) ierr in
  let ierr := raise ((a_mode p =? 1) && is (a_bmat p) "G") (-11) ierr in
  Some (raise ((a_nev p =? 1) && is (a_which p) "BE") (-12) ierr).

(* znaupd.f.c:561-605 *)
Definition naupd_check (p : params) : Z :=
  if a_n p <=? 0 then -1
  else if a_nev p <=? 0 then -2
  else if (a_ncv p <=? a_nev p) || (a_n p <? a_ncv p) then -3
  else if a_mxiter p <=? 0 then -4
  else if negb (complex_which (a_which p)) then -5
  else if negb (is (a_bmat p) "I") && negb (is (a_bmat p) "G") then -6
  else if a_lworkl p <? a_ncv p * a_ncv p * 3 + a_ncv p * 5 then -7
  else if (a_mode p <? 1) || (3 <? a_mode p) then -10
  else if (a_mode p =? 1) && is (a_bmat p) "G" then -11 else 0.

(* zneupd.f.c:460-508 *)
Definition neupd_check (p : params) (nconv : Z) : Z :=
  let ierr :=
    if nconv <=? 0 then -14
    else if a_n p <=? 0 then -1
    else if a_nev p <=? 0 then -2
    else if (a_ncv p <=? a_nev p + 1) || (a_n p <? a_ncv p) then -3
    else if negb (complex_which (a_which p)) then -5
    else if negb (is (a_bmat p) "I") && negb (is (a_bmat p) "G") then -6
    else if a_lworkl p <? a_ncv p * a_ncv p * 3 + 4 * a_ncv p then -7
    else if negb (is (a_howmny p) "A") && negb (is (a_howmny p) "P") && negb (is (a_howmny p) "S") && a_rvec p then -13
    else if is (a_howmny p) "S" then -12 else 0 in
  let ierr := raise (negb ((a_mode p =? 1) || (a_mode p =? 2) || (a_mode p =? 3))) (-10) ierr in
  raise ((a_mode p =? 1) && is (a_bmat p) "G") (-11) ierr.

(* How workl is divided.  dsaupd.f.c:694-704: H, the Ritz values, the bounds, Q
   and the rest *)
Record saupd_parts := mkSaupd { sa_h : part; sa_ritz : part; sa_bounds : part; sa_q : part; sa_w : part; sa_next : Z }.
(* dsaupd.f.c:694-704 *)
Definition saupd_divide (ncv : Z) : saupd_parts :=
  let ih := 1 in let ritz := ih + ncv * 2 in let bounds := ritz + ncv in let iq := bounds + ncv in
  let iw := iq + ncv * ncv in let next := iw + ncv * 3 in
  mkSaupd (ih, ncv * 2) (ritz, ncv) (bounds, ncv) (iq, ncv * ncv) (iw, ncv * 3) next.
(* dsaup2.f.c:585-586, with workl(iw) as its workl and kplusp = ncv: where the
   Ritz values and their bounds are copied *)
Definition saup2_copies (s : saupd_parts) (kplusp : Z) : part * part :=
  ((fst (sa_w s) + kplusp, kplusp), (fst (sa_w s) + kplusp * 2, kplusp)).
(* dseupd.f.c:512-536, ipntr(5), (6), (7), (11) as dsaupd.f.c:706-710 set them *)
Record seupd_parts := mkSeupd { se_h : part; se_ritz : part; se_bounds : part; se_hd : part; se_hb : part; se_q : part; se_w : part;
  se_rz : part; se_bd : part; se_next : Z }.
(* dseupd.f.c:512-536 *)
Definition seupd_divide (s : saupd_parts) (ncv : Z) : seupd_parts :=
  let ih := fst (sa_h s) in let ritz := fst (sa_ritz s) in let bounds := fst (sa_bounds s) in
  let ihd := bounds + ncv in let ihb := ihd + ncv in let iq := ihb + ncv in let iw := iq + ncv * ncv in let next := iw + ncv * 2 in
  let irz := fst (sa_w s) + ncv in let ibd := irz + ncv in
  mkSeupd (ih, ncv * 2) (ritz, ncv) (bounds, ncv) (ihd, ncv) (ihb, ncv) (iq, ncv * ncv) (iw, ncv * 2) (irz, ncv) (ibd, ncv) next.

(* znaupd.f.c:660-669: H, the Ritz values, the bounds, Q and the rest *)
Definition naupd_divide (ncv : Z) : saupd_parts :=
  let ih := 1 in let ritz := ih + ncv * ncv in let bounds := ritz + ncv in let iq := bounds + ncv in
  let iw := iq + ncv * ncv in let next := iw + ncv * ncv + ncv * 3 in
  mkSaupd (ih, ncv * ncv) (ritz, ncv) (bounds, ncv) (iq, ncv * ncv) (iw, ncv * ncv + ncv * 3) next.
(* znaup2.f.c:572-578 *)
Definition naup2_copies (s : saupd_parts) (kplusp : Z) : part * part :=
  ((fst (sa_w s) + kplusp * kplusp, kplusp), (fst (sa_w s) + kplusp * kplusp + kplusp, kplusp)).
(* zneupd.f.c:540-566, ipntr(5), (6), (8), (14) as znaupd.f.c:671-676 set them.
   hd, hb, q, w: iheig, ihbds, iuptri, invsub *)
Definition neupd_divide (s : saupd_parts) (ncv : Z) : seupd_parts :=
  let ih := fst (sa_h s) in let ritz := fst (sa_ritz s) in let bounds := fst (sa_bounds s) in
  let iheig := bounds + ncv in let ihbds := iheig + ncv in let iuptri := ihbds + ncv in let invsub := iuptri + ncv * ncv in
  let irz := fst (sa_w s) + ncv * ncv in let ibd := irz + ncv in
  mkSeupd (ih, ncv * ncv) (ritz, ncv) (bounds, ncv) (iheig, ncv) (ihbds, ncv) (iuptri, ncv * ncv) (invsub, ncv * ncv) (irz, ncv) (ibd, ncv)
    (invsub + ncv * ncv).

(* The parameters with which the library calls all of them: those of the problem
   and iparam, bmat, hwmny of arpack_t.cc:85-99; saupp and caupp copy which,
   arpack_t.cc:143-153, 193-211. *)
Definition library_params {T} (p : problem T) (want : bool) : params :=
  mkParams (Z.of_nat (p_n p)) (Z.of_nat (p_nev p)) (Z.of_nat (p_ncv p)) (Z.of_nat (p_lworkl p)) (p_which p) "I" "A" want
    1 (Z.of_nat (p_maxit p)) 1.

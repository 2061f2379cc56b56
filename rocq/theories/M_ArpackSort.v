(* Model of the sorting routines of the ARPACK that comes with the library,
   src/arpack-f2c/dsortr.f.c, dsesrt.f.c, zsortc.f.c.  The routines for single
   precision are the same text with another type.  The variables are static in
   the C code; every call sets them before it reads them. *)
From Verif Require Import Base M_Double M_DoubleReduce.
From Coq Require Import String List.
Import ListNotations.
Local Open Scope Z_scope.

(* The loops are the same in all branches of all routines; only the comparison
   and what is exchanged differ.  [test s j k]: whether the elements j and k are
   in the wrong order; [swap s j k] exchanges them. *)
Section Shell.
Context {S : Type} (test : S -> Z -> Z -> outcome bool) (swap : S -> Z -> Z -> outcome S).

(* L20 ... L30, dsortr.f.c:118-139 *)
Fixpoint sift (fuel : nat) (igap j : Z) (s : S) : outcome S :=
  match fuel with
  | O => Hang
  | Datatypes.S fuel =>
    if j <? 0 then Ok s else
    b <- test s j (j + igap) ;;
    if b : bool then s <- swap s j (j + igap) ;; sift fuel igap (j - igap) s else Ok s
  end.

(* for (i__ = igap; i__ <= n - 1; ++i__), dsortr.f.c:115-140 *)
Fixpoint pass (fuel : nat) (igap n i : Z) (s : S) : outcome S :=
  match fuel with
  | O => Hang
  | Datatypes.S fuel' =>
    if i <=? n - 1 then s <- sift fuel igap (i - igap) s ;; pass fuel' igap n (i + 1) s else Ok s
  end.

(* L10 ... goto L10, dsortr.f.c:111-142 *)
Fixpoint gaps (fuel : nat) (igap n : Z) (s : S) : outcome S :=
  match fuel with
  | O => Hang
  | Datatypes.S fuel' =>
    if igap =? 0 then Ok s else
    s <- pass fuel igap n igap s ;; gaps fuel' (Z.quot igap 2) n s
  end.

(* the whole, dsortr.f.c:105-142 *)
Definition shell (fuel : nat) (n : Z) (s : S) : outcome S := gaps fuel (Z.quot n 2) n s.
End Shell.

(* temp = x[j]; x[j] = x[k]; x[k] = temp, dsortr.f.c:125-127 *)
Definition exchange {A} (x : list A) (j k : Z) : outcome (list A) :=
  u <- rdZ x j ;; v <- rdZ x k ;; x <- wrZ x j v ;; wrZ x k u.

(* The loops with a comparison of the elements of x1, which are moved together
   with those of x2 when apply is true, dsortr.f.c:124-134.  The companions x2
   are only moved: they may be of any type. *)
Definition sort_arrays {A B} (wrong : A -> A -> bool) (apply : bool) (fuel : nat) (n : Z) (x1 : list A) (x2 : list B)
  : outcome (list A * list B) :=
  shell (fun s j k => u <- rdZ (fst s) j ;; v <- rdZ (fst s) k ;; Ok (wrong u v))
        (fun s j k => a <- exchange (fst s) j k ;;
           if apply then b <- exchange (snd s) j k ;; Ok (a, b) else Ok (a, snd s)) fuel n (x1, x2).

(* The comparison that each code stands for, dsortr.f.c:107, 124, 144, 161, 182,
   199, 219, 236; None for other codes, for which nothing is done *)
Definition wrong_order (which : string) : option (double -> double -> bool) :=
  if String.eqb which "SA" then Some dlt
  else if String.eqb which "SM" then Some (fun x y => dlt (dabs x) (dabs y))
  else if String.eqb which "LA" then Some (fun x y => dlt y x)
  else if String.eqb which "LM" then Some (fun x y => dlt (dabs y) (dabs x))
  else None.

(* dsortr, dsortr.f.c:74-265 *)
Definition dsortr {B} (fuel : nat) (which : string) (apply : bool) (n : Z) (x1 : list double) (x2 : list B)
  : outcome (list double * list B) :=
  match wrong_order which with
  | Some wrong => sort_arrays wrong apply fuel n x1 x2
  | None => Ok (x1, x2)
  end.

(* dswap(na, &a[j], 1, &a[k], 1), of BLAS: it exchanges na elements, one after the
   other, dsesrt.f.c:156-157 *)
Definition dswap {A} (na : nat) (a : list A) (j k : Z) : outcome (list A) :=
  for_ na (fun i a => exchange a (j + Z.of_nat i) (k + Z.of_nat i)) a.

(* dsesrt, dsesrt.f.c:87-286.  After the parameter adjustments a[j * lda + 1] is
   the element at offset j * lda. *)
Definition dsesrt {B} (fuel : nat) (which : string) (apply : bool) (n : Z) (x : list double) (na : nat) (a : list B) (lda : Z)
  : outcome (list double * list B) :=
  match wrong_order which with
  | Some wrong =>
    shell (fun s j k => u <- rdZ (fst s) j ;; v <- rdZ (fst s) k ;; Ok (wrong u v))
          (fun s j k => x <- exchange (fst s) j k ;;
             if apply then b <- dswap na (snd s) (j * lda) (k * lda) ;; Ok (x, b) else Ok (x, snd s)) fuel n (x, a)
  | None => Ok (x, a)
  end.

(* The comparisons of zsortc, zsortc.f.c:120, 140-149, 178, 198-207, 236, 258,
   287, 308, 337, 356, 385, 404.  [lapy2] is LAPACK's dlapy2. *)
Definition wrong_corder (lapy2 : double -> double -> double) (which : string) : option (double * double -> double * double -> bool) :=
  let modulus z := lapy2 (fst z) (snd z) in
  if String.eqb which "LM" then Some (fun x y => dlt (modulus y) (modulus x))
  else if String.eqb which "SM" then Some (fun x y => dlt (modulus x) (modulus y))
  else if String.eqb which "LR" then Some (fun x y => dlt (fst y) (fst x))
  else if String.eqb which "SR" then Some (fun x y => dlt (fst x) (fst y))
  else if String.eqb which "LI" then Some (fun x y => dlt (snd y) (snd x))
  else if String.eqb which "SI" then Some (fun x y => dlt (snd x) (snd y))
  else None.

(* zsortc, zsortc.f.c:76-441 *)
Definition zsortc {B} (lapy2 : double -> double -> double) (fuel : nat) (which : string) (apply : bool) (n : Z)
  (x : list (double * double)) (y : list B) : outcome (list (double * double) * list B) :=
  match wrong_corder lapy2 which with
  | Some wrong => sort_arrays wrong apply fuel n x y
  | None => Ok (x, y)
  end.

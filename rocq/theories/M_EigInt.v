(* Model of eig and eig_sym with the integers of LAPACK, as in M_BlasInt.v; the
   workspace and its size are left out, as in M_Eig.v and M_Svd.v. *)
From Verif Require Import Base Spec M_Tensor M_Arith M_Fold M_Svd M_Eig M_BlasInt.
From Coq Require Import ZArith.
Local Open Scope nat_scope.

Section Integers.
Context (bits : nat).

(* blas::integer n = A.rows(); if ((size_t)n != A.columns()) abort();
   eig_d.cc:57-64, eig_z.cc:60-66, eig_sym_d.cc:50-55, eig_sym_z.cc:52-57 *)
Definition rows_int (rows columns : nat) : outcome Z :=
  let n := to_integer bits (Z.of_nat rows) in
  if negb (n mod 2 ^ 64 =? Z.of_nat columns)%Z then Abort else Ok n.

Section Eig.
Context {R C : Type} (mk : R -> R -> C) (zero : R) (neg : R -> R) (nonzero : R -> bool).
Context (dgeev : bool -> bool -> nat -> list R -> list R * list R * list R * list R).
Context (zgeev : bool -> bool -> nat -> list C -> list C * list C * list C).

(* eig(RTensor, R, L), eig_d.cc:44-134: a negative n would make RTensor(n) throw *)
Definition eig_int (A : tensor R) (wantR wantL : bool) : outcome (tensor C * option (tensor C) * option (tensor C)) :=
  rows <- dimension A 0 ;;
  _ <- assert_ (0 <? rows) ;;
  _ <- assert_ (length (dims A) =? 2) ;;
  columns <- dimension A 1 ;;
  _ <- assert_ (rows =? columns) ;;
  n <- rows_int rows columns ;;
  _ <- assert_ (0 <=? n)%Z ;;
  let n := Z.to_nat n in
  let '(wr, wi, vl, vr) := dgeev wantL wantR n (data A) in
  let realL := if wantL then Some (mkT [n; n] vl) else None in
  let realR := if wantR then Some (mkT [n; n] vr) else None in
  let to_c := to_complex (fun x => mk x zero) in
  eig_loop mk neg nonzero n n 0 wr wi realR realL (to_c (mkT [n] wr), option_map to_c realR, option_map to_c realL).

(* eig(CTensor, R, L), eig_z.cc:46-104 *)
Definition eig_z_int (A : tensor C) (wantR wantL : bool) : outcome (tensor C * option (tensor C) * option (tensor C)) :=
  rows <- dimension A 0 ;;
  _ <- assert_ (0 <? rows) ;;
  _ <- assert_ (length (dims A) =? 2) ;;
  columns <- dimension A 1 ;;
  _ <- assert_ (rows =? columns) ;;
  n <- rows_int rows columns ;;
  _ <- assert_ (0 <=? n)%Z ;;
  let n := Z.to_nat n in
  let '(w, vl, vr) := zgeev wantL wantR n (data A) in
  Ok (mkT [n] w, if wantR then Some (mkT [n; n] vr) else None, if wantL then Some (mkT [n; n] vl) else None).
End Eig.

(* eig_sym(A, V), eig_sym_d.cc:43-80, eig_sym_z.cc:43-84 *)
Definition eig_sym_int {A R} heev (junkr : nat -> R) (t : tensor A) (wantV : bool) : outcome (tensor R * option (tensor A)) :=
  rows <- dimension t 0 ;;
  _ <- assert_ (0 <? rows) ;;
  _ <- assert_ (length (dims t) =? 2) ;;
  columns <- dimension t 1 ;;
  _ <- assert_ (rows =? columns) ;;
  n <- rows_int rows columns ;;
  _ <- assert_ (0 <=? n)%Z ;;
  let n := Z.to_nat n in
  let aux := t in
  let output := new_tensor junkr [n] in
  '(info, w, a) <- call_heev heev wantV n (data aux) n (data output) ;;
  Ok (mkT (dims output) w, if wantV then Some (mkT (dims aux) a) else None).
End Integers.

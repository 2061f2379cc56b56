(* Model of svd and eig_sym, src/linalg/svd_d.cc, svd_z.cc, eig_sym_d.cc,
   eig_sym_z.cc, over the memory effects of LAPACK's xGESVD, xSYEV and xHEEV.
   The workspace queries are left out. *)
From Verif Require Import Base Spec M_Tensor.
Local Open Scope nat_scope.

(* a Fortran routine reads or writes a rows x cols matrix of leading dimension
   ld, in column-major order. As xGESVD does in svd_d.cc:97-102 *)
Definition load {A} (ld rows cols : nat) (buf : list A) : outcome (list A) :=
  mapM (fun q => rd buf (q mod rows + ld * (q / rows))) (seq 0 (rows * cols)).
(* As xGESVD does in svd_d.cc:97-102 *)
Definition store {A} (ld rows cols : nat) (f : nat -> nat -> A) (buf : list A) : outcome (list A) :=
  for_ cols (fun k buf => for_ rows (fun i buf => wr buf (i + ld * k) (f i k)) buf) buf.

(* the codes 'A', 'S', 'N', svd_d.cc:74-87 *)
Inductive job := JobA | JobS | JobN.
(* svd_d.cc:72-85 *)
Definition job_size (j : job) (full small : nat) : nat := match j with JobA => full | JobS => small | JobN => 0 end.

Section Svd.
Context {A R : Type}.
(* LAPACK: xGESVD(jobu, jobvt, m, n, a): info, s, U, VT *)
Context (gesvd : job -> job -> nat -> nat -> list A -> Z * (nat -> R) * (nat -> nat -> A) * (nat -> nat -> A)).

(* the call, with the checks of its arguments and what it stores; a wrong
   leading dimension stops in xerbla, svd_d.cc:97-102 *)
Definition call_gesvd (jobu jobv : job) (m n : nat) (a : list A) (lda : nat) (s : list R) (u : list A) (ldu : nat) (v : list A) (ldv : nat) :
  outcome (Z * list R * list A * list A) :=
  let k := Nat.min m n in
  _ <- assert_ (Nat.max 1 m <=? lda) ;;
  _ <- assert_ ((1 <=? ldu) && (match jobu with JobN => true | _ => m <=? ldu end)) ;;
  _ <- assert_ ((1 <=? ldv) && (job_size jobv n k <=? ldv)) ;;
  al <- load lda m n a ;;
  let '(info, s', U, VT) := gesvd jobu jobv m n al in
  s <- for_ k (fun i s => wr s i (s' i)) s ;;
  u <- store ldu m (job_size jobu m k) U u ;;
  v <- store ldv (job_size jobv n k) n VT v ;;
  Ok (info, s, u, v).

Context (junk : nat -> A) (junkr : nat -> R).
(* svd(A, U, VT, economic), svd_d.cc:49-105, svd_z.cc:44-103.  [wantU] and
   [wantV] say which of the pointers are not null.  [info] is not looked at. *)
Definition svd (t : tensor A) (wantU wantV economic : bool) : outcome (tensor R * option (tensor A) * option (tensor A)) :=
  rows <- dimension t 0 ;;
  _ <- assert_ (0 <? rows) ;;
  columns <- dimension t 1 ;;
  _ <- assert_ (0 <? columns) ;;
  _ <- assert_ (length (dims t) =? 2) ;;
  let m := rows in let n := columns in
  let k := Nat.min m n in
  let output := new_tensor junkr [k] in
  let foo := alloc junk 1 in
  let U := if wantU then Some (new_tensor junk [m; if economic then k else m]) else None in
  let VT := if wantV then Some (new_tensor junk [if economic then k else n; n]) else None in
  let j (want : bool) := if want then if economic then JobS else JobA else JobN in
  let ldu := if wantU then m else 1 in
  let ldv := if wantV then if economic then k else n else 1 in
  let buf o := match o with Some v => data v | None => foo end in
  '(info, s, u, v) <- call_gesvd (j wantU) (j wantV) m n (data t) m (data output) (buf U) ldu (buf VT) ldv ;;
  Ok (mkT (dims output) s, option_map (fun U => mkT (dims U) u) U, option_map (fun VT => mkT (dims VT) v) VT).

(* LAPACK: xSYEV, xHEEV(jobz, 'U', n, a): info, w, and what replaces a *)
Context (heev : bool -> nat -> list A -> Z * (nat -> R) * (nat -> nat -> A)).
(* the call, eig_sym_d.cc:70-75 *)
Definition call_heev (jobz : bool) (n : nat) (a : list A) (lda : nat) (w : list R) : outcome (Z * list R * list A) :=
  _ <- assert_ (Nat.max 1 n <=? lda) ;;
  al <- load lda n n a ;;
  let '(info, w', V) := heev jobz n al in
  w <- for_ n (fun i w => wr w i (w' i)) w ;;
  a <- store lda n n V a ;;
  Ok (info, w, a).

(* eig_sym(A, V), eig_sym_d.cc:43-80, eig_sym_z.cc:43-84; [wantV] says whether
   the pointer is not null *)
Definition eig_sym (t : tensor A) (wantV : bool) : outcome (tensor R * option (tensor A)) :=
  rows <- dimension t 0 ;;
  _ <- assert_ (0 <? rows) ;;
  _ <- assert_ (length (dims t) =? 2) ;;
  columns <- dimension t 1 ;;
  _ <- assert_ (rows =? columns) ;;
  let n := rows in
  let aux := t in
  let output := new_tensor junkr [n] in
  '(info, w, a) <- call_heev wantV n (data aux) n (data output) ;;
  Ok (mkT (dims output) w, if wantV then Some (mkT (dims aux) a) else None).
End Svd.

(* svd(A, &U, &VT, economic), svd_d.cc:49-105, with both pointers given, as in
   block_svd.hpp:71 and solve_with_svd_d.cc:40 *)
Definition svd_both {A R} gesvd (junk : nat -> A) (junkr : nat -> R) (t : tensor A) (economic : bool) : outcome (tensor R * tensor A * tensor A) :=
  '(s, U, VT) <- svd gesvd junk junkr t true true economic ;;
  match U, VT with Some U, Some VT => Ok (s, U, VT) | _, _ => UB end.

(* Model of eig and of eigs for small matrices, src/linalg/eig_d.cc, eig_z.cc,
   src/arpack/eigs_d.cc, eigs_z.cc, arpack_t.cc *)
From Verif Require Import Base Spec M_Tensor M_Arith M_Range M_Fold M_Reduce M_BlockSvd.
Local Open Scope nat_scope.

Section Eig.
(* R: real numbers; C: complex numbers, built by [mk] from two parts *)
Context {R C : Type} (mk : R -> R -> C) (zero : R) (neg : R -> R) (nonzero : R -> bool).
(* LAPACK: dgeev(jobvl, jobvr, n, a): wr, wi, vl, vr.  The workspace query and
   the error flag, which the code does not read, are left out. *)
Context (dgeev : bool -> bool -> nat -> list R -> list R * list R * list R * list R).

(* columns i and i+1 of the vectors, eig_d.cc:112-119, 120-127 *)
Definition eig_columns (n i : nat) (real : option (tensor R)) (v : option (tensor C)) : outcome (option (tensor C)) :=
  match real, v with
  | Some real, Some v =>
    v <- for_ n (fun j v =>
      re <- get2 real (Z.of_nat j) (Z.of_nat i) ;;
      im <- get2 real (Z.of_nat j) (Z.of_nat i + 1) ;;
      v <- set2 v (Z.of_nat j) (Z.of_nat i) (mk re im) ;;
      set2 v (Z.of_nat j) (Z.of_nat i + 1) (mk re (neg im))) v ;;
    Ok (Some v)
  | _, _ => Ok v
  end.

(* the loop of eig_d.cc:106-130, from i; at most [rest] more iterations *)
Fixpoint eig_loop (n rest i : nat) (real imag : list R) (realR realL : option (tensor R))
  (st : tensor C * option (tensor C) * option (tensor C)) : outcome (tensor C * option (tensor C) * option (tensor C)) :=
  match rest with
  | 0 => Ok st
  | S rest =>
    if i <? n then
      im <- rd imag i ;;
      if nonzero im then
        let '(output, R_, L_) := st in
        re <- rd real i ;;
        output <- set1 output (Z.of_nat i) (mk re im) ;;
        output <- set1 output (Z.of_nat i + 1) (mk re (neg im)) ;;
        L_ <- eig_columns n i realL L_ ;;
        R_ <- eig_columns n i realR R_ ;;
        eig_loop n rest (S (S i)) real imag realR realL (output, R_, L_)
      else eig_loop n rest (S i) real imag realR realL st
    else Ok st
  end.

(* eig(RTensor, R, L), eig_d.cc:44-134.  [wantR] and [wantL] say which of the
   pointers are not null; the result holds the eigenvalues, R and L. *)
Definition eig (A : tensor R) (wantR wantL : bool) : outcome (tensor C * option (tensor C) * option (tensor C)) :=
  rows <- dimension A 0 ;;
  _ <- assert_ (0 <? rows) ;;
  _ <- assert_ (length (dims A) =? 2) ;;
  columns <- dimension A 1 ;;
  _ <- assert_ (rows =? columns) ;;
  let n := rows in
  let '(wr, wi, vl, vr) := dgeev wantL wantR n (data A) in
  let realL := if wantL then Some (mkT [n; n] vl) else None in
  let realR := if wantR then Some (mkT [n; n] vr) else None in
  let to_c := to_complex (fun x => mk x zero) in
  eig_loop n n 0 wr wi realR realL (to_c (mkT [n] wr), option_map to_c realR, option_map to_c realL).

(* ---- complex matrices ---- *)
(* LAPACK: zgeev(jobvl, jobvr, n, a): w, vl, vr *)
Context (zgeev : bool -> bool -> nat -> list C -> list C * list C * list C).

(* eig(CTensor, R, L), eig_z.cc:46-104 *)
Definition eig_z (A : tensor C) (wantR wantL : bool) : outcome (tensor C * option (tensor C) * option (tensor C)) :=
  rows <- dimension A 0 ;;
  _ <- assert_ (0 <? rows) ;;
  _ <- assert_ (length (dims A) =? 2) ;;
  columns <- dimension A 1 ;;
  _ <- assert_ (rows =? columns) ;;
  let n := rows in
  let '(w, vl, vr) := zgeev wantL wantR n (data A) in
  Ok (mkT [n] w, if wantR then Some (mkT [n; n] vr) else None, if wantL then Some (mkT [n; n] vl) else None).
End Eig.

Section Eigs.
(* E: elements of the matrix; C: complex numbers; R: real numbers.  [proj] is
   the identity for complex matrices and the real part for real ones. *)
Context {E R C : Type} (proj : C -> E) (real_problem : bool).
Context (re im modulus : C -> R) (neg : R -> R) (lt : R -> R -> bool).
Context (std_sort_ix : (nat -> nat -> bool) -> list nat -> list nat).
Context (junk : nat -> C).
(* the iterative solver, for the matrices of more than four rows *)
Context (arpack : tensor E -> nat -> bool -> outcome (tensor E * option (tensor E))).

(* EigType, linalg.h:141-151.  Other integers are left out. *)
Inductive eigtype := LargestMagnitude | SmallestMagnitude | LargestReal | SmallestReal | LargestImaginary | SmallestImaginary.

(* sort_values, arpack_t.cc:308-333 *)
Definition sort_key (t : eigtype) (x : C) : R :=
  match t with
  | LargestReal => neg (re x)
  | LargestMagnitude => neg (modulus x)
  | SmallestMagnitude => modulus x
  | LargestImaginary => neg (im x)
  | SmallestImaginary => im x
  | SmallestReal => re x
  end.
(* sort_values, arpack_t.cc:308-333 *)
Definition sort_values (values : tensor C) (t : eigtype) : list nat :=
  sort_indices lt std_sort_ix (mkT (dims values) (map (sort_key t) (data values))) false.

(* the first checks of the constructor of ARPACK, arpack_t.cc:25-70 *)
Definition arpack_checks (n : nat) (t : eigtype) (nev : nat) : outcome unit :=
  _ <- assert_ (negb (real_problem && match t with LargestImaginary | SmallestImaginary => true | _ => false end)) ;;
  assert_ (negb ((nev =? 0) || (n - 1 <? nev))).

(* eigs(RTensor, ...), eigs_d.cc:28-87, and eigs(CTensor, ...), eigs_z.cc:32-91.
   [eig] is the routine eig(A, R, L) for the matrix; the eigenvectors are asked
   for with its third argument (eigs_d.cc:52).  The flag *converged is left out. *)
Definition eigs (eig : tensor E -> bool -> bool -> outcome (tensor C * option (tensor C) * option (tensor C)))
  (fuel : nat) (A : tensor E) (t : eigtype) (neig : nat) (want : bool) : outcome (tensor E * option (tensor E)) :=
  n <- dimension A 1 ;;
  _ <- assert_ (length (dims A) =? 2) ;;
  rows <- dimension A 0 ;;
  _ <- assert_ (rows =? n) ;;
  _ <- assert_ (negb ((n <? neig) || (neig =? 0))) ;;
  if n <=? 4 then
    '(values, _, vectors) <- eig A false want ;;
    let ndx := sort_values values t in
    let ndx_out := firstn neig ndx in
    vectors <- match vectors with
               | Some v => v <- slice_t fuel junk v [SFull; ixs ndx_out] ;; Ok (Some (mkT (dims v) (map proj (data v))))
               | None => Ok None
               end ;;
    v <- slice_t fuel junk values [ixs ndx_out] ;;
    Ok (mkT (dims v) (map proj (data v)), vectors)
  else
    _ <- arpack_checks n t neig ;;
    arpack A neig want.
End Eigs.

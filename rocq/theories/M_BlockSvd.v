(* Model of do_block_svd, src/linalg/block_svd.hpp *)
From Verif Require Import Base Spec M_Tensor M_Arith M_Range M_Reduce M_Blocks.
Local Open Scope nat_scope.

Section BlockSvd.
(* A: elements; R: real numbers.  [inj] is the conversion of a real number. *)
Context {A R T : Type} (N : numops A) (rzero : R) (lt : R -> R -> bool).
Context (absv : A -> R) (divr : A -> R -> A).
Context (significant : T -> A -> bool) (zero_tol : T).
Context (std_sort_ix : (nat -> nat -> bool) -> list nat -> list nat).
(* linalg::svd(A, &U, &VT, economic): s, U, VT *)
Context (svd : tensor A -> bool -> outcome (tensor R * tensor A * tensor A)).
Context (junk : nat -> A) (junkr : nat -> R) (jb : nat -> Z).

(* the conversion of a slice to a Tensor, from M_Range.slice. Used in block_svd.hpp:68 *)
Definition slice_t {X} (fuel : nat) (jx : nat -> X) (t : tensor X) (ss : list rspec) : outcome (tensor X) :=
  '(ds, d) <- slice fuel jx t ss ;; Ok (mkT (map Z.to_nat ds) d).
(* range(Indices), block_svd.hpp:68 *)
Definition ixs (l : list nat) : rspec := SIndex (map Z.of_nat l).

(* one block, block_svd.hpp:63-92; state: s, U, VT, sndx.  Both pU and pVT are
   given. *)
Definition block_step (fuel : nat) (A0 : tensor A) (economic : bool) (block_rows block_cols : list (list nat)) (b : nat)
  (st : tensor R * tensor A * tensor A * nat) : outcome (tensor R * tensor A * tensor A * nat) :=
  let '(s, U, VT, sndx) := st in
  rows <- rd block_rows b ;;
  cols <- rd block_cols b ;;
  m <- slice_t fuel junk A0 [ixs rows; ixs cols] ;;
  if 1 <? length (data m) then
    '(stemp, Utemp, Vtemp) <- svd m economic ;;
    let slast := (Z.of_nat sndx + Z.of_nat (length (data stemp)) - 1)%Z in
    let slots := SStep (Z.of_nat sndx) slast 1 in
    s <- assign_tensor fuel s [slots] stemp ;;
    U <- assign_tensor fuel U [ixs rows; slots] Utemp ;;
    VT <- assign_tensor fuel VT [slots; ixs cols] Vtemp ;;
    Ok (s, U, VT, sndx + length (data stemp))
  else
    row <- rd rows 0 ;;
    col <- rd cols 0 ;;
    x <- rd (data m) 0 ;;
    let aux := absv x in
    s <- set1 s (Z.of_nat sndx) aux ;;
    U <- set2 U (Z.of_nat row) (Z.of_nat sndx) (none_ N) ;;
    VT <- set2 VT (Z.of_nat sndx) (Z.of_nat col) (divr x aux) ;;
    Ok (s, U, VT, S sndx).

(* do_block_svd, block_svd.hpp:29-105, with both pU and pVT given.  The case
   nblocks == 1 of lines 44-51 is never reached: find_blocks has then returned
   false. *)
Definition block_svd (fuel : nat) (A0 : tensor A) (economic : bool) : outcome (tensor R * tensor A * tensor A) :=
  rows <- dimension A0 0 ;;
  cols <- dimension A0 1 ;;
  if negb (rows =? cols) && negb economic then svd A0 economic else
  let minrc := Nat.min rows cols in
  '(nblocks, r) <- find_blocks significant zero_tol jb junk A0 zero_tol ;;
  match r with
  | None => svd A0 economic
  | Some (block_rows, block_cols) =>
    s <- fill_with (new_tensor junkr [minrc]) rzero ;;
    U <- zeros N junk [rows; if economic then minrc else rows] ;;
    VT <- zeros N junk [if economic then minrc else cols; cols] ;;
    '(s, U, VT, _) <- for_ (Z.to_nat nblocks) (block_step fuel A0 economic block_rows block_cols) (s, U, VT, 0) ;;
    let ndx := sort_indices lt std_sort_ix s true in
    s <- slice_t fuel junkr s [ixs ndx] ;;
    U <- slice_t fuel junk U [SFull; ixs ndx] ;;
    VT <- slice_t fuel junk VT [ixs ndx; SFull] ;;
    Ok (s, U, VT)
  end.
End BlockSvd.

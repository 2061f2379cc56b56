(* Model of do_block_svd, src/linalg/block_svd.hpp, with any choice of outputs:
   pU, pVT or both may be null.  An output that is not asked for is None. *)
From Verif Require Import Base Spec M_Tensor M_Arith M_Range M_Reduce M_Blocks M_BlockSvd.
Local Open Scope nat_scope.

Section BlockSvdOut.
Context {A R T : Type} (N : numops A) (rzero : R) (lt : R -> R -> bool).
Context (absv : A -> R) (divr : A -> R -> A).
Context (significant : T -> A -> bool) (zero_tol : T).
Context (std_sort_ix : (nat -> nat -> bool) -> list nat -> list nat).
(* linalg::svd(A, pU, pVT, economic), with pU != 0 and pVT != 0: s, *pU, *pVT *)
Context (svd : tensor A -> bool -> bool -> bool -> outcome (tensor R * option (tensor A) * option (tensor A))).
Context (junk : nat -> A) (junkr : nat -> R) (jb : nat -> Z).

(* if p is given, its value x becomes f x, as in block_svd.hpp:74-79, 86-91, 99-102 *)
Definition if_given {X} (p : option X) (f : X -> outcome X) : outcome (option X) :=
  match p with None => Ok None | Some x => y <- f x ;; Ok (Some y) end.
(* what *p holds; only used when p is given. Used in block_svd.hpp:75, 78 *)
Definition held {X} (p : option X) : outcome X := match p with Some x => Ok x | None => UB end.
(* pUtemp = pU? &Utemp : 0, block_svd.hpp:64-65 *)
Definition given {X} (p : option X) : bool := match p with Some _ => true | None => false end.

(* one block, block_svd.hpp:66-94; state: s, *pU, *pVT, sndx *)
Definition out_step (fuel : nat) (A0 : tensor A) (economic : bool) (block_rows block_cols : list (list nat)) (b : nat)
  (st : tensor R * option (tensor A) * option (tensor A) * nat) : outcome (tensor R * option (tensor A) * option (tensor A) * nat) :=
  let '(s, pU, pVT, sndx) := st in
  rows <- rd block_rows b ;;
  cols <- rd block_cols b ;;
  m <- slice_t fuel junk A0 [ixs rows; ixs cols] ;;
  if 1 <? length (data m) then
    '(stemp, Utemp, Vtemp) <- svd m (given pU) (given pVT) economic ;;
    let slast := (Z.of_nat sndx + Z.of_nat (length (data stemp)) - 1)%Z in
    let slots := SStep (Z.of_nat sndx) slast 1 in
    s <- assign_tensor fuel s [slots] stemp ;;
    pU <- if_given pU (fun U => x <- held Utemp ;; assign_tensor fuel U [ixs rows; slots] x) ;;
    pVT <- if_given pVT (fun VT => x <- held Vtemp ;; assign_tensor fuel VT [slots; ixs cols] x) ;;
    Ok (s, pU, pVT, sndx + length (data stemp))
  else
    row <- rd rows 0 ;;
    col <- rd cols 0 ;;
    x <- rd (data m) 0 ;;
    let aux := absv x in
    s <- set1 s (Z.of_nat sndx) aux ;;
    pU <- if_given pU (fun U => set2 U (Z.of_nat row) (Z.of_nat sndx) (none_ N)) ;;
    pVT <- if_given pVT (fun VT => set2 VT (Z.of_nat sndx) (Z.of_nat col) (divr x aux)) ;;
    Ok (s, pU, pVT, S sndx).

(* do_block_svd, block_svd.hpp:29-105; [wantU] is pU != 0, [wantVT] is pVT != 0 *)
Definition block_svd_out (fuel : nat) (A0 : tensor A) (wantU wantVT economic : bool) : outcome (tensor R * option (tensor A) * option (tensor A)) :=
  rows <- dimension A0 0 ;;
  cols <- dimension A0 1 ;;
  if negb (rows =? cols) && negb economic then svd A0 wantU wantVT economic else
  let minrc := Nat.min rows cols in
  '(nblocks, r) <- find_blocks significant zero_tol jb junk A0 zero_tol ;;
  match r with
  | None => svd A0 wantU wantVT economic
  | Some (block_rows, block_cols) =>
    s <- fill_with (new_tensor junkr [minrc]) rzero ;;
    pU <- (if wantU then U <- zeros N junk [rows; if economic then minrc else rows] ;; Ok (Some U) else Ok None) ;;
    pVT <- (if wantVT then VT <- zeros N junk [if economic then minrc else cols; cols] ;; Ok (Some VT) else Ok None) ;;
    '(s, pU, pVT, _) <- for_ (Z.to_nat nblocks) (out_step fuel A0 economic block_rows block_cols) (s, pU, pVT, 0) ;;
    let ndx := sort_indices lt std_sort_ix s true in
    s <- slice_t fuel junkr s [ixs ndx] ;;
    pU <- if_given pU (fun U => slice_t fuel junk U [SFull; ixs ndx]) ;;
    pVT <- if_given pVT (fun VT => slice_t fuel junk VT [ixs ndx; SFull]) ;;
    Ok (s, pU, pVT)
  end.
End BlockSvdOut.

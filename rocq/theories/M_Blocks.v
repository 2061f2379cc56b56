(* Model of find_blocks, src/linalg/find_blocks.hpp *)
From Verif Require Import Base Spec M_Tensor M_Permute.
Local Open Scope Z_scope.

(* const index empty = ~aux, find_blocks.hpp:75-76 *)
Definition empty : Z := -1.

(* replace_integer, find_blocks.hpp:30-36 *)
Definition replace_integer (N : nat) (v : list Z) (old_value new_value : Z) : outcome (list Z) :=
  for_ N (fun k v => x <- rd v k ;; if x =? old_value then wr v k new_value else Ok v) v.

Section Find.
(* significant tol x: abs(real(x)) + abs(imag(x)) > tol, line 91 *)
Context {A T : Type} (significant : T -> A -> bool) (zero_tol : T).

(* the variables of the loops, find_blocks.hpp:73-89 *)
Record fb_state := mkFB { row_block : list Z; col_block : list Z; fb_nblocks : Z; curr_block : Z; fb_set : bool }.

(* the inner loop, find_blocks.hpp:90-104.  [data] advances once per step. *)
Definition fb_row (d : list A) (tol : T) (N col row : nat) (st : fb_state) : outcome fb_state :=
  x <- rd d (row + N * col) ;;
  if significant tol x then
    new_block <- rd (row_block st) row ;;
    if new_block =? empty then
      rb <- wr (row_block st) row (curr_block st) ;;
      Ok (mkFB rb (col_block st) (fb_nblocks st) (curr_block st) true)
    else if negb (new_block =? curr_block st) then
      rb <- replace_integer N (row_block st) (curr_block st) new_block ;;
      cb <- replace_integer col (col_block st) (curr_block st) new_block ;;
      Ok (mkFB rb cb (fb_nblocks st - 1) new_block true)
    else Ok (mkFB (row_block st) (col_block st) (fb_nblocks st) (curr_block st) true)
  else Ok st.

(* the outer loop, find_blocks.hpp:84-111; state: row_block, col_block, nblocks *)
Definition fb_col (d : list A) (tol : T) (N col : nat) (s : list Z * list Z * Z) : outcome (list Z * list Z * Z) :=
  let '(rb, cb, nb) := s in
  st <- for_ N (fb_row d tol N col) (mkFB rb cb nb (Z.of_nat col) false) ;;
  if fb_set st then
    cb <- wr (col_block st) col (curr_block st) ;; Ok (row_block st, cb, fb_nblocks st + 1)
  else
    cb <- wr (col_block st) col empty ;; Ok (row_block st, cb, fb_nblocks st).

(* the members of a block, find_blocks.hpp:131-137 and 142-147: buffer, and
   for the columns their label is erased *)
Definition take_cols (M : nat) (block : Z) (cb : list Z) : outcome (list nat * list Z) :=
  for_ M (fun c s =>
    let '(buf, cb) := s in
    x <- rd cb c ;;
    if x =? block then cb <- wr cb c empty ;; Ok (buf ++ [c], cb) else Ok (buf, cb)) ([], cb).
(* find_blocks.hpp:142-147 *)
Definition take_rows (N : nat) (block : Z) (rb : list Z) : outcome (list nat) :=
  for_ N (fun r buf => x <- rd rb r ;; if x =? block then Ok (buf ++ [r]) else Ok buf) [].

(* the second pass, find_blocks.hpp:124-153.  buffer has max(N,M) places, enough
   for either list, so it is modelled by a growing list.  new Indices[nblocks]
   with a negative number is UB here. *)
Definition fb_extract (N M : nat) (rb cb : list Z) (nb : Z) : outcome (list (list nat) * list (list nat)) :=
  if nb <? 0 then UB else
  let fresh := repeat ([] : list nat) (Z.to_nat nb) in
  '(_, _, block_rows, block_cols) <- for_ M (fun col s =>
     let '(b, cb, block_rows, block_cols) := s in
     block <- rd cb col ;;
     if block =? empty then Ok s else
     '(cs, cb) <- take_cols M block cb ;;
     _ <- assert_ (negb (length cs =? 0)%nat) ;;
     block_cols <- wr block_cols b cs ;;
     rs <- take_rows N block rb ;;
     _ <- assert_ (negb (length rs =? 0)%nat) ;;
     block_rows <- wr block_rows b rs ;;
     Ok (S b, cb, block_rows, block_cols)) (0%nat, cb, fresh, fresh) ;;
  Ok (block_rows, block_cols).

(* find_blocks when N <= M.  Result: nblocks and, when the function returns
   true, the rows and columns of the blocks.  [junk]: col_block is not
   initialised (find_blocks.hpp:74). *)
Definition find_blocks_wide (junk : nat -> Z) (A0 : tensor A) (tol : T) (N M : nat)
  : outcome (Z * option (list (list nat) * list (list nat))) :=
  let row_block := repeat empty N in
  let col_block := alloc junk M in
  '(rb, cb, nb) <- for_ M (fb_col (data A0) tol N) (row_block, col_block, 0) ;;
  if nb =? 1 then Ok (nb, None) else
  '(r, c) <- fb_extract N M rb cb nb ;; Ok (nb, Some (r, c)).

(* find_blocks, find_blocks.hpp:59-158.  The recursive call (66-67) is made on a
   matrix with fewer rows than columns, so it does not recurse again; it does
   not pass tol on, so that the default 0.0 is used. *)
Definition find_blocks (junk : nat -> Z) (jt : nat -> A) (A0 : tensor A) (tol : T)
  : outcome (Z * option (list (list nat) * list (list nat))) :=
  N <- dimension A0 0 ;;
  M <- dimension A0 1 ;;
  if (M <? N)%nat then
    At <- transpose jt A0 ;;
    '(nb, r) <- find_blocks_wide junk At zero_tol M N ;;
    Ok (nb, match r with Some (rows, cols) => Some (cols, rows) | None => None end)
  else find_blocks_wide junk A0 tol N M.
End Find.

(* Model of the sparse matrices.
   include/tensor/sparse.h, include/tensor/detail/sparse_base.hpp, src/sparse/
   The dimensions, row starts and columns, of type index, are natural numbers
   here; the coordinates given to the constructor from coordinate lists are
   therefore not negative.  Vector::at and operator[] are unchecked
   (vector.h:60-65): rd and wr. *)
From Verif Require Import Base Spec S_Reduce S_Sparse M_Tensor M_Arith M_Fold.

Section Sparse.
Context {A : Type} (N : numops A).
(* x == number_zero<elt_t>() *)
Context (isz : A -> bool).

(* safe_size, sparse_base.hpp:36-45 *)
Definition safe_size (nonzero rows cols : nat) : outcome nat :=
  if (rows =? 0) || (cols =? 0) then Ok 0 else
  _ <- assert_ (nonzero / rows <=? cols) ;; Ok nonzero.

(* Sparse(rows, cols, nonzero), sparse_base.hpp:54-62; the space for the entries
   is uninitialised *)
Definition new_sparse (jcol : nat -> nat) (jdata : nat -> A) (rows cols nonzero : nat) : outcome (sparse A) :=
  n <- safe_size nonzero rows cols ;;
  Ok (mkS rows cols (repeat 0 (rows + 1)) (alloc jcol n) (alloc jdata n)).

(* Sparse(dims, row_start, column, data), sparse_base.hpp:79-85 *)
Definition from_parts (rows cols : nat) (rs col : list nat) (d : list A) : outcome (sparse A) :=
  _ <- assert_ (length rs =? rows + 1) ;; Ok (mkS rows cols rs col d).

(* length(), sparse.h:77 *)
Definition slength (s : sparse A) : outcome nat :=
  if srows s =? 0 then Ok 0 else rd (row_start s) (srows s).

(* row_start[i+1] - row_start[i], counted down to zero by the loops that use it.
   As in sparse_base.hpp:218 *)
Definition span (rs : list nat) (i : nat) : outcome nat :=
  b <- rd rs (S i) ;; a <- rd rs i ;; if b <? a then UB else Ok (b - a).

(* ---- from coordinates ---- *)

(* sparse_triplet::operator<, sparse_base.hpp:64-77 *)
Definition triplet_lt (x y : nat * nat * A) : bool :=
  let '(r1, c1, _) := x in let '(r2, c2, _) := y in
  if r1 <? r2 then true else if r1 =? r2 then c1 <? c2 else false.

(* first loop, sparse_base.hpp:99-109.  State: nrows, ncols, sorted_data *)
Definition coo_collect (rows cols : list nat) (d : list A) (l nrows ncols : nat)
  : outcome (nat * nat * list (nat * nat * A)) :=
  for_ l (fun i '(nrows, ncols, sorted_data) =>
    r <- rd rows i ;; c <- rd cols i ;; x <- rd d i ;;
    let nrows := Nat.max nrows r in
    let ncols := Nat.max ncols c in
    if negb (isz x) then Ok (nrows, ncols, sorted_data ++ [(r, c, x)])
    else Ok (nrows, ncols, sorted_data)) (nrows, ncols, []).

(* while (last_row < upto) row_start_.at(++last_row) = j, sparse_base.hpp:126-128
   and 134-136.  The state has last_row + 1, because last_row starts at -1. *)
Definition mark_rows (upto j : nat) (st : list nat * nat) : outcome (list nat * nat) :=
  for_ (S upto - snd st) (fun _ '(rs, lr1) => rs <- wr rs lr1 j ;; Ok (rs, S lr1)) st.

(* second loop, sparse_base.hpp:120-133.  State: (row_start_, last_row + 1),
   column_, data_, j.  last_col is 0 throughout. *)
Definition coo_fill (sorted : list (nat * nat * A)) (st : (list nat * nat) * list nat * list A * nat)
  : outcome ((list nat * nat) * list nat * list A * nat) :=
  for_ (length sorted) (fun i '(rsl, col, dat, j) =>
    '(r, c, x) <- rd sorted i ;;
    let push rsl :=
      col <- wr col j c ;; dat <- wr dat j x ;; Ok (rsl, col, dat, S j) in
    if S r =? snd rsl then (if c =? 0 then Ok (rsl, col, dat, j) else push rsl)
    else rsl <- mark_rows r j rsl ;; push rsl) st.

(* Sparse(rows, cols, data, nrows, ncols), sparse_base.hpp:87-137 *)
Definition of_coo (std_sort : (nat * nat * A -> nat * nat * A -> bool) -> list (nat * nat * A) -> list (nat * nat * A))
    (jcol : nat -> nat) (jdata : nat -> A) (rows cols : list nat) (d : list A) (nrows ncols : nat) : outcome (sparse A) :=
  let l := length rows in
  _ <- assert_ (length cols =? l) ;;
  _ <- assert_ (length d =? l) ;;
  '(nrows, ncols, sorted_data) <- coo_collect rows cols d l nrows ncols ;;
  let sorted_data := std_sort triplet_lt sorted_data in
  let l := length sorted_data in
  '(rsl, col, dat, j) <- coo_fill sorted_data ((repeat 0 (nrows + 1), 0), alloc jcol l, alloc jdata l, 0) ;;
  '(rs, _) <- mark_rows nrows j rsl ;;
  Ok (mkS nrows ncols rs col dat).

(* ---- dense and sparse ---- *)

(* number_of_nonzero, sparse_base.hpp:160-172 *)
Definition number_of_nonzero (d : list A) : nat :=
  fold_left (fun counter x => if negb (isz x) then S counter else counter) d 0.

(* Sparse(const Tensor &), sparse_base.hpp:174-202.  dims_ is copied; a tensor of
   rank 0 or 1 stops at rows() or columns(), one of rank above 2 in t(r,c), which
   is modelled by the check on the rank. *)
Definition of_dense (jrs jcol : nat -> nat) (jdata : nat -> A) (t : tensor A) : outcome (sparse A) :=
  nrows <- dimension t 0 ;;
  ncols <- dimension t 1 ;;
  let nonzero := number_of_nonzero (data t) in
  rs <- wr (alloc jrs (nrows + 1)) 0 0 ;;
  '(rs, col, dat, k) <- for_ nrows (fun r '(rs, col, dat, k) =>
    '(col, dat, k) <- for_ ncols (fun c '(col, dat, k) =>
      v <- get2 t (Z.of_nat r) (Z.of_nat c) ;;
      if negb (isz v) then dat <- wr dat k v ;; col <- wr col k c ;; Ok (col, dat, S k)
      else Ok (col, dat, k)) (col, dat, k) ;;
    rs <- wr rs (S r) k ;; Ok (rs, col, dat, k)) (rs, alloc jcol nonzero, alloc jdata nonzero, 0) ;;
  Ok (mkS nrows ncols rs col dat).

(* full, sparse_base.hpp:204-224.  State: output, position in column and data *)
Definition full (junk : nat -> A) (s : sparse A) : outcome (tensor A) :=
  let output := new_tensor junk [srows s; scols s] in
  if (srows s =? 0) || (scols s =? 0) then Ok output else
  output <- fill_with output (nzero N) ;;
  '(output, _) <- for_ (srows s) (fun i st =>
    l <- span (row_start s) i ;;
    for_ l (fun _ '(output, p) =>
      c <- rd (column s) p ;; x <- rd (sdata s) p ;;
      output <- set2 output (Z.of_nat i) (Z.of_nat c) x ;; Ok (output, S p)) st) (output, 0) ;;
  Ok output.

(* operator()(row, col), sparse_base.hpp:275-291; the loop from ndx1 over n
   entries, left by return or break *)
Fixpoint sget_loop (s : sparse A) (col ndx1 n : nat) : outcome A :=
  match n with
  | 0 => Ok (nzero N)
  | S n =>
    this_col <- rd (column s) ndx1 ;;
    if this_col =? col then rd (sdata s) ndx1
    else if col <? this_col then Ok (nzero N)
    else sget_loop s col (S ndx1) n
  end.
(* operator()(row, col), sparse_base.hpp:275-291 *)
Definition sget (s : sparse A) (row col : Z) : outcome A :=
  row <- normalize_index row (srows s) ;;
  col <- normalize_index col (scols s) ;;
  ndx1 <- rd (row_start s) row ;; ndx2 <- rd (row_start s) (S row) ;;
  sget_loop s col ndx1 (ndx2 - ndx1).

(* eye, sparse_base.hpp:238-252; the columns are 0, ..., nel-1 *)
Definition seye (jrs : nat -> nat) (jdata : nat -> A) (rows columns : nat) : outcome (sparse A) :=
  let nel := Nat.min rows columns in
  d <- fill_with (new_tensor jdata [nel]) (none_ N) ;;
  rs <- for_ (rows + 1) (fun i rs => wr rs i (Nat.min i nel)) (alloc jrs (rows + 1)) ;;
  from_parts rows columns rs (seq 0 nel) (data d).

(* ---- arithmetic ---- *)

(* operator- (sparse_minus_t1_double.cc:24-28), operator* and operator/ by a
   number (sparse_times_tn_double.cc:24-28, sparse_times_nt_double.cc:24-28,
   sparse_divide_tn_double.cc:24-28 and the files for complex numbers), conj, real,
   imag of a complex matrix (sparse_conj.cc:24-28, sparse_real.cc:24-28,
   sparse_imag.cc:24-28), to_complex (sparse_d_to_z.cc:25-30), the conversion
   constructor (sparse.h:60-63): f is applied to the stored elements by the
   function for tensors *)
Definition smap {B} (junk : nat -> B) (f : A -> B) (s : sparse A) : outcome (sparse B) :=
  d <- unop f junk (mkT [length (sdata s)] (sdata s)) ;;
  _ <- assert_ (length (row_start s) =? srows s + 1) ;;
  Ok (mkS (srows s) (scols s) (row_start s) (column s) (data d)).

(* the variables of sparse_binop's loop, sparse_binop.hpp:41-63 *)
Record bstate := mkB {
  b_rows : nat;                       (* rows *)
  b_rs1 : nat; b_p1 : nat; b_l1 : nat; (* m1_row_start, m1_column = m1_data, l1 *)
  b_rs2 : nat; b_p2 : nat; b_l2 : nat;
  b_data : list A; b_col : list nat; b_k : nat;  (* output; out_data = out_column *)
  b_rs : list nat; b_r : nat }.       (* output row_start; out_row_start *)

(* one turn of the loop, sparse_binop.hpp:64-106; true when it breaks *)
Definition binop_step (op : A -> A -> A) (m1 m2 : sparse A) (st : bstate) : outcome (bool * bstate) :=
  let cols := scols m1 in
  c1 <- (if b_l1 st =? 0 then Ok cols else rd (column m1) (b_p1 st)) ;;
  c2 <- (if b_l2 st =? 0 then Ok cols else rd (column m2) (b_p2 st)) ;;
  let emit value c (st : bstate) :=
    if isz value then Ok (false, st) else
    d <- wr (b_data st) (b_k st) value ;; col <- wr (b_col st) (b_k st) c ;;
    Ok (false, mkB (b_rows st) (b_rs1 st) (b_p1 st) (b_l1 st) (b_rs2 st) (b_p2 st) (b_l2 st)
                   d col (S (b_k st)) (b_rs st) (b_r st)) in
  let adv1 (st : bstate) := mkB (b_rows st) (b_rs1 st) (S (b_p1 st)) (b_l1 st - 1) (b_rs2 st) (b_p2 st) (b_l2 st)
                   (b_data st) (b_col st) (b_k st) (b_rs st) (b_r st) in
  let adv2 (st : bstate) := mkB (b_rows st) (b_rs1 st) (b_p1 st) (b_l1 st) (b_rs2 st) (S (b_p2 st)) (b_l2 st - 1)
                   (b_data st) (b_col st) (b_k st) (b_rs st) (b_r st) in
  if c1 <? c2 then
    x <- rd (sdata m1) (b_p1 st) ;; emit (op x (nzero N)) c1 (adv1 st)
  else if c2 <? c1 then
    y <- rd (sdata m2) (b_p2 st) ;; emit (op (nzero N) y) c2 (adv2 st)
  else if c2 <? cols then
    x <- rd (sdata m1) (b_p1 st) ;; y <- rd (sdata m2) (b_p2 st) ;; emit (op x y) c1 (adv2 (adv1 st))
  else
    rs <- wr (b_rs st) (S (b_r st)) (b_k st) ;;
    let rows := b_rows st - 1 in
    let st := mkB rows (b_rs1 st) (b_p1 st) (b_l1 st) (b_rs2 st) (b_p2 st) (b_l2 st)
                  (b_data st) (b_col st) (b_k st) rs (S (b_r st)) in
    if rows =? 0 then Ok (true, st) else
    l1 <- span (row_start m1) (b_rs1 st) ;;
    l2 <- span (row_start m2) (b_rs2 st) ;;
    Ok (false, mkB rows (S (b_rs1 st)) (b_p1 st) l1 (S (b_rs2 st)) (b_p2 st) l2
                   (b_data st) (b_col st) (b_k st) rs (b_r st)).

(* the loop, sparse_binop.hpp:64-106 *)
Fixpoint binop_loop (fuel : nat) (op : A -> A -> A) (m1 m2 : sparse A) (st : bstate) : outcome bstate :=
  match fuel with
  | 0 => Hang
  | S fuel =>
    '(stop, st) <- binop_step op m1 m2 st ;;
    if stop : bool then Ok st else binop_loop fuel op m1 m2 st
  end.

(* sparse_binop, sparse_binop.hpp:27-113 (sparse_ops.hpp:82-168 is the same);
   operator+, -, * between matrices are its instances *)
Definition sparse_binop (fuel : nat) (jrs jcol : nat -> nat) (jdata : nat -> A) (op : A -> A -> A) (m1 m2 : sparse A)
  : outcome (sparse A) :=
  let rows := srows m1 in
  let cols := scols m1 in
  _ <- assert_ ((rows =? srows m2) && (cols =? scols m2)) ;;
  if (rows =? 0) || (cols =? 0) then new_sparse jcol jdata rows cols 0 else
  let max_size := length (sdata m1) + length (sdata m2) in
  l1 <- span (row_start m1) 0 ;;
  l2 <- span (row_start m2) 0 ;;
  rs <- wr (alloc jrs (rows + 1)) 0 0 ;;
  st <- binop_loop fuel op m1 m2 (mkB rows 1 0 l1 1 0 l2 (alloc jdata max_size) (alloc jcol max_size) 0 rs 0) ;;
  let j := b_k st in
  from_parts rows cols (b_rs st) (firstn j (b_col st)) (firstn j (b_data st)).

(* ---- transposition ---- *)

(* sparse_rows, sparse_rows.cc:24-34.  State: output, n *)
Definition sparse_rows (junk : nat -> nat) (rs col : list nat) : outcome (list nat) :=
  '(output, _) <- for_ (length rs - 1) (fun i st =>
    j <- rd rs i ;; j_end <- rd rs (S i) ;;
    for_ (j_end - j) (fun _ '(output, n) => output <- wr output n i ;; Ok (output, S n)) st)
  (alloc junk (length col), 0) ;;
  Ok output.

(* transpose, sparse_transpose_d.cc:26-34, sparse_transpose_z.cc:26-34 *)
Definition stranspose std_sort jrows jcol jdata (s : sparse A) : outcome (sparse A) :=
  rows <- sparse_rows jrows (row_start s) (column s) ;;
  of_coo std_sort jcol jdata (column s) rows (sdata s) (scols s) (srows s).

(* adjoint, sparse_adjoint_z.cc:26-34; for real matrices it is transpose
   (sparse_adjoint_d.cc:24-28) *)
Definition sadjoint std_sort jrows jcol jdata (s : sparse A) : outcome (sparse A) :=
  rows <- sparse_rows jrows (row_start s) (column s) ;;
  of_coo std_sort jcol jdata (column s) rows (map (nconj N) (sdata s)) (scols s) (srows s).

(* ---- Kronecker products ---- *)

(* do_kron(s2, s1), sparse_kron.hpp:26-64 *)
Definition sdo_kron (jrs jcol : nat -> nat) (jdata : nat -> A) (s2 s1 : sparse A) : outcome (sparse A) :=
  n1 <- slength s1 ;; n2 <- slength s2 ;;
  let number_nonzero := n1 * n2 in
  let total_rows := srows s1 * srows s2 in
  let total_cols := scols s1 * scols s2 in
  if number_nonzero =? 0 then new_sparse jcol jdata total_rows total_cols 0 else
  rs <- wr (alloc jrs (total_rows + 1)) 0 0 ;;
  '(rs, _, col, dat, k) <- for_ (srows s2) (fun l => for_ (srows s1) (fun k0 '(rs, q, col, dat, k) =>
    ja <- rd (row_start s2) l ;; jb <- rd (row_start s2) (S l) ;;
    '(col, dat, k) <- for_ (jb - ja) (fun j' st =>
      ia <- rd (row_start s1) k0 ;; ib <- rd (row_start s1) (S k0) ;;
      for_ (ib - ia) (fun i' '(col, dat, k) =>
        x <- rd (sdata s1) (ia + i') ;; y <- rd (sdata s2) (ja + j') ;;
        dat <- wr dat k (nmul N x y) ;;
        ci <- rd (column s1) (ia + i') ;; cj <- rd (column s2) (ja + j') ;;
        col <- wr col k (ci + scols s1 * cj) ;; Ok (col, dat, S k)) st) (col, dat, k) ;;
    rs <- wr rs q k ;; Ok (rs, S q, col, dat, k))) (rs, 1, alloc jcol number_nonzero, alloc jdata number_nonzero, 0) ;;
  from_parts total_rows total_cols rs col dat.

(* kron and kron2, sparse_kron_d.cc:26-34 *)
Definition skron jrs jcol jdata (s1 s2 : sparse A) := sdo_kron jrs jcol jdata s1 s2.
(* sparse_kron_d.cc:31-34 *)
Definition skron2 jrs jcol jdata (s1 s2 : sparse A) := skron jrs jcol jdata s2 s1.

(* kron2_sum, sparse_kron_d.cc:36-40 *)
Definition skron2_sum fuel jrs jcol jdata (s2 s1 : sparse A) : outcome (sparse A) :=
  n2 <- slength s2 ;; n1 <- slength s1 ;;
  e2 <- seye jrs jdata n2 n2 ;;
  x <- skron jrs jcol jdata s1 e2 ;;
  e1 <- seye jrs jdata n1 n1 ;;
  y <- skron jrs jcol jdata e1 s2 ;;
  sparse_binop fuel jrs jcol jdata (nadd N) x y.

(* ---- products with dense tensors ---- *)

(* mult_sp_t with k_len = 1, the only value used, mmult_sparse_tensor.h:47-57.
   State: dest buffer, position in it *)
Definition mult_sp_t (dest : list A) (s : sparse A) (vector : list A) (i_len j_len l_len : nat) : outcome (list A) :=
  '(dest, _) <- for_ l_len (fun l '(dest, d) =>
    '(dest, d, _) <- for_ i_len (fun i '(dest, d, m) =>
      accum <- rd dest d ;;
      n <- span (row_start s) i ;;
      '(accum, m) <- for_ n (fun _ '(accum, m) =>
        x <- rd (sdata s) m ;; c <- rd (column s) m ;; v <- rd vector (l * j_len + c) ;;
        Ok (nadd N accum (nmul N x v), S m)) (accum, m) ;;
      dest <- wr dest d accum ;; Ok (dest, S d, m)) (dest, d, 0) ;;
    Ok (dest, d)) (dest, 0) ;;
  Ok dest.

(* do_mmult(Sparse, Tensor), mmult_sparse_tensor.h:80-109 *)
Definition mmult_sp_t (jdims : nat -> nat) (junk : nat -> A) (m1 : sparse A) (m2 : tensor A) : outcome (tensor A) :=
  let rank := length (dims m2) in
  '(ds, l_len) <- for_ (rank - 1) (fun k '(ds, l_len) =>
    d <- dimension m2 (Z.of_nat (S k)) ;;
    ds <- wr ds (S k) d ;; Ok (ds, l_len * d)) (alloc jdims rank, 1) ;;
  j_len <- dimension m2 0 ;;
  ds <- wr ds 0 (srows m1) ;;
  if negb (j_len =? scols m1) then Abort else
  output <- zeros N junk ds ;;
  out <- mult_sp_t (data output) m1 (data m2) (srows m1) j_len l_len ;;
  Ok (mkT ds out).

(* mult_t_sp with k_len = 1, the only value used, mmult_tensor_sparse.h:27-49 *)
Definition mult_t_sp (dest vector : list A) (s : sparse A) (i_len j_len : nat) : outcome (list A) :=
  for_ j_len (fun j dest =>
    a <- rd (row_start s) j ;; b <- rd (row_start s) (S j) ;;
    for_ (b - a) (fun x' dest =>
      l <- rd (column s) (a + x') ;;
      m <- rd (sdata s) (a + x') ;;
      for_ i_len (fun i dest =>
        o <- rd dest (l * i_len + i) ;; v <- rd vector (j * i_len + i) ;;
        wr dest (l * i_len + i) (nadd N o (nmul N v m))) dest) dest) dest.

(* do_mmult(Tensor, Sparse), mmult_tensor_sparse.h:55-85.  At line 66 it asks
   for dimension(-1), as if it counted from the end: the argument last_dim is
   what that call returns. *)
Definition mmult_t_sp_from (last_dim : outcome nat) (jdims : nat -> nat) (junk : nat -> A) (m1 : tensor A) (m2 : sparse A)
  : outcome (tensor A) :=
  let rank := length (dims m1) in
  '(ds, i_len) <- for_ (rank - 1) (fun k '(ds, i_len) =>
    d <- dimension m1 (Z.of_nat k) ;;
    ds <- wr ds k d ;; Ok (ds, i_len * d)) (alloc jdims rank, 1) ;;
  j_len <- last_dim ;;
  ds <- wr ds (rank - 1) (scols m2) ;;
  if negb (j_len =? srows m2) then Abort else
  output <- zeros N junk ds ;;
  out <- mult_t_sp (data output) (data m1) m2 i_len j_len ;;
  Ok (mkT ds out).
(* mmult_tensor_sparse.h:55-85 *)
Definition mmult_t_sp jdims junk (m1 : tensor A) (m2 : sparse A) : outcome (tensor A) :=
  mmult_t_sp_from (dimension m1 (-1)) jdims junk m1 m2.
End Sparse.

(* all_equal(Sparse, Sparse), sparse.h:115-121: the parts are compared *)
Definition sall_equal {A} (eqb : A -> A -> bool) (s1 s2 : sparse A) : bool :=
  let all_eq {B} (e : B -> B -> bool) (x y : list B) :=
    (length x =? length y) && forallb (fun p => e (fst p) (snd p)) (combine x y) in
  all_eq Nat.eqb [srows s1; scols s1] [srows s2; scols s2] &&
  all_eq Nat.eqb (row_start s1) (row_start s2) &&
  all_eq Nat.eqb (column s1) (column s2) &&
  all_eq eqb (sdata s1) (sdata s2).

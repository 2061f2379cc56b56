(* Model of scale, change_dimension, trace, diag, take_diag and squeeze.
   src/tensor/tensor_scale.cc, tensor_scale_d.cc, tensor_change_dimension.cc,
   tensor_trace.cc, matrix_trace.cc, matrix_diag.cc, tensor_take_diag.cc,
   tensor_squeeze.cc, src/indices/surrounding_dimensions.cc *)
From Verif Require Import Base Spec M_Tensor M_Arith M_Fold.

(* for (i = lo, x = 1; i < hi; i++) x *= d[i] surrounding_dimensions.cc:39-41, 43-45 *)
Definition prod_range (d : list nat) (lo hi : nat) : outcome nat :=
  for_ (hi - lo) (fun k x => di <- rd d (lo + k) ;; Ok (x * di)) 1.

(* surrounding_dimensions, surrounding_dimensions.cc:34-46 *)
Definition surrounding_dimensions (d : list nat) (ndx : nat) : outcome (nat * nat * nat) :=
  d1 <- prod_range d 0 ndx ;;
  d2 <- rd d ndx ;;
  d3 <- prod_range d (S ndx) (length d) ;;
  Ok (d1, d2, d3).

Section Scale.
Context {A : Type} (N : numops A).

(* doscale, in place, tensor_scale.cc:30-50.  The state is the block of t and
   the position p1. *)
Definition doscale_inplace (d : list A) (v : list A) (d1 d2 d3 : nat) : outcome (list A) :=
  let mul (r : A) (st : list A * nat) :=
    let (d, p1) := st in
    x <- rd d p1 ;; d' <- wr d p1 (nmul N x r) ;; Ok (d', S p1) in
  '(d', _) <-
    (if d1 =? 1 then
       for_ d3 (fun _ => for_ d2 (fun i st => r <- rd v i ;; mul r st)) (d, 0)
     else
       for_ d3 (fun _ => for_ d2 (fun i st => r <- rd v i ;; for_ d1 (fun _ => mul r) st)) (d, 0)) ;;
  Ok d'.

(* scale_inplace, tensor_scale_d.cc:48-60 (tensor_scale_z.cc:48-60), for v a
   different object than t *)
Definition scale_inplace (t : tensor A) (ndx : Z) (v : tensor A) : outcome (tensor A) :=
  n <- normalize_index ndx (length (dims t)) ;;
  '(d1, d2, d3) <- surrounding_dimensions (dims t) n ;;
  if negb (d2 =? length (data v)) then Abort else
  d <- doscale_inplace (data t) (data v) d1 d2 d3 ;;
  Ok (mkT (dims t) d).

(* doscale, out of place, tensor_scale.cc:70-92.  State: output block and
   position p1, which p2 accompanies. *)
Definition doscale (out : list A) (d : list A) (v : list A) (d1 d2 d3 : nat) : outcome (list A) :=
  '(out', _) <-
    (if d1 =? 1 then
       for_ d3 (fun _ => for_ d2 (fun i (st : list A * nat) =>
         x <- rd d (snd st) ;; r <- rd v i ;; put (nmul N x r) st)) (out, 0)
     else
       for_ d3 (fun _ => for_ d2 (fun i st =>
         r <- rd v i ;;
         for_ d1 (fun _ (st : list A * nat) => x <- rd d (snd st) ;; put (nmul N r x) st) st)) (out, 0)) ;;
  Ok out'.

(* scale, tensor_scale_d.cc:31-46 (tensor_scale_z.cc:31-46) *)
Definition scale (junk : nat -> A) (t : tensor A) (ndx : Z) (v : tensor A) : outcome (tensor A) :=
  let output := new_tensor junk (dims t) in
  n <- normalize_index ndx (length (dims t)) ;;
  '(d1, d2, d3) <- surrounding_dimensions (dims t) n ;;
  if negb (d2 =? length (data v)) then Abort else
  d <- doscale (data output) (data t) (data v) d1 d2 d3 ;;
  Ok (mkT (dims t) d).

(* memcpy of n elements. Used in tensor_change_dimension.cc:50 *)
Definition memcpy (src : list A) (ps : nat) (pd n : nat) : list A -> outcome (list A) :=
  for_ n (fun i dst => x <- rd src (ps + i) ;; wr dst (pd + i) x).

(* change_dimension_inner, tensor_change_dimension.cc:25-55, for new_size >= 0 *)
Definition change_dimension (junk : nat -> A) (a : tensor A) (dim_ : Z) (new_size : nat) : outcome (tensor A) :=
  dim <- normalize_index dim_ (length (dims a)) ;;
  old_size <- rd (dims a) dim ;;
  if old_size =? new_size then Ok a else
  d <- wr (dims a) dim new_size ;;
  old <- dimension a (Z.of_nat dim) ;;
  output <- (if old <? new_size then fill_with (new_tensor junk d) (nzero N) else Ok (new_tensor junk d)) ;;
  '(i_len, new_size', k_len) <- surrounding_dimensions d dim ;;
  let dp_new := new_size' * i_len in
  let dp_old := old_size * i_len in
  let data_size := Nat.min dp_new dp_old in
  c <- for_ k_len (fun k => memcpy (data a) (dp_old * k) (dp_new * k) data_size) (data output) ;;
  Ok (mkT d c).

(* do_trace of a matrix, matrix_trace.cc:24-36 *)
Definition trace_matrix (m : tensor A) : outcome A :=
  _ <- assert_ (length (dims m) =? 2) ;;
  r <- dimension m 0 ;;
  c <- dimension m 1 ;;
  for_ (Nat.min r c) (fun k s => x <- rd (data m) (k * (r + 1)) ;; Ok (nadd N s x)) (nzero N).

(* trace_loop, tensor_trace.cc:24-51 *)
Definition trace_loop (D : list A) (a1 a2 a3 a4 a5 : nat) : list A -> outcome (list A) :=
  let a2b := Nat.min a2 a4 in
  let acc (pc pd : nat) (C : list A) := c <- rd C pc ;; x <- rd D pd ;; wr C pc (nadd N c x) in
  if a1 =? 1 then
    for_ a5 (fun m => for_ a2b (fun l => for_ a3 (fun k =>
      acc (k + a3 * m) (l + a2 * (k + a3 * (l + a4 * m))))))
  else
    for_ a5 (fun m => for_ a2b (fun l => for_ a3 (fun k => for_ a1 (fun i =>
      acc (i + a1 * (k + a3 * m)) (i + a1 * (l + a2 * (k + a3 * (l + a4 * m)))))))).

(* do_trace, tensor_trace.cc:53-85 *)
Definition trace (jdims : nat -> nat) (junk : nat -> A) (D : tensor A) (i1 i2 : Z) : outcome (tensor A) :=
  let rank := Z.of_nat (length (dims D)) in
  _ <- assert_ ((i1 <? rank) && (- rank <? i1))%Z ;;
  _ <- assert_ ((i2 <? rank) && (- rank <? i2))%Z ;;
  let i1 := (if i1 <? 0 then i1 + rank else i1)%Z in
  let i2 := (if i2 <? 0 then i2 + rank else i2)%Z in
  if (i1 =? i2)%Z then Abort else
  let n1 := Z.to_nat (Z.min i1 i2) in
  let n2 := Z.to_nat (Z.max i1 i2) in
  nd <- wr (alloc jdims (Nat.max (length (dims D) - 2) 1)) 0 1 ;;
  '(st, a1) <- take_dims D 0 n1 (nd, 0) ;;
  a2 <- dimension D (Z.of_nat n1) ;;
  '(st, a3) <- take_dims D (S n1) n2 st ;;
  a4 <- dimension D (Z.of_nat n2) ;;
  '(st, a5) <- take_dims D (S n2) (length (dims D)) st ;;
  let dimensions := fst st in
  output <- zeros N junk dimensions ;;
  c <- trace_loop (data D) a1 a2 a3 a4 a5 (data output) ;;
  Ok (mkT dimensions c).

(* do_diag, matrix_diag.cc:24-52, for rows, cols >= 0 *)
Definition diag_matrix (junk : nat -> A) (a : tensor A) (which : Z) (rows cols : nat) : outcome (tensor A) :=
  output <- fill_with (new_tensor junk [rows; cols]) (nzero N) ;;
  let r0 := (if which <? 0 then - which else 0)%Z in
  let c0 := (if which <? 0 then 0 else which)%Z in
  let l := Z.min (Z.of_nat rows - r0) (Z.of_nat cols - c0) in
  if (l <? 0)%Z then Abort else
  if negb (l =? Z.of_nat (length (data a)))%Z then Abort else
  for_ (Z.to_nat l) (fun i output =>
    x <- rd (data a) i ;;
    set2 output (r0 + Z.of_nat i) (c0 + Z.of_nat i) x) output.

(* diag(a, which), matrix_diag_d.cc:29-33 *)
Definition diag (junk : nat -> A) (a : tensor A) (which : Z) : outcome (tensor A) :=
  let n := length (data a) + Z.to_nat (Z.abs which) in
  diag_matrix junk a which n n.

(* do_diag, tensor_take_diag.cc:23-48 *)
Definition take_diag_loop (input : list A) (a1 a2 a2b a3 a4 a5 : nat) (which : Z) : list A -> outcome (list A) :=
  let o2 := Z.to_nat (if which <? 0 then - which else 0)%Z in
  let o1 := Z.to_nat (if which <? 0 then 0 else which)%Z in
  for_ a5 (fun m => for_ a2b (fun l => for_ a3 (fun k => for_ a1 (fun i output =>
    x <- rd input (i + a1 * ((o1 + l) + a2 * (k + a3 * ((o2 + l) + a4 * m)))) ;;
    wr output (i + a1 * (l + a2b * (k + a3 * m))) x)))).

(* do_take_diag, tensor_take_diag.cc:50-105.  The call on line 102 passes a3 in
   the place of a4. *)
Definition take_diag (jdims : nat -> nat) (junk : nat -> A) (a : tensor A) (which ndx1 ndx2 : Z) : outcome (tensor A) :=
  let rank := Z.of_nat (length (dims a)) in
  let ndx1 := (if ndx1 <? 0 then ndx1 + rank else ndx1)%Z in
  _ <- assert_ ((ndx1 <? rank) && (0 <=? ndx1))%Z ;;
  let ndx2 := (if ndx2 <? 0 then ndx2 + rank else ndx2)%Z in
  _ <- assert_ ((ndx2 <? rank) && (0 <=? ndx2))%Z ;;
  let nd := alloc jdims (Nat.max (length (dims a) - 1) 1) in
  let which := (if ndx2 <? ndx1 then - which else which)%Z in
  let n1 := Z.to_nat (Z.min ndx1 ndx2) in
  let n2 := Z.to_nat (Z.max ndx1 ndx2) in
  '(st, a1) <- take_dims a 0 n1 (nd, 0) ;;
  a2 <- dimension a (Z.of_nat n1) ;;
  st <- put a2 st ;;
  '(st, a3) <- take_dims a (S n1) n2 st ;;
  a4 <- dimension a (Z.of_nat (Nat.max (S n1) n2)) ;;
  '(st, a5) <- take_dims a (S (Nat.max (S n1) n2)) (length (dims a)) st ;;
  let new_dims := fst st in
  if ((which <=? - Z.of_nat a2) || (Z.of_nat a4 <=? which))%Z then Abort else
  if (a2 =? 1) && (a4 =? 1) then reshape a new_dims else
  let a2b := (if which <? 0 then Z.max 0 (Z.min (Z.of_nat a2 + which) (Z.of_nat a4))
              else Z.max 0 (Z.min (Z.of_nat a2) (Z.of_nat a4 - which)))%Z in
  let a2b := Z.to_nat a2b in
  new_dims <- wr new_dims n1 a2b ;;
  let output := new_tensor junk new_dims in
  if a2b =? 0 then Ok output else
  c <- take_diag_loop (data a) a1 a2 a2b a3 a3 a5 (- which) (data output) ;;
  Ok (mkT new_dims c).

(* the loop of squeeze_dimensions, tensor_squeeze.cc:28-32 *)
Fixpoint squeeze_loop (d : list nat) (st : list nat * nat) : outcome (list nat) :=
  match d with
  | [] => Ok (fst st)
  | b :: d' =>
    if snd st =? length (fst st) then Ok (fst st)
    else if 1 <? b then st' <- put b st ;; squeeze_loop d' st' else squeeze_loop d' st
  end.
(* squeeze_dimensions, tensor_squeeze.cc:25-34; the new Indices are not
   initialised *)
Definition squeeze_dimensions (jdims : nat -> nat) (d : list nat) : outcome (list nat) :=
  squeeze_loop d (alloc jdims (length d - count_occ Nat.eq_dec d 1), 0).
(* squeeze, tensor_squeeze_d.cc:27-30 *)
Definition squeeze (jdims : nat -> nat) (t : tensor A) : outcome (tensor A) :=
  d <- squeeze_dimensions jdims (dims t) ;; reshape t d.
End Scale.

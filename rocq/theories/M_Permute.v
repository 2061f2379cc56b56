(* Model of permute, transpose and adjoint.
   /repo/src/tensor/tensor_permute.cc, matrix_transpose.cc, matrix_adjoint.cc *)
From Verif Require Import Base Spec M_Tensor.

(* for (acc = 1, i = lo; i < hi;) acc *= d[i++] As in tensor_permute.cc:153-160 *)
Definition prod_between (d : list nat) (lo hi : nat) : outcome nat :=
  for_ (hi - lo) (fun k acc => x <- rd d (lo + k) ;; Ok (acc * x)) 1.

Section Permute.
Context {A : Type}.

(* *(pos) = *(src++): the loops below read the source sequentially.  The state
   is the output block and the source position.  The write position is written
   as the sum of the increments made to the iterators by the enclosing loops.
   As in tensor_permute.cc:134 *)
Definition copy_step {B} (h : A -> B) (a : list A) (pos : nat) (st : list B * nat) : outcome (list B * nat) :=
  let (b, p) := st in
  v <- rd a p ;;
  b' <- wr b pos (h v) ;;
  Ok (b', S p).

(* permute_12, tensor_permute.cc:26-46 *)
Definition permute_12 (b a : list A) (a1 a2 a3 : nat) : outcome (list A) :=
  '(b', _) <- for_ a3 (fun k => for_ a2 (fun j => for_ a1 (fun i =>
     copy_step id a (k * (a1 * a2) + j + i * a2)))) (b, 0) ;;
  Ok b'.

(* permute_23, tensor_permute.cc:48-75 *)
Definition permute_23 (b a : list A) (a1 a2 a3 a4 : nat) : outcome (list A) :=
  let a13 := a1 * a3 in
  let a132 := a13 * a2 in
  '(b', _) <- for_ a4 (fun l => for_ a3 (fun k => for_ a2 (fun j => for_ a1 (fun i =>
     copy_step id a (l * a132 + k * a1 + j * a13 + i))))) (b, 0) ;;
  Ok b'.

(* permute_24, tensor_permute.cc:77-109 *)
Definition permute_24 (b a : list A) (a1 a2 a3 a4 a5 : nat) : outcome (list A) :=
  let a14 := a1 * a4 in
  let a143 := a14 * a3 in
  let a1432 := a143 * a2 in
  '(b', _) <- for_ a5 (fun m => for_ a4 (fun l => for_ a3 (fun k => for_ a2 (fun j => for_ a1 (fun i =>
     copy_step id a (m * a1432 + l * a1 + k * a14 + j * a143 + i)))))) (b, 0) ;;
  Ok b'.

(* permute_13, tensor_permute.cc:111-139 *)
Definition permute_13 (b a : list A) (a1 a2 a3 a4 : nat) : outcome (list A) :=
  let a32 := a3 * a2 in
  let a321 := a32 * a1 in
  '(b', _) <- for_ a4 (fun l => for_ a3 (fun k => for_ a2 (fun j => for_ a1 (fun i =>
     copy_step id a (l * a321 + k + j * a3 + i * a32))))) (b, 0) ;;
  Ok b'.

(* the code after the label NO_A3, tensor_permute.cc:181-193 *)
Definition permute_no_a3 (junk : nat -> A) (a : tensor A) (new_dims : list nat) (a1 a2 a4 a5 : nat)
  : outcome (tensor A) :=
  if (1 <? a4) || (1 <? a2) then
    let output := new_tensor junk new_dims in
    d <- (if 1 <? a1 then permute_23 (data output) (data a) a1 a2 a4 a5
          else permute_12 (data output) (data a) a2 a4 a5) ;;
    Ok (mkT new_dims d)
  else reshape a new_dims.

(* do_permute, tensor_permute.cc:141-194 *)
Definition do_permute (junk : nat -> A) (a : tensor A) (ndx1 ndx2 : Z) : outcome (tensor A) :=
  n1 <- normalize_index ndx1 (length (dims a)) ;;
  n2 <- normalize_index ndx2 (length (dims a)) ;;
  if n2 =? n1 then Ok a else
  let (n1, n2) := if n2 <? n1 then (n2, n1) else (n1, n2) in
  let d := dims a in
  a1 <- prod_between d 0 n1 ;;
  a2 <- rd d n1 ;;
  a3 <- prod_between d (S n1) n2 ;;
  a4 <- rd d n2 ;;
  a5 <- prod_between d (S n2) (length d) ;;
  let new_dims := upd (upd d n1 a4) n2 a2 in
  if negb (length (data a) =? 0) then
    if a2 =? 1 then permute_no_a3 junk a new_dims a1 a3 a4 a5
    else if a4 =? 1 then permute_no_a3 junk a new_dims a1 a2 a3 a5
    else if 1 <? a3 then
      let output := new_tensor junk new_dims in
      d' <- (if 1 <? a1 then permute_24 (data output) (data a) a1 a2 a3 a4 a5
             else permute_13 (data output) (data a) a2 a3 a4 a5) ;;
      Ok (mkT new_dims d')
    else permute_no_a3 junk a new_dims a1 a2 a4 a5
  else reshape a new_dims.

(* do_transpose, matrix_transpose.cc:25-35 *)
Definition transpose (junk : nat -> A) (a : tensor A) : outcome (tensor A) :=
  '(rows, cols) <- get_dimensions2 a ;;
  let b := new_tensor junk [cols; rows] in
  if negb (cols =? 0) && negb (rows =? 0) then
    d <- permute_12 (data b) (data a) rows cols 1 ;; Ok (mkT (dims b) d)
  else Ok b.

(* do_adjoint, matrix_adjoint.cc:25-45; adjoint(RTensor) is transpose
   (include/tensor/tensor.h) *)
Definition adjoint (conj : A -> A) (junk : nat -> A) (a : tensor A) : outcome (tensor A) :=
  '(rows, cols) <- get_dimensions2 a ;;
  let b := new_tensor junk [cols; rows] in
  if negb (cols =? 0) && negb (rows =? 0) then
    '(d, _) <- for_ cols (fun j => for_ rows (fun i => copy_step conj (data a) (j + i * cols))) (data b, 0) ;;
    Ok (mkT (dims b) d)
  else Ok b.

End Permute.

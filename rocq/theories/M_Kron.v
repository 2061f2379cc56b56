(* Model of the Kronecker products.  src/tensor/tensor_kron.hpp,
   tensor_kron_d.cc, tensor_kron2_sum_d.cc (and _z.cc) *)
From Verif Require Import Base Spec M_Tensor M_Arith.

Section Kron.
Context {A : Type} (N : numops A).

(* do_kron(b, a) for matrices, tensor_kron.hpp:47-79 (the branch compiled
   without MPS_USE_CBLAS).  Rows and columns of b and a are checked by
   dimension(). *)
Definition do_kron_matrix (junk : nat -> A) (b a : tensor A) : outcome (tensor A) :=
  i_len <- dimension a 0 ;;
  j_len <- dimension b 0 ;;
  k_len <- dimension a 1 ;;
  l_len <- dimension b 1 ;;
  let ij_len := i_len * j_len in
  let kl_len := k_len * l_len in
  if (ij_len =? 0) || (kl_len =? 0) then Ok (new_tensor junk [ij_len; kl_len]) else
  let output := new_tensor junk [ij_len; k_len * l_len] in
  '(d, _) <- for_ l_len (fun l =>
     let pb := l * j_len in
     for_ k_len (fun k =>
       let pa := k * i_len in
       for_ j_len (fun j => for_ i_len (fun i st =>
         v <- rd (data b) (pb + j) ;;
         x <- rd (data a) (pa + i) ;;
         put (nmul N v x) st)))) (data output, 0) ;;
  Ok (mkT [ij_len; kl_len] d).

(* do_kron, tensor_kron.hpp:34-45: vectors are converted to columns *)
Definition do_kron (junk : nat -> A) (b a : tensor A) : outcome (tensor A) :=
  _ <- assert_ (length (dims b) =? length (dims a)) ;;
  _ <- assert_ (length (dims b) <=? 2) ;;
  if length (dims a) =? 1 then
    b' <- reshape b [length (data b); 1] ;;
    a' <- reshape a [length (data a); 1] ;;
    c <- do_kron_matrix junk b' a' ;;
    reshape c [length (data a) * length (data b)]
  else do_kron_matrix junk b a.

(* tensor_kron_d.cc:41-44 *)
Definition kron junk s1 s2 := do_kron junk s1 s2.
(* tensor_kron_d.cc:46-49 *)
Definition kron2 junk s1 s2 := do_kron junk s2 s1.

(* do_kron2_sum, tensor_kron.hpp:82-101 *)
Definition do_kron2_sum (junk : nat -> A) (a b : tensor A) : outcome (tensor A) :=
  _ <- assert_ (length (dims a) =? length (dims b)) ;;
  _ <- assert_ (length (dims a) <=? 2) ;;
  if length (dims a) =? 1 then
    let a1 := length (data a) in
    let b1 := length (data b) in
    a' <- reshape a [a1; 1] ;;
    ob <- ones N junk [b1; 1] ;;
    x <- kron2 junk a' ob ;;
    oa <- ones N junk [a1; 1] ;;
    b' <- reshape b [b1; 1] ;;
    y <- kron2 junk oa b' ;;
    s <- t_op_t (nadd N) junk x y ;;
    reshape s [a1 * b1]
  else
    '(a1, a2) <- get_dimensions2 a ;;
    '(b1, b2) <- get_dimensions2 b ;;
    eb <- eye N junk b1 b2 ;;
    x <- kron junk eb a ;;
    ea <- eye N junk a1 a2 ;;
    y <- kron junk b ea ;;
    t_op_t (nadd N) junk x y.

(* tensor_kron2_sum_d.cc:25-28 *)
Definition kron2_sum junk s1 s2 := do_kron2_sum junk s2 s1.
End Kron.

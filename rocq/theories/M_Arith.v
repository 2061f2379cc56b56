(* Model of elementwise arithmetic and of the constant matrices.
   src/tensor/tensor_t_op_t.cc, tensor_t_op_n.cc, tensor_unop.cc,
   src/generated/tensor_{plus,minus}_t1_*.cc, include/tensor/detail/tensor_ops.hpp,
   include/tensor/detail/tensor_matrix.hpp *)
From Verif Require Import Base Spec M_Tensor.

Section Ops.
Context {A B C : Type}.

(* OPERATOR1(a, b) on two tensors, tensor_t_op_t.cc:24-34; instantiated for
   + - * / by src/generated/tensor_*_tt_*.cc.  [op] is OPERATOR2. *)
Definition t_op_t (op : A -> B -> C) (junk : nat -> C) (a : tensor A) (b : tensor B) : outcome (tensor C) :=
  _ <- assert_ (length (data a) =? length (data b)) ;;
  let output := new_tensor junk (dims a) in
  '(d, _) <- for_ (length (data a)) (fun i st =>
     x <- rd (data a) i ;;
     y <- rd (data b) i ;;
     put (op x y) st) (data output, 0) ;;
  Ok (mkT (dims a) d).

(* OPERATOR1(tensor, number), tensor_t_op_n.cc:24-32; the number is passed by
   value (TYPE2 b) *)
Definition t_op_n (op : A -> B -> C) (junk : nat -> C) (a : tensor A) (b : B) : outcome (tensor C) :=
  let output := new_tensor junk (dims a) in
  '(d, _) <- for_ (length (data a)) (fun i st =>
     x <- rd (data a) i ;;
     put (op x b) st) (data output, 0) ;;
  Ok (mkT (dims a) d).

(* OPERATOR1(number, tensor), tensor_t_op_n.cc:34-42 *)
Definition n_op_t (op : A -> B -> C) (junk : nat -> C) (a : A) (b : tensor B) : outcome (tensor C) :=
  let output := new_tensor junk (dims b) in
  '(d, _) <- for_ (length (data b)) (fun i st =>
     y <- rd (data b) i ;;
     put (op a y) st) (data output, 0) ;;
  Ok (mkT (dims b) d).

(* all_equal(Indices, Indices), src/indices/indices.cc:33-36: equal sizes and
   std::equal *)
Fixpoint std_equal (d1 d2 : list nat) : bool :=
  match d1, d2 with
  | [], _ => true
  | x :: d1', y :: d2' => (x =? y) && std_equal d1' d2'
  | _, _ => false
  end.
(* all_equal(Indices, Indices), indices.cc:33-36 *)
Definition all_equal_ix (d1 d2 : list nat) : bool :=
  (length d1 =? length d2) && std_equal d1 d2.
(* verify_tensor_dimensions_match, src/tensor/tensor_common.cc:26-35 *)
Definition verify_dims_match (d1 d2 : list nat) : bool :=
  negb (negb (length d1 =? length d2) || negb (all_equal_ix d1 d2)).

(* the template operators, tensor_ops.hpp:49-83, used for mixed element types:
   std::transform over a after checking the dimensions *)
Definition t_op_t_mixed (op : A -> B -> C) (junk : nat -> C) (a : tensor A) (b : tensor B) : outcome (tensor C) :=
  _ <- assert_ (verify_dims_match (dims a) (dims b)) ;;
  let output := new_tensor junk (dims a) in
  '(d, _) <- for_ (length (data a)) (fun i st =>
     x <- rd (data a) i ;;
     y <- rd (data b) i ;;
     put (op x y) st) (data output, 0) ;;
  Ok (mkT (dims a) d).

(* unary functions: operator-, tensor_ops.hpp:33-38; abs, cos, ..., sqrt, log,
   tensor_unop.cc:25-33 *)
Definition unop (op : A -> C) (junk : nat -> C) (a : tensor A) : outcome (tensor C) :=
  let output := new_tensor junk (dims a) in
  '(d, _) <- for_ (length (data a)) (fun i st =>
     x <- rd (data a) i ;;
     put (op x) st) (data output, 0) ;;
  Ok (mkT (dims a) d).

(* a += b, a -= b on tensors of one element type,
   src/generated/tensor_plus_t1_double.cc:25-43 etc. *)
Definition op_assign_t (op : A -> B -> A) (a : tensor A) (b : tensor B) : outcome (tensor A) :=
  _ <- assert_ (length (data a) =? length (data b)) ;;
  d <- for_ (length (data a)) (fun i d =>
     x <- rd d i ;;
     y <- rd (data b) i ;;
     wr d i (op x y)) (data a) ;;
  Ok (mkT (dims a) d).

(* a *= b, a /= b and the mixed-type a += b, a -= b, tensor_ops.hpp:145-171 *)
Definition op_assign_t_mixed (op : A -> B -> A) (a : tensor A) (b : tensor B) : outcome (tensor A) :=
  _ <- assert_ (verify_dims_match (dims a) (dims b)) ;;
  d <- for_ (length (data a)) (fun i d =>
     x <- rd d i ;;
     y <- rd (data b) i ;;
     wr d i (op x y)) (data a) ;;
  Ok (mkT (dims a) d).
End Ops.

(* the same with b the same object as a: both iterators walk one block, tensor_ops.hpp:145-171 *)
Definition op_assign_self {A} (op : A -> A -> A) (a : tensor A) : outcome (tensor A) :=
  d <- for_ (length (data a)) (fun i d =>
     x <- rd d i ;;
     y <- rd d i ;;
     wr d i (op x y)) (data a) ;;
  Ok (mkT (dims a) d).

(* The number in a op= number arrives by reference (const t2 &b), and
   plus_constant etc. (functional.h:80-114) keep the reference: it can be an
   object outside a, or an element of a (e.g. t /= t[0]). *)
Inductive number_ref (B : Type) := Outside (v : B) | ElementOf (p : nat).
Arguments Outside {B} v.
Arguments ElementOf {B} p.

(* a op= number, tensor_ops.hpp:176-195 (+=, -=, *=, /=) *)
Definition op_assign_n {A} (op : A -> A -> A) (a : tensor A) (b : number_ref A) : outcome (tensor A) :=
  d <- for_ (length (data a)) (fun i d =>
     x <- rd d i ;;
     y <- match b with Outside v => Ok v | ElementOf p => rd d p end ;;
     wr d i (op x y)) (data a) ;;
  Ok (mkT (dims a) d).

Section Const.
Context {A : Type} (N : numops A).

(* fill_with, tensor_base.hpp:361-364: std::fill(begin(), end(), e) *)
Definition fill_with (t : tensor A) (e : A) : outcome (tensor A) :=
  d <- for_ (length (data t)) (fun i d => wr d i e) (data t) ;;
  Ok (mkT (dims t) d).

(* zeros, tensor_matrix.hpp:37-77 *)
Definition zeros (junk : nat -> A) (ds : list nat) : outcome (tensor A) :=
  fill_with (new_tensor junk ds) (nzero N).
(* ones, tensor_matrix.hpp:79-120 *)
Definition ones (junk : nat -> A) (ds : list nat) : outcome (tensor A) :=
  fill_with (new_tensor junk ds) (none_ N).
(* eye, tensor_matrix.hpp:27-35 *)
Definition eye (junk : nat -> A) (rows cols : nat) : outcome (tensor A) :=
  output <- fill_with (new_tensor junk [rows; cols]) (nzero N) ;;
  for_ (Nat.min rows cols) (fun i output => set2 output (Z.of_nat i) (Z.of_nat i) (none_ N)) output.
End Const.

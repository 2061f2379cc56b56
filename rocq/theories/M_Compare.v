(* Model of comparisons, boolean vectors and index vectors.
   src/compare, src/indices/booleans.cc, booleans_and.cc, booleans_or.cc,
   booleans_not.cc, which.cc, concat.cc, indices.cc, include/tensor/indices.h,
   include/tensor/tensor.h, include/tensor/gen.h.
   A Vector<T> (Indices, Booleans) is the list of its elements; comparisons of
   tensors use only their elements. *)
From Verif Require Import Base Spec S_Compare M_Tensor M_Arith.

(* the built-in comparison operators of an element type. Used e.g. in rtensor_rtensor_l.cc:33 *)
Record cmps (A : Type) := mkCmps {
  c_eq : A -> A -> bool; c_ne : A -> A -> bool;
  c_lt : A -> A -> bool; c_le : A -> A -> bool;
  c_gt : A -> A -> bool; c_ge : A -> A -> bool }.
Arguments mkCmps {A} _ _ _ _ _ _.
Arguments c_eq {A} _ _ _. Arguments c_ne {A} _ _ _. Arguments c_lt {A} _ _ _.
Arguments c_le {A} _ _ _. Arguments c_gt {A} _ _ _. Arguments c_ge {A} _ _ _.

(* index, a signed integer type. Used e.g. in indices_index_l.cc:30 *)
Definition Zcmps : cmps Z :=
  mkCmps Z.eqb (fun x y => negb (Z.eqb x y)) Z.ltb Z.leb Z.gtb Z.geb.

Section Compare.
Context {A : Type} (O : cmps A).

(* *ic = (expression) op (expression), e.g. rtensor_rtensor_l.cc:33 *)
Definition apply_op (op : cmpop) : A -> A -> bool :=
  match op with
  | OpEq => c_eq O | OpNe => c_ne O | OpLt => c_lt O
  | OpLe => c_le O | OpGt => c_gt O | OpGe => c_ge O
  end.

(* the loop of each operator on two vectors, e.g. indices_indices_ge.cc:25-35,
   rtensor_rtensor_l.cc:25-35; [f] is the comparison in its last line *)
Definition cmp_vv (f : A -> A -> bool) (junk : nat -> bool) (a b : list A) : outcome (list bool) :=
  _ <- assert_ (length a =? length b) ;;
  '(c, _) <- for_ (length a) (fun i st =>
     x <- rd a i ;; y <- rd b i ;; put (f x y) st) (alloc junk (length a), 0) ;;
  Ok c.

(* the loop of each operator on a vector and a number, e.g.
   indices_index_l.cc:25-32, rtensor_double_ge.cc:25-32 *)
Definition cmp_vn (f : A -> A -> bool) (junk : nat -> bool) (a : list A) (b : A) : outcome (list bool) :=
  '(c, _) <- for_ (length a) (fun i st => x <- rd a i ;; put (f x b) st) (alloc junk (length a), 0) ;;
  Ok c.

(* operator op (vector, vector), {indices_indices,rtensor_rtensor}_{e,ne,l,le,g,ge}.cc,
   ctensor_ctensor_{e,ne}.cc, line 33 *)
Definition vec_op_vec (op : cmpop) junk (a b : list A) := cmp_vv (apply_op op) junk a b.
(* operator op (vector, number), {indices_index,rtensor_double}_*.cc,
   ctensor_cdouble_{e,ne}.cc, line 30 *)
Definition vec_op_num (op : cmpop) junk (a : list A) (b : A) := cmp_vn (apply_op op) junk a b.

(* operator op (number, vector), indices.h:87-92 and tensor.h:451-456: the
   calls that each of the six inline functions makes *)
Definition num_op_vec (op : cmpop) junk (a : A) (b : list A) : outcome (list bool) :=
  match op with
  | OpEq => vec_op_num OpEq junk b a
  | OpLt => vec_op_num OpGe junk b a
  | OpGt => vec_op_num OpLe junk b a
  | OpLe => vec_op_num OpGt junk b a
  | OpGe => vec_op_num OpLt junk b a
  | OpNe => vec_op_num OpNe junk b a
  end.

(* std::equal(a.begin(), a.end(), b.begin()). Used in indices.cc:35 *)
Fixpoint std_equalb (a b : list A) : outcome bool :=
  match a, b with
  | [], _ => Ok true
  | x :: a', y :: b' => if c_eq O x y then std_equalb a' b' else Ok false
  | _ :: _, [] => UB
  end.

(* all_equal(Indices, Indices), indices.cc:33-36 *)
Definition all_equal_v (a b : list A) : outcome bool :=
  if length a =? length b then std_equalb a b else Ok false.

(* all_equal(tensor, tensor), rtensor_rtensor_all_equal.cc:25-31,
   ctensor_ctensor_all_equal.cc:25-31 *)
Definition all_equal_t (a b : tensor A) : outcome bool :=
  if verify_dims_match (dims a) (dims b) then std_equalb (data a) (data b) else Ok false.

(* all_equal(tensor, number), rtensor_double_all_equal.cc:25-31 *)
Fixpoint all_equal_n (a : list A) (b : A) : bool :=
  match a with
  | [] => true
  | x :: a' => if negb (c_eq O x b) then false else all_equal_n a' b
  end.
End Compare.

(* ---- boolean vectors ---- *)

(* std::count(first, last, true). Used in booleans.cc:32, which.cc:27 *)
Fixpoint std_count (b : list bool) : nat :=
  match b with [] => 0 | x :: b' => if eqb x true then S (std_count b') else std_count b' end.
(* std::find(first, last, true): position found, or the length. Used in booleans.cc:37 *)
Fixpoint std_find (b : list bool) : nat :=
  match b with [] => 0 | x :: b' => if eqb x true then 0 else S (std_find b') end.

(* operator&&, booleans_and.cc:27-34 *)
Definition b_and (junk : nat -> bool) (a b : list bool) : outcome (list bool) := cmp_vv andb junk a b.
(* operator||, booleans_or.cc:27-34 *)
Definition b_or (junk : nat -> bool) (a b : list bool) : outcome (list bool) := cmp_vv orb junk a b.
(* operator!, booleans_not.cc:26-32 *)
Definition b_not (junk : nat -> bool) (a : list bool) : outcome (list bool) :=
  '(c, _) <- for_ (length a) (fun i st => x <- rd a i ;; put (negb x) st) (alloc junk (length a), 0) ;;
  Ok c.
(* all_of, booleans.cc:30-33 *)
Definition all_of (b : list bool) : bool := std_count b =? length b.
(* any_of, booleans.cc:35-38 *)
Definition any_of (b : list bool) : bool := negb (std_find b =? length b).
(* none_of, indices.h:69 *)
Definition none_of (b : list bool) : bool := negb (any_of b).

(* which, which.cc:25-38 *)
Definition which (junk : nat -> nat) (b : list bool) : outcome (list nat) :=
  let size := std_count b in
  '(output, _) <- for_ (length b) (fun i st =>
     x <- rd b i ;; if x then put i st else Ok st) (alloc junk size, 0) ;;
  Ok output.

(* ---- index vectors ---- *)

(* operator<<(Indices, Indices), concat.cc:34-44 *)
Definition concat_ix (junk : nat -> Z) (a b : list Z) : outcome (list Z) :=
  st <- for_ (length a) (fun i st => x <- rd a i ;; put x st) (alloc junk (length a + length b), 0) ;;
  '(output, _) <- for_ (length b) (fun i st => x <- rd b i ;; put x st) st ;;
  Ok output.

(* Indices::range, indices.cc:57-69, called by iota, indices.h:209-211.
   Division by zero is UB; a negative size cannot be allocated (the conversion
   to size_t makes it huge and new[] throws), counted here as Abort. *)
Definition iota (junk : nat -> Z) (min max step : Z) : outcome (list Z) :=
  if (max <? min)%Z then Ok [] else
  if (step =? 0)%Z then UB else
  let size := (Z.quot (max - min) step + 1)%Z in
  if (size <? 0)%Z then Abort else
  '(output, _) <- for_ (Z.to_nat size) (fun _ '(st, m) =>
     st <- put m st ;; Ok (st, (m + step)%Z)) ((alloc junk (Z.to_nat size), 0), min) ;;
  Ok (fst output).

(* StaticVector<elt_t,n>, gen.h:77-119; the size is a template parameter *)
Inductive static_vector (A : Type) :=
| SV1 (extra : A)
| SVS (inner : static_vector A) (extra : A).
Arguments SV1 {A} extra. Arguments SVS {A} inner extra.
(* the template parameter, gen.h:92-94, 114-116 *)
Fixpoint sv_size {A} (v : static_vector A) : nat :=
  match v with SV1 _ => 1 | SVS i _ => S (sv_size i) end.
(* push, gen.h:88-91 and 111-113 *)
Fixpoint sv_push {A} (v : static_vector A) (out : list A) : outcome (list A) :=
  match v with
  | SV1 x => wr out 0 x
  | SVS i x => out' <- sv_push i out ;; wr out' (sv_size v - 1) x
  end.
(* conversion to Vector, gen.h:83-87 and 106-110 *)
Definition sv_vector {A} (junk : nat -> A) (v : static_vector A) : outcome (list A) :=
  sv_push v (alloc junk (sv_size v)).
(* igen << x1 << x2 ... << xn, gen.h:121-134 *)
Definition gen_list {A} (x1 : A) (rest : list A) : static_vector A := fold_left SVS rest (SV1 x1).

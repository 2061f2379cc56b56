(* Model of reductions and sorting.
   src/tensor/tensor_{sum,max,min,mean,mean_ndx,norm0,norm2,sort}_{d,z,i}.cc,
   matrix_norminf_{d,z}.cc *)
From Verif Require Import Base Spec S_Reduce M_Tensor M_Arith M_Fold.

Section Reduce.
Context {A : Type} (N : numops A).

(* sum: std::accumulate(begin, end, 0), tensor_sum_d.cc:24-27, tensor_sum_z.cc:24-27 *)
Definition sum (t : tensor A) : A := fold_left (nadd N) (data t) (nzero N).

(* scprod, tensor_norm2_d.cc:29-36, tensor_norm2_z.cc:29-36.  Over the reals
   conj is the identity.  The second iterator is never compared to its end. *)
Definition scprod (a b : tensor A) : outcome A :=
  for_ (length (data a)) (fun i output =>
    x <- rd (data a) i ;; y <- rd (data b) i ;; Ok (nadd N output (nmul N x (nconj N y)))) (nzero N).

(* division of numbers and conversion of an index to a number *)
Context (ndiv : A -> A -> A).
Context (of_index : nat -> A).

(* mean, tensor_mean_d.cc:23-26, tensor_mean_z.cc:23-26; the division by zero
   of an empty tensor gives a NaN and is not an error *)
Definition mean (t : tensor A) : A := ndiv (sum t) (of_index (length (data t))).

(* first loop of do_mean, tensor_mean_ndx.cc:36-49.  State: dimensions, j,
   left, middle, right *)
Definition mean_dims (jdims : nat -> nat) (t : tensor A) (ndx : nat)
  : outcome (list nat * nat * nat * nat * nat) :=
  for_ (length (dims t)) (fun i '(dimensions, j, left_, middle_, right_) =>
    d <- dimension t (Z.of_nat i) ;;
    dimensions <- wr dimensions j d ;;
    let j := S j in
    if i <? ndx then Ok (dimensions, j, left_ * d, middle_, right_)
    else if ndx <? i then Ok (dimensions, j, left_, middle_, right_ * d)
    else Ok (dimensions, j - 1, left_, d, right_))
  (alloc jdims (length (dims t) - 1), 0, 1, 0, 1).

(* do_mean, tensor_mean_ndx.cc:26-58.  The variable middle is set by the first
   loop because normalize_index leaves ndx in range.  at() and operator() with
   indices in range are set2 / get2 / get3 of M_Tensor. *)
Definition mean_ndx (jdims : nat -> nat) (junk : nat -> A) (t : tensor A) (ndx : Z) : outcome (tensor A) :=
  let rank := length (dims t) in
  if rank =? 1 then set1 (new_tensor junk [1]) 0 (mean t) else
  ndx <- normalize_index ndx rank ;;
  '(dimensions, _, left_, middle_, right_) <- mean_dims jdims t ndx ;;
  aux <- reshape t [left_; middle_; right_] ;;
  output <- zeros N junk [left_; right_] ;;
  output <- for_ right_ (fun r => for_ middle_ (fun m => for_ left_ (fun l output =>
    o <- get2 output (Z.of_nat l) (Z.of_nat r) ;;
    x <- get3 aux (Z.of_nat l) (Z.of_nat m) (Z.of_nat r) ;;
    set2 output (Z.of_nat l) (Z.of_nat r) (nadd N o x)))) output ;;
  output <- reshape output dimensions ;;
  t_op_n ndiv junk output (of_index middle_).
End Reduce.

Section Order.
Context {A R : Type} (lt : R -> R -> bool).

(* std::max_element: keeps the first largest. Used in tensor_max_d.cc:24-28 *)
Definition std_max_element (l : list R) : outcome R :=
  match l with
  | [] => UB
  | x :: l' => Ok (fold_left (fun m y => if lt m y then y else m) l' x)
  end.
(* std::min_element, used in tensor_min_d.cc:24-28 *)
Definition std_min_element (l : list R) : outcome R :=
  match l with
  | [] => UB
  | x :: l' => Ok (fold_left (fun m y => if lt y m then y else m) l' x)
  end.
(* max, tensor_max_d.cc:24-28 *)
Definition max (t : tensor R) : outcome R :=
  _ <- assert_ (negb (length (data t) =? 0)) ;; std_max_element (data t).
(* min, tensor_min_d.cc:24-28 *)
Definition min (t : tensor R) : outcome R :=
  _ <- assert_ (negb (length (data t) =? 0)) ;; std_min_element (data t).

(* norm0, tensor_norm0_d.cc:24-31, tensor_norm0_z.cc:24-31;
   std::max(a, b) is (a < b) ? b : a *)
Definition norm0 (zero : R) (modulus : A -> R) (t : tensor A) : R :=
  fold_left (fun output x => if lt output (modulus x) then modulus x else output) (data t) zero.

(* matrix_norminf, matrix_norminf_d.cc:23-53, matrix_norminf_z.cc:23-53 *)
Definition matrix_norminf (zero : R) (add : R -> R -> R) (modulus : A -> R) (jaux : nat -> R) (m : tensor A) : outcome R :=
  _ <- assert_ (length (dims m) =? 2) ;;
  r <- dimension m 0 ;;
  c <- dimension m 1 ;;
  st <- for_ r (fun i '(aux, p) =>
    x <- rd (data m) p ;; aux <- wr aux i (modulus x) ;; Ok (aux, S p)) (alloc jaux r, 0) ;;
  '(aux, _) <- for_ (c - 1) (fun _ => for_ r (fun i '(aux, p) =>
    x <- rd (data m) p ;; y <- rd aux i ;; aux <- wr aux i (add y (modulus x)) ;; Ok (aux, S p))) st ;;
  for_ r (fun i output => x <- rd aux i ;; Ok (if lt output x then x else output)) zero.
End Order.

Section Sort.
Context {R : Type} (lt : R -> R -> bool).
(* std::sort, any function with the behaviour of S_Reduce.is_std_sort *)
Context (std_sort : (R -> R -> bool) -> list R -> list R).
Context (std_sort_ix : (nat -> nat -> bool) -> list nat -> list nat).

(* sort(RTensor), tensor_sort_d.cc:26-36; std::greater(x,y) is y < x *)
Definition sort (v : tensor R) (reverse : bool) : tensor R :=
  mkT (dims v) (if reverse then std_sort (fun x y => lt y x) (data v) else std_sort lt (data v)).

(* p[i1] < p[i2] and p[i1] > p[i2], tensor_sort_d.cc:38-56; the positions
   compared are always in range *)
Definition cmp_at (f : R -> R -> bool) (p : list R) (i1 i2 : nat) : bool :=
  match nth_error p i1, nth_error p i2 with Some x, Some y => f x y | _, _ => false end.

(* sort_indices(RTensor), tensor_sort_d.cc:58-74; iota(0,size-1) is 0,1,... *)
Definition sort_indices (v : tensor R) (reverse : bool) : list nat :=
  if length (data v) =? 0 then [] else
  let output := seq 0 (length (data v)) in
  if reverse then std_sort_ix (cmp_at (fun x y => lt y x) (data v)) output
  else std_sort_ix (cmp_at lt (data v)) output.
End Sort.

(* sort(Indices), tensor_sort_i.cc:26-36: std::less<double> and
   std::greater<double> convert the integers before comparing them *)
Definition sort_int (std_sort : (Z -> Z -> bool) -> list Z -> list Z) (v : list Z) (reverse : bool) : list Z :=
  if reverse then std_sort (fun x y => (round_double y <? round_double x)%Z) v
  else std_sort (fun x y => (round_double x <? round_double y)%Z) v.
(* sort_indices(Indices), tensor_sort_i.cc:58-74 compares integers *)
Definition sort_indices_int (std_sort_ix : (nat -> nat -> bool) -> list nat -> list nat) (v : list Z) (reverse : bool) : list nat :=
  sort_indices Z.ltb std_sort_ix (mkT [length v] v) reverse.

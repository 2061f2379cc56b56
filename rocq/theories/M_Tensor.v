(* Model of tensor construction, element access, element write and reshape.
   /repo/include/tensor/detail/common.h, tensor_base.hpp,
   src/indices/indices.cc, src/tensor/tensor_reshape_d.cc (and _z.cc) *)
From Verif Require Import Base Spec.

(* normalize_index, detail/common.h:25-30.  [index] is modelled by Z. *)
Definition normalize_index (i : Z) (dimension : nat) : outcome nat :=
  let i := (if (i <? 0) then i + Z.of_nat dimension else i)%Z in
  _ <- assert_ ((i <? Z.of_nat dimension) && (0 <=? i))%Z ;;
  Ok (Z.to_nat i).

(* ---- sizes ---- *)

(* Indices::total_size, src/indices/indices.cc:38-55, on unbounded integers *)
Fixpoint total_size_loop (aux : Z) (l : list Z) : Z :=
  match l with
  | [] => aux
  | d :: rest => if (d <? 0)%Z then 0%Z else total_size_loop (aux * d)%Z rest
  end.
(* Indices::total_size, indices.cc:38-55 *)
Definition total_sizeZ (l : list Z) : Z :=
  match l with [] => 0%Z | _ => total_size_loop 1%Z l end.

(* the same with the 64-bit signed type index (long): a product that does not
   fit is signed overflow, i.e. UB, aux *= *it, indices.cc:49 *)
Definition mul64 (a b : Z) : outcome Z :=
  let p := (a * b)%Z in
  if ((- 2 ^ 63 <=? p) && (p <? 2 ^ 63))%Z then Ok p else UB.
(* the loop of indices.cc:41-50 *)
Fixpoint total_size64_loop (aux : Z) (l : list Z) : outcome Z :=
  match l with
  | [] => Ok aux
  | d :: rest =>
    if (d <? 0)%Z then Ok 0%Z else aux' <- mul64 aux d ;; total_size64_loop aux' rest
  end.
(* Indices::total_size, indices.cc:38-55 *)
Definition total_size64 (l : list Z) : outcome Z :=
  match l with [] => Ok 0%Z | _ => total_size64_loop 1%Z l end.

(* total_size for non-negative dimensions, the case used in all other models, indices.cc:38-55 *)
Definition total_size (l : list nat) : nat :=
  Z.to_nat (total_sizeZ (map Z.of_nat l)).

Section Access.
Context {A : Type}.
Implicit Types t : tensor A.

(* Tensor(const Indices &), tensor_base.hpp:40-44; the constructors from 1 to 6
   integers (62-118) compute the same product.  Contents are uninitialised. *)
Definition new_tensor (junk : nat -> A) (ds : list nat) : tensor A :=
  mkT ds (alloc junk (total_size ds)).

(* Tensor::get_dimensions, tensor_base.hpp:149-201 (one overload per rank) *)
Definition get_dimensions1 t : outcome nat :=
  match dims t with [d] => Ok d | _ => Abort end.
(* tensor_base.hpp:155-160 *)
Definition get_dimensions2 t : outcome (nat * nat) :=
  match dims t with [d0; d1] => Ok (d0, d1) | _ => Abort end.
(* tensor_base.hpp:162-168 *)
Definition get_dimensions3 t : outcome (nat * nat * nat) :=
  match dims t with [d0; d1; d2] => Ok (d0, d1, d2) | _ => Abort end.
(* tensor_base.hpp:170-178 *)
Definition get_dimensions4 t : outcome (nat * nat * nat * nat) :=
  match dims t with [d0; d1; d2; d3] => Ok (d0, d1, d2, d3) | _ => Abort end.
(* tensor_base.hpp:180-189 *)
Definition get_dimensions5 t : outcome (nat * nat * nat * nat * nat) :=
  match dims t with [d0; d1; d2; d3; d4] => Ok (d0, d1, d2, d3, d4) | _ => Abort end.
(* tensor_base.hpp:191-201 *)
Definition get_dimensions6 t : outcome (nat * nat * nat * nat * nat * nat) :=
  match dims t with [d0; d1; d2; d3; d4; d5] => Ok (d0, d1, d2, d3, d4, d5) | _ => Abort end.

(* Tensor::dimension(int), tensor_base.hpp:142-147 *)
Definition dimension t (which : Z) : outcome nat :=
  _ <- assert_ (which <? Z.of_nat (length (dims t)))%Z ;;
  _ <- assert_ (0 <=? which)%Z ;;
  rd (dims t) (Z.to_nat which).

(* operator()(index...), tensor_base.hpp:219-283.  data_[...] is unchecked. *)
Definition get1 t i : outcome A :=
  length <- get_dimensions1 t ;;
  i <- normalize_index i length ;;
  rd (data t) i.
(* tensor_base.hpp:227-234 *)
Definition get2 t row col : outcome A :=
  '(rows, cols) <- get_dimensions2 t ;;
  row <- normalize_index row rows ;;
  col <- normalize_index col cols ;;
  rd (data t) (col * rows + row).
(* tensor_base.hpp:236-244 *)
Definition get3 t i1 i2 i3 : outcome A :=
  '(d1, d2, d3) <- get_dimensions3 t ;;
  i1 <- normalize_index i1 d1 ;;
  i2 <- normalize_index i2 d2 ;;
  i3 <- normalize_index i3 d3 ;;
  rd (data t) (((i3 * d2) + i2) * d1 + i1).
(* tensor_base.hpp:246-256 *)
Definition get4 t i1 i2 i3 i4 : outcome A :=
  '(d1, d2, d3, d4) <- get_dimensions4 t ;;
  i1 <- normalize_index i1 d1 ;;
  i2 <- normalize_index i2 d2 ;;
  i3 <- normalize_index i3 d3 ;;
  i4 <- normalize_index i4 d4 ;;
  rd (data t) ((((i4 * d3 + i3) * d2) + i2) * d1 + i1).
(* tensor_base.hpp:258-269 *)
Definition get5 t i1 i2 i3 i4 i5 : outcome A :=
  '(d1, d2, d3, d4, d5) <- get_dimensions5 t ;;
  i1 <- normalize_index i1 d1 ;;
  i2 <- normalize_index i2 d2 ;;
  i3 <- normalize_index i3 d3 ;;
  i4 <- normalize_index i4 d4 ;;
  i5 <- normalize_index i5 d5 ;;
  rd (data t) (((((i5 * d4 + i4) * d3 + i3) * d2) + i2) * d1 + i1).
(* tensor_base.hpp:271-283 *)
Definition get6 t i1 i2 i3 i4 i5 i6 : outcome A :=
  '(d1, d2, d3, d4, d5, d6) <- get_dimensions6 t ;;
  i1 <- normalize_index i1 d1 ;;
  i2 <- normalize_index i2 d2 ;;
  i3 <- normalize_index i3 d3 ;;
  i4 <- normalize_index i4 d4 ;;
  i5 <- normalize_index i5 d5 ;;
  i6 <- normalize_index i6 d6 ;;
  rd (data t) ((((((i6 * d5 + i5) * d4 + i4) * d3 + i3) * d2) + i2) * d1 + i1).

(* at(index...) = v, tensor_base.hpp:289-354; copy-on-write (M_RefCount.v) makes
   data_.at(i) = v an update of this tensor's own elements.
   at(index) does not check the rank: it addresses the elements linearly. *)
Definition set_at t (p : nat) (v : A) : outcome (tensor A) :=
  d <- wr (data t) p v ;; Ok (mkT (dims t) d).
(* tensor_base.hpp:294-298 *)
Definition set1 t i v : outcome (tensor A) :=
  i <- normalize_index i (length (data t)) ;;
  set_at t i v.
(* tensor_base.hpp:300-307 *)
Definition set2 t row col v : outcome (tensor A) :=
  '(d0, d1) <- get_dimensions2 t ;;
  row <- normalize_index row d0 ;;
  col <- normalize_index col d1 ;;
  set_at t (col * d0 + row) v.
(* tensor_base.hpp:309-317 *)
Definition set3 t i1 i2 i3 v : outcome (tensor A) :=
  '(d1, d2, d3) <- get_dimensions3 t ;;
  i1 <- normalize_index i1 d1 ;;
  i2 <- normalize_index i2 d2 ;;
  i3 <- normalize_index i3 d3 ;;
  set_at t (((i3 * d2) + i2) * d1 + i1) v.
(* tensor_base.hpp:319-328 *)
Definition set4 t i1 i2 i3 i4 v : outcome (tensor A) :=
  '(d1, d2, d3, d4) <- get_dimensions4 t ;;
  i1 <- normalize_index i1 d1 ;;
  i2 <- normalize_index i2 d2 ;;
  i3 <- normalize_index i3 d3 ;;
  i4 <- normalize_index i4 d4 ;;
  set_at t ((((i4 * d3 + i3) * d2) + i2) * d1 + i1) v.
(* tensor_base.hpp:330-341 *)
Definition set5 t i1 i2 i3 i4 i5 v : outcome (tensor A) :=
  '(d1, d2, d3, d4, d5) <- get_dimensions5 t ;;
  i1 <- normalize_index i1 d1 ;;
  i2 <- normalize_index i2 d2 ;;
  i3 <- normalize_index i3 d3 ;;
  i4 <- normalize_index i4 d4 ;;
  i5 <- normalize_index i5 d5 ;;
  set_at t (((((i5 * d4 + i4) * d3 + i3) * d2) + i2) * d1 + i1) v.
(* tensor_base.hpp:343-354 *)
Definition set6 t i1 i2 i3 i4 i5 i6 v : outcome (tensor A) :=
  '(d1, d2, d3, d4, d5, d6) <- get_dimensions6 t ;;
  i1 <- normalize_index i1 d1 ;;
  i2 <- normalize_index i2 d2 ;;
  i3 <- normalize_index i3 d3 ;;
  i4 <- normalize_index i4 d4 ;;
  i5 <- normalize_index i5 d5 ;;
  i6 <- normalize_index i6 d6 ;;
  set_at t ((((((i6 * d5 + i5) * d4 + i4) * d3 + i3) * d2) + i2) * d1 + i1) v.

(* overload resolution by number of arguments; other counts do not compile,
   tensor_base.hpp:219-283 *)
Definition get t (ix : list Z) : outcome A :=
  match ix with
  | [i1] => get1 t i1
  | [i1; i2] => get2 t i1 i2
  | [i1; i2; i3] => get3 t i1 i2 i3
  | [i1; i2; i3; i4] => get4 t i1 i2 i3 i4
  | [i1; i2; i3; i4; i5] => get5 t i1 i2 i3 i4 i5
  | [i1; i2; i3; i4; i5; i6] => get6 t i1 i2 i3 i4 i5 i6
  | _ => Abort
  end.
(* likewise for at, tensor_base.hpp:294-354 *)
Definition set t (ix : list Z) (v : A) : outcome (tensor A) :=
  match ix with
  | [i1] => set1 t i1 v
  | [i1; i2] => set2 t i1 i2 v
  | [i1; i2; i3] => set3 t i1 i2 i3 v
  | [i1; i2; i3; i4] => set4 t i1 i2 i3 i4 v
  | [i1; i2; i3; i4; i5] => set5 t i1 i2 i3 i4 i5 v
  | [i1; i2; i3; i4; i5; i6] => set6 t i1 i2 i3 i4 i5 i6 v
  | _ => Abort
  end.

(* Tensor(const Indices &, const Tensor &), tensor_base.hpp:46-51, and
   reshape(t, dims), tensor_reshape_d.cc:25-28.  Shares the data of [t]. *)
Definition reshape t (new_dims : list nat) : outcome (tensor A) :=
  _ <- assert_ (total_size new_dims =? length (data t)) ;;
  Ok (mkT new_dims (data t)).

(* Tensor::reshape(dims), tensor_base.hpp:203-208, in place *)
Definition reshape_method t (new_dims : list nat) : outcome (tensor A) :=
  _ <- assert_ (total_size new_dims =? length (data t)) ;;
  Ok (mkT new_dims (data t)).

(* flatten, tensor_flatten_d.cc:25-28: reshape(t, t.size()),
   tensor_reshape_d.cc:31-36 *)
Definition flatten t : outcome (tensor A) := reshape t [length (data t)].

End Access.

(* Tensor(const Indices &) with signed dimensions, tensor_base.hpp:40-44: the
   dimensions and the number of elements *)
Definition new_tensorZ (ds : list Z) : outcome (list Z * Z) :=
  n <- total_size64 ds ;; Ok (ds, n).
(* Tensor(index, ...) for 1 to 6 dimensions, tensor_base.hpp:62-118: data_(d1 *
   d2 * ...), without looking at the signs.  new[] refuses a negative number of
   elements, which becomes a huge size_t, with an exception. *)
Fixpoint product64 (aux : Z) (l : list Z) : outcome Z :=
  match l with [] => Ok aux | d :: rest => aux' <- mul64 aux d ;; product64 aux' rest end.
(* the constructors, tensor_base.hpp:62-118 *)
Definition new_tensor_ints (ds : list Z) : outcome (list Z * Z) :=
  match ds with
  | [] => Abort
  | d :: rest => n <- product64 d rest ;; if (n <? 0)%Z then Abort else Ok (ds, n)
  end.

(* C05-C08, C55: element access, element write, reshape, sizes. *)
From Verif Require Import Base Spec L_Lin M_Tensor L_Tensor.

(* C05.  [coords ds ix ps]: the signed indices ix designate the position ps. *)
Theorem C05_element_access :
  forall (A : Type) (t : tensor A) (ix : list Z),
    wf t -> 1 <= length ix <= 6 ->
    (forall ps, coords (dims t) ix ps -> exists v, elt t ps = Some v /\ get t ix = Ok v) /\
    ((forall ps, ~ coords (dims t) ix ps) -> get t ix = Abort).
Proof. exact @c05_get. Qed.
Print Assumptions C05_element_access.

Example C05_nonvacuous :
  let t := mkT [2;3] [10;11;20;21;30;31] in
  coords (dims t) [-1; 1]%Z [1;1] /\ elt t [1;1] = Some 21 /\ get t [-1;1]%Z = Ok 21 /\
  get t [2;0]%Z = Abort /\ get t [0]%Z = Abort.
Proof. cbv -[Z.of_nat Z.sub]. repeat split; auto; right; reflexivity. Qed.

(* C06 *)
Theorem C06_element_write :
  forall (A : Type) (t : tensor A) (ix : list Z) (v : A) (ps : list nat),
    wf t -> 1 <= length ix <= 6 -> coords (dims t) ix ps ->
    exists t', set t ix v = Ok t' /\ dims t' = dims t /\ wf t' /\ elt t' ps = Some v /\
      forall qs, qs <> ps -> elt t' qs = elt t qs.
Proof. exact @c06_set. Qed.
Print Assumptions C06_element_write.

(* writes outside the tensor fail an assertion; at(i) with a single index is
   documented to address the elements linearly, so there the rank is 1 *)
Theorem C06_element_write_rejected :
  forall (A : Type) (t : tensor A) (ix : list Z) (v : A),
    wf t -> 1 <= length ix <= 6 -> length (dims t) = length ix \/ length ix <> 1 ->
    (forall ps, ~ coords (dims t) ix ps) -> set t ix v = Abort.
Proof. exact @c06_reject. Qed.
Print Assumptions C06_element_write_rejected.

(* distinct coordinates never share storage and together cover all of it *)
Theorem C06_positions_bijective :
  forall ds : list nat, ds <> [] ->
    (forall ps qs, valid ds ps -> valid ds qs -> lin ds ps = lin ds qs -> ps = qs) /\
    (forall q, q < nelem ds <-> exists ps, valid ds ps /\ lin ds ps = q).
Proof. exact c06_bijection. Qed.
Print Assumptions C06_positions_bijective.

Example C06_nonvacuous :
  set (mkT [2;2] [1;2;3;4]) [1;-2]%Z 9 = Ok (mkT [2;2] [1;9;3;4]).
Proof. reflexivity. Qed.

(* C07 *)
Theorem C07_reshape :
  forall (A : Type) (t : tensor A) (ds : list nat), wf t ->
    (nelem ds = nelem (dims t) ->
       exists u, reshape t ds = Ok u /\ dims u = ds /\ data u = data t /\ wf u /\
         reshape u (dims t) = Ok t /\ reshape_method t ds = Ok u) /\
    (nelem ds <> nelem (dims t) -> reshape t ds = Abort /\ reshape_method t ds = Abort).
Proof. exact c07_reshape. Qed.
Print Assumptions C07_reshape.

Theorem C07_flatten :
  forall (A : Type) (t : tensor A), wf t -> flatten t = Ok (mkT [length (data t)] (data t)).
Proof. exact c07_flatten. Qed.
Print Assumptions C07_flatten.

Example C07_nonvacuous :
  wf (mkT [2;3] [1;2;3;4;5;6]) /\ nelem [3;2] = nelem [2;3] /\
  reshape (mkT [2;3] [1;2;3;4;5;6]) [3;2] = Ok (mkT [3;2] [1;2;3;4;5;6]) /\
  reshape (mkT [2;3] [1;2;3;4;5;6]) [4] = Abort.
Proof. repeat split. Qed.

(* C08 with the 64-bit index type: correct as long as no leading product
   overflows ... *)
Theorem C08_total_size_partial :
  forall l : list Z,
    l <> [] -> Forall (fun d => 0 <= d)%Z l ->
    (forall k, k <= length l -> (fold_right Z.mul 1 (firstn k l) < 2 ^ 63)%Z) ->
    total_size64 l = Ok (fold_right Z.mul 1%Z l).
Proof. exact c08_partial. Qed.
Print Assumptions C08_total_size_partial.

Example C08_nonvacuous : total_size64 [3;0;5]%Z = Ok 0%Z /\ total_size64 [3;4;5]%Z = Ok 60%Z.
Proof. split; reflexivity. Qed.

(* ... but the product of representable dimensions can overflow on the way even
   when the final product is representable (here it is 0). *)
Theorem C08_total_size_refuted :
  exists l, Forall (fun d => 0 <= d < 2 ^ 63)%Z l /\ fold_right Z.mul 1%Z l = 0%Z /\ total_size64 l = UB.
Proof. exact c08_refuted. Qed.
Print Assumptions C08_total_size_refuted.

(* in fact, exactly when a leading product overflows *)
Theorem C08_overflow :
  forall l : list Z, Forall (fun d => 0 <= d)%Z l ->
    (exists k, k <= length l /\ (2 ^ 63 <= fold_right Z.mul 1 (firstn k l))%Z) ->
    total_size64 l = UB /\ new_tensorZ l = UB.
Proof. exact c08_overflow. Qed.
Print Assumptions C08_overflow.

(* the same for a new tensor, whether it is made from a vector of dimensions or
   from up to 6 integers *)
Theorem C08_constructed_size_partial :
  forall l : list Z, l <> [] -> Forall (fun d => 0 <= d)%Z l ->
    (forall k, k <= length l -> (fold_right Z.mul 1 (firstn k l) < 2 ^ 63)%Z) ->
    new_tensorZ l = Ok (l, fold_right Z.mul 1%Z l) /\ new_tensor_ints l = Ok (l, fold_right Z.mul 1%Z l).
Proof. exact c08_ints. Qed.
Print Assumptions C08_constructed_size_partial.

(* every tensor construction yields as many elements as the dimensions say *)
Theorem C08_constructed_size :
  forall (A : Type) (junk : nat -> A) (ds : list nat),
    length (data (new_tensor junk ds)) = nelem ds /\ dims (new_tensor junk ds) = ds.
Proof. exact (fun A junk ds => conj (new_tensor_wf junk ds) eq_refl). Qed.
Print Assumptions C08_constructed_size.

(* C55 fails: a negative dimension is accepted and gives an empty tensor that
   still reports the negative dimension. *)
Theorem C55_negative_dimension_refuted :
  exists ds, Exists (fun d => d < 0)%Z ds /\ new_tensorZ ds = Ok (ds, 0%Z).
Proof. exact c55_refuted. Qed.
Print Assumptions C55_negative_dimension_refuted.

(* Two negative integers even give a tensor with elements. *)
Theorem C55_integers_refuted :
  exists ds, Forall (fun d => d < 0)%Z ds /\ new_tensor_ints ds = Ok (ds, 6%Z).
Proof. exact c55_ints_refuted. Qed.
Print Assumptions C55_integers_refuted.

(* Integers are rejected only when their product is negative. *)
Theorem C55_integers_partial :
  forall ds, (fold_right Z.mul 1 ds < 0)%Z ->
    (forall k, k <= length ds -> (- 2 ^ 63 <= fold_right Z.mul 1 (firstn k ds) < 2 ^ 63)%Z) ->
    new_tensor_ints ds = Abort.
Proof. exact c55_ints_odd. Qed.
Print Assumptions C55_integers_partial.

Example C55_nonvacuous :
  (fold_right Z.mul 1 [3; -2; 5] < 0)%Z /\
  forall k, k <= 3 -> (- 2 ^ 63 <= fold_right Z.mul 1 (firstn k [3; -2; 5]) < 2 ^ 63)%Z.
Proof. split; [reflexivity|]. intros [|[|[|[|k]]]] Hk; cbn [firstn fold_right]; lia. Qed.

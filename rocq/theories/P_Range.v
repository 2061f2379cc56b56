(* C09-C13, C56: reading and assigning slices. *)
From Verif Require Import Base Spec M_Tensor M_Range S_Range L_Range L_Slice L_Slice2.

(* C09.  [selections ds ss sels]: the ranges ss select the positions sels in
   dimensions of extents ds; [picks sels ks ps]: ps = (sels1[k1], ..., selsn[kn]).
   [fuel] bounds the number of loop iterations of the model: from some F on, the
   result does not depend on it.  [junk] is the initial content of fresh memory. *)
Theorem C09_slice_read :
  forall (A : Type) (t : tensor A) (ss : list rspec) (sels : list (list nat)) (junk : nat -> A),
    wf t -> dims t <> [] -> Forall (fun d => 0 < d) (dims t) -> selections (dims t) ss sels ->
    exists u : tensor A, wf u /\ dims u = sizes sels /\
      (forall ks ps, picks sels ks ps -> elt u ks = elt t ps) /\
      exists F, forall fuel, F <= fuel ->
        slice fuel junk t ss = Ok (map Z.of_nat (dims u), data u).
Proof. exact @c09_slice. Qed.
Print Assumptions C09_slice_read.

Example C09_nonvacuous :
  let t := mkT [3;2;2] [0;1;2;3;4;5;6;7;8;9;10;11] in
  let ss := [SIndex [2;0]; SFull; SSingle 1]%Z in
  selections (dims t) ss [[2;0];[0;1];[1]] /\
  (forall junk, slice 20 junk t ss = Ok ([2;2;1]%Z, [8;6;11;9])) /\
  (forall junk, slice 20 junk (mkT [5] [0;1;2;3;4]) [SStep 1 4 2]%Z = Ok ([2]%Z, [1;3])).
Proof.
  split; [|split; intros; reflexivity].
  split; [apply (sel_index 3 [2;0]); repeat constructor|].
  split; [apply (sel_full 2)|]. split; [apply (sel_single 2 1); auto|exact I].
Qed.

(* one range on a tensor of any rank, even without elements: the positions
   count the elements in memory order *)
Theorem C09_linear_slice :
  forall (A : Type) (t : tensor A) (s : rspec) (sel : list nat) (junk : nat -> A),
    selects (length (data t)) s sel ->
    exists vals, length vals = length sel /\
      (forall k p, nth_error sel k = Some p -> nth_error vals k = nth_error (data t) p) /\
      exists F, forall fuel, F <= fuel -> slice fuel junk t [s] = Ok ([Z.of_nat (length sel)], vals).
Proof. exact c09_linear. Qed.
Print Assumptions C09_linear_slice.

Example C09_linear_nonvacuous :
  selects 6 (SStep 1 5 2) (arith 1 2 3) /\
  (forall junk, slice 20 junk (mkT [2;3] [0;1;2;3;4;5]) [SStep 1 5 2]%Z = Ok ([3]%Z, [1;3;5])).
Proof. split; [apply (sel_step 6 1 5 2); lia|reflexivity]. Qed.

(* C10.  t' is t with the k-th selected position (first index fastest) holding
   the k-th of vals, everything else as before. *)
Theorem C10_assign_number :
  forall (A : Type) (t : tensor A) (ss : list rspec) (sels : list (list nat)),
    wf t -> dims t <> [] -> Forall (fun d => 0 < d) (dims t) -> selections (dims t) ss sels ->
    Forall (@NoDup nat) sels ->
    forall v : A, exists t',
      (wf t' /\ dims t' = dims t /\
       (forall ks ps, picks sels ks ps -> elt t' ps = Some v) /\
       (forall ps, (forall ks, ~ picks sels ks ps) -> elt t' ps = elt t ps)) /\
      exists F, forall fuel, F <= fuel -> assign_scalar fuel t ss v = Ok t'.
Proof. exact @c10_number. Qed.
Print Assumptions C10_assign_number.

Theorem C10_assign_tensor :
  forall (A : Type) (t : tensor A) (ss : list rspec) (sels : list (list nat)),
    wf t -> dims t <> [] -> Forall (fun d => 0 < d) (dims t) -> selections (dims t) ss sels ->
    Forall (@NoDup nat) sels ->
    forall u : tensor A, wf u ->
      (nelem (dims u) = prod (sizes sels) ->
       exists t',
        (wf t' /\ dims t' = dims t /\
         (forall ks ps, picks sels ks ps -> elt t' ps = nth_error (data u) (lin (sizes sels) ks)) /\
         (forall ps, (forall ks, ~ picks sels ks ps) -> elt t' ps = elt t ps)) /\
        exists F, forall fuel, F <= fuel -> assign_tensor fuel t ss u = Ok t') /\
      (nelem (dims u) <> prod (sizes sels) -> forall fuel, assign_tensor fuel t ss u = Abort).
Proof. exact @c10_tensor. Qed.
Print Assumptions C10_assign_tensor.

(* from a slice, possibly of t itself; when the shapes agree the element at
   (k1..kn) comes from the source position selected by (k1..kn) *)
Theorem C10_assign_slice :
  forall (A : Type) (t : tensor A) (ss : list rspec) (sels : list (list nat)),
    wf t -> dims t <> [] -> Forall (fun d => 0 < d) (dims t) -> selections (dims t) ss sels ->
    Forall (@NoDup nat) sels ->
    forall (u : tensor A) (su : list rspec) (selu : list (list nat)),
      wf u -> dims u <> [] -> Forall (fun d => 0 < d) (dims u) -> selections (dims u) su selu ->
      (prod (sizes selu) = prod (sizes sels) ->
       exists t' vals,
        (wf t' /\ dims t' = dims t /\
         (forall ks ps, picks sels ks ps -> elt t' ps = nth_error vals (lin (sizes sels) ks)) /\
         (forall ps, (forall ks, ~ picks sels ks ps) -> elt t' ps = elt t ps)) /\
        (forall ks ps, picks selu ks ps -> nth_error vals (lin (sizes selu) ks) = elt u ps) /\
        exists F, forall fuel, F <= fuel -> assign_view fuel t ss u su = Ok t') /\
      (prod (sizes selu) <> prod (sizes sels) -> forall fuel, assign_view fuel t ss u su = Abort).
Proof. exact @c10_view. Qed.
Print Assumptions C10_assign_slice.

(* one range on a tensor of any rank *)
Theorem C10_linear :
  forall (A : Type) (t : tensor A) (s : rspec) (sel : list nat),
    wf t -> selects (length (data t)) s sel -> NoDup sel ->
    (forall v : A, exists t',
       wf t' /\ dims t' = dims t /\
       (forall p, In p sel -> nth_error (data t') p = Some v) /\
       (forall p, ~ In p sel -> nth_error (data t') p = nth_error (data t) p) /\
       exists F, forall fuel, F <= fuel -> assign_scalar fuel t [s] v = Ok t') /\
    (forall u : tensor A, wf u -> nelem (dims u) = length sel -> exists t',
       wf t' /\ dims t' = dims t /\
       (forall k p, nth_error sel k = Some p -> nth_error (data t') p = nth_error (data u) k) /\
       (forall p, ~ In p sel -> nth_error (data t') p = nth_error (data t) p) /\
       exists F, forall fuel, F <= fuel -> assign_tensor fuel t [s] u = Ok t').
Proof. exact c10_linear. Qed.
Print Assumptions C10_linear.

Example C10_linear_nonvacuous :
  let t := mkT [2;2] [0;1;2;3] in
  selects 4 (SIndex [3;0]%Z) [3;0] /\ NoDup [3;0] /\
  assign_scalar 20 t [SIndex [3;0]]%Z 9 = Ok (mkT [2;2] [9;1;2;9]) /\
  assign_tensor 20 t [SIndex [3;0]]%Z (mkT [1;2] [7;8]) = Ok (mkT [2;2] [8;1;2;7]).
Proof.
  split; [apply (sel_index 4 [3;0]); repeat constructor; lia|].
  split; [repeat constructor; simpl; intuition discriminate|]. split; reflexivity.
Qed.

Example C10_nonvacuous :
  let t := mkT [2;3] [0;1;2;3;4;5] in
  let ss := [SSingle 1; SStep 0 2 2]%Z in
  let su := [SSingle 1; SIndex [2;0]]%Z in
  selections (dims t) ss [[1];[0;2]] /\ Forall (@NoDup nat) [[1];[0;2]] /\
  assign_scalar 20 t ss 9 = Ok (mkT [2;3] [0;9;2;3;4;9]) /\
  assign_tensor 20 t ss (mkT [2] [7;8]) = Ok (mkT [2;3] [0;7;2;3;4;8]) /\
  assign_view 20 t ss t su = Ok (mkT [2;3] [0;5;2;3;4;1]) /\
  assign_tensor 20 t ss (mkT [3] [7;8;9]) = Abort.
Proof.
  split; [|split; [|repeat split]].
  - split; [apply (sel_single 2 1); auto|]. split; [apply (sel_step 3 0 2 2); auto|exact I].
  - repeat constructor; simpl; intuition discriminate.
Qed.

(* C11 fails.  On a vector, range(-1) does not deliver the last element but
   leaves the result uninitialised ... *)
Theorem C11_negative_position_refuted :
  exists t : tensor nat, wf t /\ coord 3 (-1) 2 /\ dims t = [3] /\
    forall junk fuel, 2 <= fuel -> slice fuel junk t [SSingle (-1)]%Z = Ok ([1]%Z, [junk 0]).
Proof. exact c11_vector. Qed.
Print Assumptions C11_negative_position_refuted.

(* ... and in a later dimension it reads outside the tensor. *)
Theorem C11_negative_position_outside_refuted :
  exists t : tensor nat, wf t /\ dims t = [2;2] /\
    forall junk fuel, 4 <= fuel -> slice fuel junk t [SFull; SSingle (-1)]%Z = UB.
Proof. exact c11_matrix. Qed.
Print Assumptions C11_negative_position_outside_refuted.

(* C12 for ranges with non-negative positions, start <= end, positive step,
   except that an index list may not contain the extent itself. *)
Theorem C12_out_of_range_partial :
  forall (A : Type) (t : tensor A) (ss : list rspec) (junk : nat -> A),
    wf t -> Forall2 ordinary (dims t) ss -> (forall sels, ~ selections (dims t) ss sels) ->
    forall fuel, slice fuel junk t ss = Abort /\
      (forall v, assign_scalar fuel t ss v = Abort) /\ (forall u, assign_tensor fuel t ss u = Abort) /\
      (forall u su, assign_view fuel t ss u su = Abort).
Proof. exact c12_rejects. Qed.
Print Assumptions C12_out_of_range_partial.

Theorem C12_wrong_rank :
  forall (A : Type) (t : tensor A) (ss : list rspec) (junk : nat -> A),
    length ss <> length (dims t) -> length ss <> 1 -> forall fuel, slice fuel junk t ss = Abort.
Proof. exact c12_rank. Qed.
Print Assumptions C12_wrong_rank.

(* Exactly what is refused, whatever the ranges, the tensor and its contents:
   a wrong number of ranges, or some position beyond the end.  Nothing else
   makes reading a slice, or assigning a number to it, stop with an error. *)
Theorem C12_refused_exactly :
  forall (A : Type) (t : tensor A) (ss : list rspec), ss <> [] ->
    forall (junk : nat -> A) (fuel : nat),
      (slice fuel junk t ss = Abort <-> refused (dims t) (length (data t)) ss) /\
      (forall v, assign_scalar fuel t ss v = Abort <-> refused (dims t) (length (data t)) ss).
Proof. exact c12_exact. Qed.
Print Assumptions C12_refused_exactly.

Example C12_refused_meets :
  refused [2;3] 6 [SSingle (-7); SStep 5 3 0]%Z /\ ~ refused [2;3] 6 [SSingle (-7); SStep 5 2 0]%Z /\
  refused [2;3] 6 [SSingle 6]%Z /\ ~ refused [2;3] 6 [SSingle 5]%Z /\ refused [2;3] 6 [SFull; SFull; SFull].
Proof.
  split; [right; exists 1, 3, (SStep 5 3 0)%Z; simpl; repeat split; lia|].
  split; [|split; [simpl; lia|split; [simpl; lia|left; discriminate]]].
  intros [H|(k & d & s & H1 & H2 & H3)]; [apply H; reflexivity|].
  destruct k as [|[|k]]; simpl in *; try (injection H1 as <-; injection H2 as <-; simpl in H3; lia).
  destruct k; discriminate.
Qed.

Example C12_nonvacuous :
  Forall2 ordinary [2;3] [SSingle 2; SFull]%Z /\ ~ (exists sel, selects 2 (SSingle 2)%Z sel) /\
  (forall junk, slice 9 junk (mkT [2;3] [0;1;2;3;4;5]) [SSingle 2; SFull]%Z = Abort).
Proof.
  split; [repeat constructor; discriminate|]. split; [|reflexivity].
  intros [sel H]. inversion H. lia.
Qed.

(* The missing case: an index list may contain the extent, which is read. *)
Theorem C12_index_list_refuted :
  exists t : tensor nat, wf t /\ dims t = [3] /\
    forall junk fuel, 2 <= fuel -> slice fuel junk t [SIndex [3]]%Z = UB.
Proof. exact c12_refuted. Qed.
Print Assumptions C12_index_list_refuted.

(* C13 holds for in-range selections of tensors without empty dimensions: see
   C09_slice_read.  It fails with an empty dimension: the program never
   finishes ... *)
Theorem C13_empty_dimension_hangs_refuted :
  exists t : tensor nat, wf t /\ dims t = [0;3] /\
    forall junk fuel, slice fuel junk t [SFull; SStep 0 2 1]%Z = Hang.
Proof. exact c13_hangs. Qed.
Print Assumptions C13_empty_dimension_hangs_refuted.

(* ... or divides by zero; *)
Theorem C13_empty_dimension_traps_refuted :
  exists t : tensor nat, wf t /\ dims t = [2;0;2] /\
    forall junk fuel, slice fuel junk t [SFull; SFull; SSingle 0]%Z = UB.
Proof. exact c13_traps. Qed.
Print Assumptions C13_empty_dimension_traps_refuted.

(* and a negative step delivers uninitialised elements. *)
Theorem C13_negative_step_refuted :
  exists t : tensor nat, wf t /\ dims t = [3] /\
    forall junk fuel, 2 <= fuel -> slice fuel junk t [SStep 2 0 (-1)]%Z = Ok ([3]%Z, [junk 0; junk 1; junk 2]).
Proof. exact c13_negstep. Qed.
Print Assumptions C13_negative_step_refuted.

(* an exact multiple of the claim that does hold: slices made only of full
   ranges terminate and return t, for every shape *)
Theorem C13_full_slices_partial :
  forall (A : Type) (t : tensor A) (junk : nat -> A),
    wf t -> dims t <> [] ->
    exists F, forall fuel, F <= fuel ->
      slice fuel junk t (map (fun _ => SFull) (dims t)) = Ok (map Z.of_nat (dims t), data t).
Proof. exact @c13_full. Qed.
Print Assumptions C13_full_slices_partial.

Example C13_nonvacuous :
  (forall junk : nat -> nat, slice 9 junk (mkT [2;0;2] []) [SFull;SFull;SFull] = Ok ([2;0;2]%Z, [])) /\
  (forall junk, slice 9 junk (mkT [2;2] [1;2;3;4]) [SFull;SFull] = Ok ([2;2]%Z, [1;2;3;4])).
Proof. split; reflexivity. Qed.

(* C56 fails: assigning a tensor to a permuted slice of itself reads elements
   that were already overwritten. *)
Theorem C56_self_assignment_refuted :
  exists (t : tensor nat) (ss : list rspec),
    wf t /\ selections (dims t) ss [[1;0]] /\ data t = [5;7] /\
    forall fuel, 4 <= fuel -> assign_self fuel t ss = Ok (mkT [2] [5;5]).
Proof. exact c56_refuted. Qed.
Print Assumptions C56_self_assignment_refuted.

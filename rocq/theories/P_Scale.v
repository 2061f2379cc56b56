(* C22 - C26: scale, change_dimension, trace, diag, take_diag, squeeze.
   Throughout, "dims t = p ++ l :: s" with "coord (rank t) n (length p)" says
   that the argument n, possibly negative, designates the index of extent l. *)
From Verif Require Import Base Spec S_Fold S_Trace M_Tensor M_Arith M_Fold M_Scale L_Scale L_Trace.

(* C22 *)
Theorem C22_scale : forall A (N : numops A) junk (t v : tensor A) n p l s,
  (forall x y, nmul N x y = nmul N y x) ->
  wf t -> wf v -> dims t = p ++ l :: s -> coord (length (dims t)) n (length p) -> dims v = [l] ->
  exists c, scale N junk t n v = Ok c /\ wf c /\ dims c = dims t /\
    forall u x w, valid p u -> x < l -> valid s w ->
      elt c (u ++ x :: w) = Some (nmul N (val N t (u ++ x :: w)) (val N v [x])).
Proof. intros A N junk t v n p l s Hc. apply scale_ok; auto. Qed.
Print Assumptions C22_scale.

Theorem C22_scale_inplace : forall A (N : numops A) (t v : tensor A) n p l s,
  wf t -> wf v -> dims t = p ++ l :: s -> coord (length (dims t)) n (length p) -> dims v = [l] ->
  exists c, scale_inplace N t n v = Ok c /\ wf c /\ dims c = dims t /\
    forall u x w, valid p u -> x < l -> valid s w ->
      elt c (u ++ x :: w) = Some (nmul N (val N t (u ++ x :: w)) (val N v [x])).
Proof. intros. apply scale_inplace_ok; auto. Qed.
Print Assumptions C22_scale_inplace.

Theorem C22_wrong_size_rejected : forall A (N : numops A) junk (t v : tensor A) n p l s,
  dims t = p ++ l :: s -> coord (length (dims t)) n (length p) -> wf v -> nelem (dims v) <> l ->
  scale N junk t n v = Abort /\ scale_inplace N t n v = Abort.
Proof. intros. eapply scale_reject_size; eauto. Qed.
Print Assumptions C22_wrong_size_rejected.

Theorem C22_wrong_index_rejected : forall A (N : numops A) junk (t v : tensor A) n,
  (forall p, ~ coord (length (dims t)) n p) ->
  scale N junk t n v = Abort /\ scale_inplace N t n v = Abort.
Proof. intros. apply scale_reject_index; auto. Qed.
Print Assumptions C22_wrong_index_rejected.

Example C22_nonvacuous :
  let t := mkT [2; 3] [1; 2; 3; 4; 5; 6]%Z in let v := mkT [3] [1; 10; 100]%Z in
  wf t /\ wf v /\ coord 2 (-1) 1 /\
  scale Znum (fun _ => 9%Z) t (-1) v = Ok (mkT [2; 3] [1; 2; 30; 40; 500; 600]%Z) /\
  scale_inplace Znum t 1 v = Ok (mkT [2; 3] [1; 2; 30; 40; 500; 600]%Z) /\
  scale Znum (fun _ => 9%Z) t 0 v = Abort /\ scale Znum (fun _ => 9%Z) t 2 v = Abort.
Proof. repeat split; unfold coord; simpl; lia. Qed.

(* C23 *)
Theorem C23_change_dimension : forall A (N : numops A) junk (a : tensor A) n k p l s,
  wf a -> dims a = p ++ l :: s -> coord (length (dims a)) n (length p) ->
  exists c, change_dimension N junk a n k = Ok c /\ wf c /\ dims c = p ++ k :: s /\
    forall u x w, valid p u -> x < k -> valid s w ->
      elt c (u ++ x :: w) = if x <? l then elt a (u ++ x :: w) else Some (nzero N).
Proof. intros. apply change_dimension_ok; auto. Qed.
Print Assumptions C23_change_dimension.

Theorem C23_wrong_index_rejected : forall A (N : numops A) junk (a : tensor A) n k,
  (forall p, ~ coord (length (dims a)) n p) -> change_dimension N junk a n k = Abort.
Proof. intros. apply change_dimension_reject; auto. Qed.
Print Assumptions C23_wrong_index_rejected.

Example C23_nonvacuous :
  let t := mkT [2; 2] [1; 2; 3; 4]%Z in
  wf t /\ coord 2 0 0 /\
  change_dimension Znum (fun _ => 9%Z) t 0 3 = Ok (mkT [3; 2] [1; 2; 0; 3; 4; 0]%Z) /\
  change_dimension Znum (fun _ => 9%Z) t (-2) 1 = Ok (mkT [1; 2] [1; 3]%Z) /\
  change_dimension Znum (fun _ => 9%Z) t 1 0 = Ok (mkT [2; 0] []).
Proof. repeat split; unfold coord; simpl; lia. Qed.

(* C24: i and j, in either order, designate the indices of extents a2 and a4.
   Missing from the full statement: the spelling -rank of the first index. *)
Theorem C24_trace_partial : forall A (N : numops A) jdims junk (D : tensor A) i j p1 a2 p3 a4 p5,
  wf D -> dims D = p1 ++ a2 :: p3 ++ a4 :: p5 ->
  (coord (length (dims D)) i (length p1) /\ coord (length (dims D)) j (S (length p1) + length p3) \/
   coord (length (dims D)) j (length p1) /\ coord (length (dims D)) i (S (length p1) + length p3)) ->
  i <> (- Z.of_nat (length (dims D)))%Z -> j <> (- Z.of_nat (length (dims D)))%Z ->
  exists c, trace N jdims junk D i j = Ok c /\ wf c /\ dims c = scalar_dims (p1 ++ p3 ++ p5) /\
    forall u1 u3 u5, valid p1 u1 -> valid p3 u3 -> valid p5 u5 ->
      elt c (scalar_ix (u1 ++ u3 ++ u5)) =
      Some (sum_n N (Nat.min a2 a4) (fun l => val N D (u1 ++ l :: u3 ++ l :: u5))).
Proof. intros. apply trace_ok; auto. Qed.
Print Assumptions C24_trace_partial.

(* -rank designates the first index everywhere else, but here it is refused *)
Theorem C24_first_index_as_minus_rank_refuted :
  exists (D : tensor Z) i j, wf D /\ coord (length (dims D)) i 0 /\ coord (length (dims D)) j 1 /\
    trace Znum (fun _ => 7) (fun _ => 9%Z) D i j = Abort /\
    trace Znum (fun _ => 7) (fun _ => 9%Z) D 0 j = Ok (mkT [1] [5%Z]).
Proof. exists (mkT [2; 2] [1; 2; 3; 4]%Z), (-2)%Z, (-1)%Z. repeat split; unfold coord; simpl; lia. Qed.
Print Assumptions C24_first_index_as_minus_rank_refuted.

Theorem C24_same_index_rejected : forall A (N : numops A) jdims junk (D : tensor A) i j p,
  coord (length (dims D)) i p -> coord (length (dims D)) j p -> trace N jdims junk D i j = Abort.
Proof. intros. eapply trace_reject_same; eauto. Qed.
Print Assumptions C24_same_index_rejected.

Theorem C24_wrong_index_rejected : forall A (N : numops A) jdims junk (D : tensor A) i j,
  (forall p, ~ coord (length (dims D)) i p) \/ (forall p, ~ coord (length (dims D)) j p) ->
  trace N jdims junk D i j = Abort.
Proof. intros. apply trace_reject_index; auto. Qed.
Print Assumptions C24_wrong_index_rejected.

Theorem C24_matrix_trace : forall A (N : numops A) (m : tensor A) r c,
  wf m -> dims m = [r; c] ->
  trace_matrix N m = Ok (sum_n N (Nat.min r c) (fun i => val N m [i; i])).
Proof. intros. apply trace_matrix_ok; auto. Qed.
Print Assumptions C24_matrix_trace.

Example C24_nonvacuous :
  let D := mkT [2; 2; 2] [1; 2; 3; 4; 10; 20; 30; 40]%Z in
  wf D /\
  trace Znum (fun _ => 7) (fun _ => 9%Z) D 0 1 = Ok (mkT [2] [5; 50]%Z) /\
  trace Znum (fun _ => 7) (fun _ => 9%Z) D (-1) 0 = Ok (mkT [2] [21; 43]%Z) /\
  trace Znum (fun _ => 7) (fun _ => 9%Z) D 1 (-2) = Abort /\
  trace_matrix Znum (mkT [3; 2] [1; 2; 3; 4; 5; 6]%Z) = Ok 6%Z.
Proof. repeat split. Qed.

(* C25 *)
Theorem C25_diag : forall A (N : numops A) junk (v : tensor A) (k : Z) rows cols n,
  wf v -> dims v = [n] ->
  Z.of_nat n = Z.min (Z.of_nat rows + Z.min k 0) (Z.of_nat cols - Z.max k 0) ->
  exists m, diag_matrix N junk v k rows cols = Ok m /\ wf m /\ dims m = [rows; cols] /\
    (forall p, p < n -> elt m [Z.to_nat (Z.of_nat p - Z.min k 0); Z.to_nat (Z.of_nat p + Z.max k 0)] = elt v [p]) /\
    (forall i j, i < rows -> j < cols -> (Z.of_nat j - Z.of_nat i)%Z <> k -> elt m [i; j] = Some (nzero N)).
Proof. intros. apply diag_matrix_ok; auto. Qed.
Print Assumptions C25_diag.

Theorem C25_diag_wrong_size_rejected : forall A (N : numops A) junk (v : tensor A) (k : Z) rows cols,
  wf v -> Z.of_nat (nelem (dims v)) <> Z.min (Z.of_nat rows + Z.min k 0) (Z.of_nat cols - Z.max k 0) ->
  diag_matrix N junk v k rows cols = Abort.
Proof. intros. apply diag_matrix_reject; auto. Qed.
Print Assumptions C25_diag_wrong_size_rejected.

(* diag(v,k) is square, of side |v| + |k| *)
Theorem C25_diag_square : forall A (N : numops A) junk (v : tensor A) (k : Z) n,
  wf v -> dims v = [n] ->
  diag N junk v k = diag_matrix N junk v k (n + Z.to_nat (Z.abs k)) (n + Z.to_nat (Z.abs k)) /\
  exists m, diag N junk v k = Ok m.
Proof.
  intros A N junk v k n Hw E.
  assert (El : length (data v) = n) by (rewrite Hw, E; unfold nelem, prod; simpl; lia).
  split; [unfold diag; rewrite El; reflexivity|]. unfold diag. rewrite El.
  destruct (diag_matrix_ok N junk v k (n + Z.to_nat (Z.abs k)) (n + Z.to_nat (Z.abs k)) n Hw E ltac:(lia)) as (m & Hm & _).
  eauto.
Qed.
Print Assumptions C25_diag_square.

(* Missing: tensors where the indices after j and those between i and j have
   extents such that neither product condition holds. *)
Theorem C25_take_diag_partial : forall A (N : numops A) jdims junk (a : tensor A) (k i j : Z) p1 a2 p3 a4 p5,
  wf a -> dims a = p1 ++ a2 :: p3 ++ a4 :: p5 ->
  coord (length (dims a)) i (length p1) -> coord (length (dims a)) j (S (length p1) + length p3) ->
  (- Z.of_nat a2 < k < Z.of_nat a4)%Z ->
  prod p5 <= 1 \/ prod p3 = a4 ->
  exists c n, take_diag jdims junk a k i j = Ok c /\ take_diag jdims junk a (- k) j i = Ok c /\ wf c /\
    Z.of_nat n = Z.min (Z.of_nat a2 + Z.min k 0) (Z.of_nat a4 - Z.max k 0) /\
    dims c = p1 ++ n :: p3 ++ p5 /\
    forall u1 x u3 u5, valid p1 u1 -> x < n -> valid p3 u3 -> valid p5 u5 ->
      elt c (u1 ++ x :: u3 ++ u5) =
      elt a (u1 ++ Z.to_nat (Z.of_nat x - Z.min k 0) :: u3 ++ Z.to_nat (Z.of_nat x + Z.max k 0) :: u5).
Proof. intros. eapply take_diag_ok; eauto. Qed.
Print Assumptions C25_take_diag_partial.

(* elsewhere it returns other elements: t(0,0,1) = 5 is not what it returns *)
Theorem C25_take_diag_refuted :
  exists (t c : tensor Z), wf t /\ dims t = [2; 2; 2] /\
    take_diag (fun _ => 7) (fun _ => 9%Z) t 0 0 1 = Ok c /\
    elt c [0; 1] <> elt t [0; 0; 1].
Proof.
  exists (mkT [2; 2; 2] [1; 2; 3; 4; 5; 6; 7; 8]%Z), (mkT [2; 2] [1; 4; 3; 6]%Z).
  repeat split. discriminate.
Qed.
Print Assumptions C25_take_diag_refuted.

(* and it may read outside of the tensor *)
Theorem C25_take_diag_bounds_refuted :
  exists (t : tensor Z), wf t /\ dims t = [2; 3; 1; 2] /\
    take_diag (fun _ => 7) (fun _ => 9%Z) t 0 0 2 = UB.
Proof. exists (mkT [2; 3; 1; 2] [1; 2; 3; 4; 5; 6; 7; 8; 9; 10; 11; 12]%Z). repeat split. Qed.
Print Assumptions C25_take_diag_bounds_refuted.

Theorem C25_take_diag_of_diag : forall A (N : numops A) jdims junk (v : tensor A) n k,
  wf v -> dims v = [n] -> 0 < n ->
  exists m, diag N junk v k = Ok m /\ take_diag jdims junk m k 0 (-1) = Ok v.
Proof. intros. eapply take_diag_diag; eauto. Qed.
Print Assumptions C25_take_diag_of_diag.

(* the same index twice is not refused: the next one takes its place *)
Theorem C25_take_diag_same_index_refuted :
  exists (t c : tensor Z), wf t /\ take_diag (fun _ => 7) (fun _ => 9%Z) t 0 0 0 = Ok c.
Proof. exists (mkT [2; 2] [1; 2; 3; 4]%Z), (mkT [2] [1; 4]%Z). repeat split. Qed.
Print Assumptions C25_take_diag_same_index_refuted.

Example C25_nonvacuous :
  let v := mkT [2] [5; 7]%Z in
  wf v /\
  diag_matrix Znum (fun _ => 9%Z) v (-1) 2 4 = Abort /\
  diag_matrix Znum (fun _ => 9%Z) v (-1) 3 4 = Ok (mkT [3; 4] [0; 5; 0; 0; 0; 7; 0; 0; 0; 0; 0; 0]%Z) /\
  diag Znum (fun _ => 9%Z) v 1 = Ok (mkT [3; 3] [0; 0; 0; 5; 0; 0; 0; 7; 0]%Z) /\
  take_diag (fun _ => 7) (fun _ => 9%Z) (mkT [2; 2; 3] [1; 2; 3; 4; 5; 6; 7; 8; 9; 10; 11; 12]%Z) 1 0 2
    = Ok (mkT [2; 2] [5; 10; 7; 12]%Z).
Proof. repeat split. Qed.

(* C26 *)
Theorem C26_squeeze_partial : forall A jdims (t : tensor A),
  wf t -> Forall (fun d => 0 < d) (dims t) -> non_unit (dims t) <> [] ->
  exists c, squeeze jdims t = Ok c /\ wf c /\ dims c = non_unit (dims t) /\ data c = data t /\
    forall ix, valid (dims t) ix -> elt c (drop_unit (dims t) ix) = elt t ix.
Proof. intros. apply squeeze_ok; auto. Qed.
Print Assumptions C26_squeeze_partial.

Theorem C26_squeeze_all_ones_refuted :
  exists t : tensor Z, wf t /\ dims t = [1; 1] /\ forall jdims, squeeze jdims t = Abort.
Proof. exists (mkT [1; 1] [5%Z]). repeat split. Qed.
Print Assumptions C26_squeeze_all_ones_refuted.

(* whatever the memory contains, an empty dimension is not kept in its place *)
Theorem C26_squeeze_empty_dimension_refuted :
  exists t : tensor Z, wf t /\ dims t = [0; 3] /\
    forall jdims c, squeeze jdims t = Ok c -> dims c <> [0; 3].
Proof.
  exists (mkT [0; 3] (@nil Z)). repeat split. intros jd c H E.
  unfold squeeze, squeeze_dimensions in H. simpl in H. unfold reshape in H.
  destruct (assert_ _) in H; simpl in H; try discriminate. inversion H; subst. discriminate.
Qed.
Print Assumptions C26_squeeze_empty_dimension_refuted.

Example C26_nonvacuous :
  let t := mkT [1; 2; 1; 3] [1; 2; 3; 4; 5; 6]%Z in
  wf t /\ Forall (fun d => 0 < d) (dims t) /\ non_unit (dims t) = [2; 3] /\
  squeeze (fun _ => 7) t = Ok (mkT [2; 3] [1; 2; 3; 4; 5; 6]%Z) /\
  drop_unit [1; 2; 1; 3] [0; 1; 0; 2] = [1; 2].
Proof. repeat split. repeat constructor. Qed.

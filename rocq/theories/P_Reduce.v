(* C31, C32, C58: reductions, norms and sorting. *)
From Verif Require Import Base Spec S_Fold S_Reduce M_Tensor M_Arith M_Fold M_Reduce L_Fold L_Reduce.

(* C31 *)
Theorem C31_sum : forall A (N : numops A) (t : tensor A),
  sum N t = sum_n N (length (data t)) (fun q => nth q (data t) (nzero N)) /\
  (numlaws N -> forall u, Permutation (data t) (data u) -> sum N u = sum N t).
Proof. intros. split; [apply sum_ok|]. intros Hl u Hp. symmetry. apply sum_perm; auto. Qed.
Print Assumptions C31_sum.

Theorem C31_scprod_partial : forall A (N : numops A) (a b : tensor A), length (data a) = length (data b) ->
  scprod N a b = Ok (sum_n N (length (data a)) (fun q =>
    nmul N (nth q (data a) (nzero N)) (nconj N (nth q (data b) (nzero N))))).
Proof. intros. apply scprod_ok; auto. Qed.
Print Assumptions C31_scprod_partial.

(* the sizes are not compared: a shorter second tensor is read past its end *)
Theorem C31_scprod_sizes_unchecked_refuted :
  scprod Znum (mkT [3] [1; 2; 3]%Z) (mkT [2] [1; 2]%Z) = UB /\
  scprod Znum (mkT [2] [1; 2]%Z) (mkT [3] [1; 2; 3]%Z) = Ok 5%Z.
Proof. split; reflexivity. Qed.
Print Assumptions C31_scprod_sizes_unchecked_refuted.

(* mean over any index but the last *)
Theorem C31_mean_partial : forall A (N : numops A) ndiv of_index jd junk (t : tensor A) n p l s,
  wf t -> dims t = p ++ l :: s -> s <> [] -> coord (length (dims t)) n (length p) ->
  exists c, mean_ndx N ndiv of_index jd junk t n = Ok c /\ wf c /\ dims c = p ++ s /\
    forall u w, valid p u -> valid s w ->
      elt c (u ++ w) = Some (ndiv (sum_n N l (fun x => val N t (u ++ x :: w))) (of_index l)).
Proof. intros. apply mean_ndx_ok; auto. Qed.
Print Assumptions C31_mean_partial.

(* over the last index of a tensor with two or more, the dimension vector is
   written past its end, always *)
Theorem C31_mean_last_index_refuted : forall A (N : numops A) ndiv of_index jd junk (t : tensor A) n p l,
  dims t = p ++ [l] -> p <> [] -> coord (length (dims t)) n (length p) ->
  mean_ndx N ndiv of_index jd junk t n = UB.
Proof. intros. eapply mean_ndx_last; eauto. Qed.
Print Assumptions C31_mean_last_index_refuted.

(* a vector gives its mean, whatever the index: out of range ones are accepted *)
Theorem C31_mean_vector : forall A (N : numops A) ndiv of_index jd junk (t : tensor A) n l,
  dims t = [l] ->
  mean_ndx N ndiv of_index jd junk t n =
  Ok (mkT [1] [ndiv (sum_n N (length (data t)) (fun q => nth q (data t) (nzero N))) (of_index (length (data t)))]).
Proof. intros. rewrite (mean_ndx_rank1 N ndiv of_index jd junk t n l) by auto. unfold mean. rewrite sum_ok. reflexivity. Qed.
Print Assumptions C31_mean_vector.

Theorem C31_max_min : forall R (lt : R -> R -> bool) (t : tensor R), strict_total lt -> data t <> [] ->
  (exists m, max lt t = Ok m /\ In m (data t) /\ forall x, In x (data t) -> lt m x = false) /\
  (exists m, min lt t = Ok m /\ In m (data t) /\ forall x, In x (data t) -> lt x m = false).
Proof. intros R lt t H H0. split; [apply max_ok|apply min_ok]; auto. Qed.
Print Assumptions C31_max_min.

Theorem C31_max_min_empty_rejected : forall R (lt : R -> R -> bool) (t : tensor R), data t = [] ->
  max lt t = Abort /\ min lt t = Abort.
Proof. intros R lt t H. unfold max, min. rewrite H. split; reflexivity. Qed.
Print Assumptions C31_max_min_empty_rejected.

(* norm0 is the largest modulus, and 0 for an empty tensor *)
Theorem C31_norm0 : forall A R (lt : R -> R -> bool) zero (modulus : A -> R) (t : tensor A),
  strict_total lt -> (forall x, lt (modulus x) zero = false) ->
  (data t = [] -> norm0 lt zero modulus t = zero) /\
  (data t <> [] -> exists x, In x (data t) /\ norm0 lt zero modulus t = modulus x) /\
  forall x, In x (data t) -> lt (norm0 lt zero modulus t) (modulus x) = false.
Proof.
  intros A R lt zero modulus t Hlt Hpos. unfold norm0.
  pose proof (fold_max lt Hlt modulus (data t) zero) as (H1 & H2 & H3). split; [intros ->; reflexivity|]. split; [|exact H3].
  intros Hne. destruct H1 as [H1|H1]; [|exact H1].
  destruct (data t) as [|x l] eqn:E; [congruence|]. exists x. split; [left; auto|].
  apply (st_total _ Hlt).
  - apply H3. left; auto.
  - rewrite H1. apply Hpos.
Qed.
Print Assumptions C31_norm0.

Example C31_nonvacuous :
  let t := mkT [2; 3] [1; -2; 3; 4; 5; 6]%Z in
  wf t /\ coord 2 (-2) 0 /\ strict_total Z.ltb /\
  sum Znum t = 17%Z /\ scprod Gnum (mkT [1] [(1, 2)%Z]) (mkT [1] [(3, 4)%Z]) = Ok (11, 2)%Z /\
  mean_ndx Znum Z.div Z.of_nat (fun _ => 9) (fun _ => 9%Z) t (-2) = Ok (mkT [3] [-1; 3; 5]%Z) /\
  mean_ndx Znum Z.div Z.of_nat (fun _ => 9) (fun _ => 9%Z) t 1 = UB /\
  mean_ndx Znum Z.div Z.of_nat (fun _ => 9) (fun _ => 9%Z) (mkT [2] [4; 6]%Z) 17 = Ok (mkT [1] [5%Z]) /\
  max Z.ltb t = Ok 6%Z /\ min Z.ltb t = Ok (-2)%Z /\ norm0 Z.ltb 0%Z Z.abs (mkT [2] [3; -7]%Z) = 7%Z.
Proof. repeat split; try (unfold coord; simpl; lia); intros; lia. Qed.

(* C32 *)
Theorem C32_sort : forall R (lt : R -> R -> bool) std_sort (v : tensor R) reverse,
  strict_total lt -> is_std_sort std_sort ->
  let s := sort lt std_sort v reverse in
  dims s = dims v /\ Permutation (data v) (data s) /\
  ordered (if reverse then (fun x y => lt y x) else lt) (data s).
Proof. intros. apply sort_ok; auto. Qed.
Print Assumptions C32_sort.

Theorem C32_sort_indices : forall R (lt : R -> R -> bool) std_sort std_sort_ix (v : tensor R) reverse,
  strict_total lt -> is_std_sort std_sort -> is_std_sort std_sort_ix ->
  let p := sort_indices lt std_sort_ix v reverse in
  Permutation (seq 0 (length (data v))) p /\
  forall e, map (fun i => nth i (data v) e) p = data (sort lt std_sort v reverse).
Proof.
  intros R lt std_sort std_sort_ix v reverse H H1 H2 p. split.
  - unfold p, sort_indices. destruct (length (data v) =? 0) eqn:E; [apply Nat.eqb_eq in E; rewrite E; constructor|].
    destruct reverse; apply H2, cmp_weak; auto. apply flip_total; auto.
  - intros e. apply sort_indices_ok; auto.
Qed.
Print Assumptions C32_sort_indices.

(* vectors of integers: in order as long as doubles represent the integers *)
Theorem C32_sort_integers_partial : forall std_sort (v : list Z) reverse, is_std_sort std_sort ->
  Permutation v (sort_int std_sort v reverse) /\
  ((forall x, In x v -> (Z.abs x <= 2 ^ 53)%Z) ->
   ordered (if reverse then (fun x y => (y <? x)%Z) else Z.ltb) (sort_int std_sort v reverse)).
Proof. intros. apply sort_int_ok; auto. Qed.
Print Assumptions C32_sort_integers_partial.

Theorem C32_sort_integers_refuted : exists std_sort (v : list Z), is_std_sort std_sort /\
  ~ ordered Z.ltb (sort_int std_sort v false).
Proof.
  exists insertion_sort, [2 ^ 53; 2 ^ 53 + 1]%Z. split.
  - intros lt l Hw. apply insertion_sort_ok; auto.
  - intros H. specialize (H 0 1 (2 ^ 53 + 1)%Z (2 ^ 53)%Z ltac:(lia) eq_refl eq_refl). discriminate.
Qed.
Print Assumptions C32_sort_integers_refuted.

(* the positions of integers are sorted by the integers themselves *)
Theorem C32_sort_indices_integers : forall std_sort_ix (v : list Z) reverse, is_std_sort std_sort_ix ->
  let p := sort_indices_int std_sort_ix v reverse in
  Permutation (seq 0 (length v)) p /\
  ordered (if reverse then (fun x y => (y <? x)%Z) else Z.ltb) (map (fun i => nth i v 0%Z) p).
Proof.
  intros std_sort_ix v reverse H p.
  assert (Hi : is_std_sort (@insertion_sort Z)) by (intros lt l Hw; apply insertion_sort_ok; auto).
  destruct (sort_indices_ok Z.ltb Zlt_total insertion_sort Hi std_sort_ix H (mkT [length v] v) reverse 0%Z) as [P E].
  split; [exact P|]. cbn [data] in E. unfold p, sort_indices_int. rewrite E.
  exact (proj2 (proj2 (sort_ok Z.ltb Zlt_total insertion_sort Hi (mkT [length v] v) reverse))).
Qed.
Print Assumptions C32_sort_indices_integers.

Example C32_nonvacuous :
  strict_total Z.ltb /\ is_std_sort (@insertion_sort Z) /\ is_std_sort (@insertion_sort nat) /\
  sort Z.ltb insertion_sort (mkT [4] [3; 1; 2; 1]%Z) false = mkT [4] [1; 1; 2; 3]%Z /\
  sort Z.ltb insertion_sort (mkT [4] [3; 1; 2; 1]%Z) true = mkT [4] [3; 2; 1; 1]%Z /\
  sort_indices Z.ltb insertion_sort (mkT [3] [3; 1; 2]%Z) false = [1; 2; 0] /\
  sort_int insertion_sort [3; 1; 2]%Z true = [3; 2; 1]%Z.
Proof.
  split; [apply Zlt_total|]. split; [intros lt l Hw; apply insertion_sort_ok; auto|].
  split; [intros lt l Hw; apply insertion_sort_ok; auto|]. repeat split.
Qed.

(* C58: the largest of the sums of the moduli of a row *)
Theorem C58_norminf : forall A R (NA : numops A) (N : numops R) (lt : R -> R -> bool) (modulus : A -> R) jaux (m : tensor A) r c,
  strict_total lt -> (forall x, nadd N (nzero N) x = x) ->
  (forall i, lt (sum_n N c (fun j => modulus (val NA m [i; j]))) (nzero N) = false) ->
  wf m -> dims m = [r; c] -> 0 < c ->
  exists v, matrix_norminf lt (nzero N) (nadd N) modulus jaux m = Ok v /\
    (r = 0 -> v = nzero N) /\
    (0 < r -> exists i, i < r /\ v = sum_n N c (fun j => modulus (val NA m [i; j]))) /\
    forall i, i < r -> lt v (sum_n N c (fun j => modulus (val NA m [i; j]))) = false.
Proof.
  intros A R NA N lt modulus jaux m r c Hlt H0 Hpos Hw E Hc.
  destruct (norminf_ok N NA lt Hlt modulus H0 jaux m r c Hw E Hc) as (v & E1 & V1 & V2 & V3).
  exists v. split; [auto|]. split.
  - intros ->. destruct V1 as [V1|(i & Hi & _)]; [auto|lia].
  - split; [|exact V3]. intros Hr. destruct V1 as [V1|V1]; [|exact V1]. exists 0. split; [auto|].
    apply (st_total _ Hlt); [apply V3; auto|]. rewrite V1. apply Hpos.
Qed.
Print Assumptions C58_norminf.

Theorem C58_not_a_matrix_rejected : forall A R (lt : R -> R -> bool) zero add (modulus : A -> R) jaux (m : tensor A),
  length (dims m) <> 2 -> matrix_norminf lt zero add modulus jaux m = Abort.
Proof. intros. unfold matrix_norminf. replace (length (dims m) =? 2) with false by lia. reflexivity. Qed.
Print Assumptions C58_not_a_matrix_rejected.

(* rows without columns: the data are read although there are none *)
Theorem C58_no_columns_refuted : forall A R (lt : R -> R -> bool) zero add (modulus : A -> R) jaux r,
  0 < r -> wf (mkT [r; 0] ([] : list A)) /\
  matrix_norminf lt zero add modulus jaux (mkT [r; 0] ([] : list A)) = UB.
Proof.
  intros A R lt zero add modulus jaux r Hr. split; [unfold wf, nelem; simpl; lia|].
  destruct r as [|r]; [lia|]. unfold matrix_norminf. cbn [dims length Nat.eqb assert_ bind].
  rewrite (dimension_ok (mkT [S r; 0] []) [] (S r) [0] 0 eq_refl eq_refl : dimension _ 0 = Ok (S r)).
  rewrite (dimension_ok (mkT [S r; 0] []) [S r] 0 [] 1 eq_refl eq_refl : dimension _ 1 = Ok 0). cbn [bind data].
  match goal with |- context [for_ (S r) ?b ?s] => assert (E : for_ (S r) b s = UB) end.
  { reflexivity. }
  rewrite E. reflexivity.
Qed.
Print Assumptions C58_no_columns_refuted.

Example C58_nonvacuous :
  let m := mkT [2; 3] [1; -2; 3; 4; 5; 6]%Z in
  wf m /\ matrix_norminf Z.ltb 0%Z Z.add Z.abs (fun _ => 77%Z) m = Ok 12%Z /\
  matrix_norminf Z.ltb 0%Z Z.add Z.abs (fun _ => 77%Z) (mkT [2; 0] []) = UB.
Proof. repeat split. Qed.

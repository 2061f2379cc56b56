(* C28 - C30: comparisons, boolean vectors, index vectors. *)
From Verif Require Import Base Spec S_Compare M_Tensor M_Arith M_Compare L_Arith L_Compare.

(* C28: vectors of integers, and with a number on the right *)
Theorem C28_vectors : forall op junk (a b : list Z), length a = length b ->
  exists c, vec_op_vec Zcmps op junk a b = Ok c /\ length c = length a /\
    forall i x y, nth_error a i = Some x -> nth_error b i = Some y ->
      exists r, nth_error c i = Some r /\ (r = true <-> holds op x y).
Proof.
  intros op junk a b H. destruct (cmp_vv_ok (apply_op Zcmps op) junk a b H) as (c & E & Hl & Hc).
  exists c. split; [exact E|]. split; [auto|]. intros i x y Hx Hy. eexists. split; [apply Hc; eauto|]. apply Zapply_holds.
Qed.
Print Assumptions C28_vectors.

Theorem C28_number_right : forall op junk (a : list Z) b,
  exists c, vec_op_num Zcmps op junk a b = Ok c /\ length c = length a /\
    forall i x, nth_error a i = Some x -> exists r, nth_error c i = Some r /\ (r = true <-> holds op x b).
Proof.
  intros op junk a b. unfold vec_op_num. rewrite cmp_vn_ok. eexists. split; [reflexivity|]. rewrite map_length. split; [auto|].
  intros i x Hx. rewrite nth_error_map, Hx. simpl. eexists; split; [reflexivity|]. apply Zapply_holds.
Qed.
Print Assumptions C28_number_right.

Theorem C28_size_mismatch_rejected : forall op junk (a b : list Z),
  length a <> length b -> vec_op_vec Zcmps op junk a b = Abort.
Proof. intros. apply cmp_vv_reject; auto. Qed.
Print Assumptions C28_size_mismatch_rejected.

(* the same for the floating point types, whose comparisons are left abstract *)
Theorem C28_any_element_type : forall A (O : cmps A) op junk (a b : list A), length a = length b ->
  exists c, vec_op_vec O op junk a b = Ok c /\ length c = length a /\
    (forall i x y, nth_error a i = Some x -> nth_error b i = Some y -> nth_error c i = Some (apply_op O op x y)) /\
    forall y, vec_op_num O op junk a y = Ok (map (fun x => apply_op O op x y) a).
Proof.
  intros A O op junk a b H. destruct (cmp_vv_ok (apply_op O op) junk a b H) as (c & E & Hl & Hc).
  exists c. repeat split; auto. intros y. apply cmp_vn_ok.
Qed.
Print Assumptions C28_any_element_type.

(* with a number on the left: the four orderings are right except at ties *)
Theorem C28_number_left_partial : forall op junk a (b : list Z),
  exists c, num_op_vec Zcmps op junk a b = Ok c /\ length c = length b /\
    forall i y, nth_error b i = Some y -> op = OpEq \/ op = OpNe \/ a <> y ->
      exists r, nth_error c i = Some r /\ (r = true <-> holds op a y).
Proof.
  intros op junk a b.
  assert (H : exists f, num_op_vec Zcmps op junk a b = cmp_vn f junk b a /\
    forall y, op = OpEq \/ op = OpNe \/ a <> y -> f y a = true <-> holds op a y).
  { destruct op; (eexists; split; [reflexivity|]); intros y Hy; simpl;
      rewrite ?Z.gtb_gt, ?Z.geb_le; assert (H' := Hy); destruct Hy as [|[|]]; try discriminate; lia. }
  destruct H as (f & E & Hf). rewrite E, cmp_vn_ok. eexists; split; [reflexivity|]. rewrite map_length. split; [auto|].
  intros i y Hy Hop. rewrite nth_error_map, Hy. simpl. eexists; split; [reflexivity|]. apply Hf; auto.
Qed.
Print Assumptions C28_number_left_partial.

(* at ties, every one of the four is wrong *)
Theorem C28_number_left_refuted : forall op, op = OpLt \/ op = OpLe \/ op = OpGt \/ op = OpGe ->
  exists a (b : list Z) c, (forall junk, num_op_vec Zcmps op junk a b = Ok c) /\
    exists y r, nth_error b 0 = Some y /\ nth_error c 0 = Some r /\ ~ (r = true <-> holds op a y).
Proof.
  intros op Hop. exists 2%Z, [2%Z].
  destruct Hop as [->|[->|[->| ->]]]; [exists [true]|exists [false]|exists [true]|exists [false]];
    (split; [reflexivity|]); eexists; eexists; (repeat split); simpl; intros [H1 H2];
    [specialize (H1 eq_refl)|specialize (H2 ltac:(lia))|specialize (H1 eq_refl)|specialize (H2 ltac:(lia))]; try discriminate; lia.
Qed.
Print Assumptions C28_number_left_refuted.

Theorem C28_all_equal : forall (a b : tensor Z), wf a -> wf b ->
  exists r, all_equal_t Zcmps a b = Ok r /\ (r = true <-> (dims a = dims b /\ data a = data b)).
Proof.
  intros a b Ha Hb. unfold all_equal_t. destruct (verify_dims_match (dims a) (dims b)) eqn:E.
  - apply verify_spec in E. destruct (std_equalb_spec (data a) (data b)) as (r & E1 & Hr).
    { rewrite Ha, Hb, E. auto. }
    exists r. split; [auto|]. rewrite Hr. tauto.
  - exists false. split; [auto|]. split; [discriminate|]. intros [H _]. apply verify_spec in H. congruence.
Qed.
Print Assumptions C28_all_equal.

Theorem C28_all_equal_number : forall (a : tensor Z) b,
  all_equal_n Zcmps (data a) b = true <-> forall x, In x (data a) -> x = b.
Proof. intros. apply all_equal_n_spec. Qed.
Print Assumptions C28_all_equal_number.

Example C28_nonvacuous :
  vec_op_vec Zcmps OpLt (fun _ => true) [1; 2; 3]%Z [2; 2; 2]%Z = Ok [true; false; false] /\
  vec_op_num Zcmps OpGe (fun _ => true) [1; 2; 3]%Z 2%Z = Ok [false; true; true] /\
  num_op_vec Zcmps OpNe (fun _ => true) 2%Z [1; 2; 3]%Z = Ok [true; false; true] /\
  num_op_vec Zcmps OpLt (fun _ => true) 2%Z [1; 3]%Z = Ok [false; true] /\
  all_equal_t Zcmps (mkT [2; 1] [1; 2]%Z) (mkT [1; 2] [1; 2]%Z) = Ok false.
Proof. repeat split. Qed.

(* C29 *)
Theorem C29_and_or : forall junk (a b : list bool), length a = length b ->
  exists c d, b_and junk a b = Ok c /\ b_or junk a b = Ok d /\ length c = length a /\ length d = length a /\
    forall i x y, nth_error a i = Some x -> nth_error b i = Some y ->
      nth_error c i = Some (x && y) /\ nth_error d i = Some (x || y).
Proof.
  intros junk a b H. destruct (cmp_vv_ok andb junk a b H) as (c & E & Hl & Hc).
  destruct (cmp_vv_ok orb junk a b H) as (d & E' & Hl' & Hd). exists c, d. repeat split; auto.
Qed.
Print Assumptions C29_and_or.

Theorem C29_not : forall junk (a : list bool),
  exists c, b_not junk a = Ok c /\ length c = length a /\
    forall i x, nth_error a i = Some x -> nth_error c i = Some (negb x).
Proof.
  intros. rewrite b_not_ok. eexists; split; [reflexivity|]. rewrite map_length. split; [auto|].
  intros i x Hx. rewrite nth_error_map, Hx. reflexivity.
Qed.
Print Assumptions C29_not.

Theorem C29_size_mismatch_rejected : forall junk (a b : list bool),
  length a <> length b -> b_and junk a b = Abort /\ b_or junk a b = Abort.
Proof. intros. split; apply cmp_vv_reject; auto. Qed.
Print Assumptions C29_size_mismatch_rejected.

Theorem C29_quantifiers : forall b : list bool,
  (all_of b = true <-> forall i, i < length b -> nth_error b i = Some true) /\
  (any_of b = true <-> exists i, nth_error b i = Some true) /\
  (none_of b = true <-> forall i, nth_error b i <> Some true).
Proof.
  intros b. split; [apply all_of_spec|]. split; [apply any_of_spec|]. unfold none_of.
  pose proof (any_of_spec b) as H. destruct (any_of b); simpl; split; intros Hx; try discriminate; auto.
  - exfalso. destruct (proj1 H eq_refl) as [i Hi]. exact (Hx i Hi).
  - intros i Hi. assert (false = true) by (apply H; eauto). discriminate.
Qed.
Print Assumptions C29_quantifiers.

Theorem C29_which : forall junk (b : list bool),
  exists l, which junk b = Ok l /\ increasing l /\ forall p, In p l <-> nth_error b p = Some true.
Proof.
  intros. rewrite which_ok. eexists; split; [reflexivity|]. split; [apply trues_increasing|].
  intros p. rewrite trues_In, Nat.sub_0_r. intuition lia.
Qed.
Print Assumptions C29_which.

Example C29_nonvacuous :
  which (fun _ => 7) [true; false; true; true] = Ok [0; 2; 3] /\ which (fun _ => 7) [] = Ok [] /\
  b_and (fun _ => true) [true; false] [true; true] = Ok [true; false] /\
  b_or (fun _ => true) [true; false] [false; false] = Ok [true; false] /\
  all_of [] = true /\ any_of [false; true] = true /\ none_of [false] = true.
Proof. repeat split. Qed.

(* C30: iota, for positive steps *)
Theorem C30_iota_partial : forall junk a b s, (0 < s)%Z ->
  exists l, iota junk a b s = Ok l /\
    ((b < a)%Z -> l = []) /\
    ((a <= b)%Z -> exists n, 0 < n /\ l = progression a s n /\
       (a + s * Z.of_nat (n - 1) <= b < a + s * Z.of_nat n)%Z).
Proof.
  intros junk a b s Hs. destruct (iota_ok junk a b s Hs) as (l & E & H). exists l. split; [auto|].
  destruct (Z.ltb_spec b a); split; auto; lia.
Qed.
Print Assumptions C30_iota_partial.

(* so an integer is listed exactly when it lies in the progression and between
   the bounds *)
Theorem C30_iota_members : forall junk a b s, (0 < s)%Z ->
  exists l, iota junk a b s = Ok l /\
    forall x, In x l <-> (a <= x <= b)%Z /\ exists k : nat, x = (a + s * Z.of_nat k)%Z.
Proof.
  intros junk a b s Hs. destruct (iota_ok junk a b s Hs) as (l & E & H). exists l. split; [auto|]. intros x.
  destruct (Z.ltb_spec b a).
  - subst. simpl. split; [tauto|]. lia.
  - destruct H as (n & Hn & -> & Hb). unfold progression. rewrite in_map_iff. split.
    + intros (k & <- & Hk). apply in_seq in Hk. split; [nia|eauto].
    + intros (Hx & k & ->). exists k. split; [auto|]. apply in_seq. nia.
Qed.
Print Assumptions C30_iota_members.

(* descending progressions come out empty, or cannot be allocated; a zero step
   divides by zero *)
Theorem C30_iota_negative_step_refuted : forall junk,
  iota junk 3 1 (-1) = Ok [] /\ iota junk 1 3 (-1) = Abort /\ iota junk 1 3 0 = UB.
Proof. intros. repeat split. Qed.
Print Assumptions C30_iota_negative_step_refuted.

Theorem C30_concatenation : forall junk a b, concat_ix junk a b = Ok (a ++ b).
Proof. intros. apply concat_ok. Qed.
Print Assumptions C30_concatenation.

Theorem C30_generators : forall A junk (x1 : A) rest, sv_vector junk (gen_list x1 rest) = Ok (x1 :: rest).
Proof. intros. apply gen_ok. Qed.
Print Assumptions C30_generators.

Theorem C30_all_equal : forall a b : list Z, exists r, all_equal_v Zcmps a b = Ok r /\ (r = true <-> a = b).
Proof.
  intros a b. unfold all_equal_v. destruct (Nat.eqb_spec (length a) (length b)) as [E|E].
  - apply std_equalb_spec; auto.
  - exists false. split; auto. split; [discriminate|]. intros ->. congruence.
Qed.
Print Assumptions C30_all_equal.

Example C30_nonvacuous :
  iota (fun _ => 9%Z) 1 8 3 = Ok [1; 4; 7]%Z /\ iota (fun _ => 9%Z) 2 2 1 = Ok [2%Z] /\
  concat_ix (fun _ => 9%Z) [1; 2]%Z [3]%Z = Ok [1; 2; 3]%Z /\
  sv_vector (fun _ => 9%Z) (SVS (SVS (SV1 5%Z) 6%Z) 7%Z) = Ok [5; 6; 7]%Z /\
  all_equal_v Zcmps [1; 2]%Z [1; 3]%Z = Ok false.
Proof. repeat split. Qed.

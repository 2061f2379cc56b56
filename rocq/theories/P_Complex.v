(* Property C79: complex tensors and their real and imaginary parts. *)
From Verif Require Import Base Spec M_Tensor M_Arith M_Complex L_Lin L_Tensor L_Permute L_Fold L_Arith.
Local Open Scope nat_scope.

Lemma fill_loop {C} (f : nat -> outcome C) (g : nat -> C) n : forall (d : list C), length d = n -> (forall k, k < n -> f k = Ok (g k)) ->
  for_ n (fun k d => x <- f k ;; wr d k x) d = Ok (map g (seq 0 n)).
Proof.
  intros d Hd Hf.
  destruct (for_inv (fun k (e : list C) => length e = n /\ forall q, q < k -> nth_error e q = Some (g q)) n (fun k d => x <- f k ;; wr d k x) d) as (e & E & He & Hq).
  - split; [auto|]. intros q Hq. lia.
  - intros k e Hk (He & Hq). rewrite (Hf k Hk). cbn [bind]. rewrite wr_ok by lia. eexists. split; [reflexivity|]. split; [rewrite length_upd; auto|].
    intros q Hqk. destruct (Nat.eq_dec q k) as [->|Hne].
    + rewrite nth_error_upd_eq by lia. reflexivity.
    + rewrite nth_error_upd_ne by auto. apply Hq. lia.
  - rewrite E. f_equal. apply list_eq_nth_len; [rewrite map_length, seq_length; auto|]. intros q Hlt. rewrite Hq by lia. rewrite nth_error_map.
    rewrite (nth_error_nth' (seq 0 n) 0) by (rewrite seq_length; lia). rewrite seq_nth by lia. reflexivity.
Qed.

Lemma unop_map {A C} (f : A -> C) junk (a : tensor A) : wf a -> unop f junk a = Ok (mkT (dims a) (map f (data a))).
Proof.
  intros W. unfold unop.
  destruct (seq_write_opt (fun q => option_map f (nth_error (data a) q)) (length (data a)) (data (new_tensor junk (dims a)))
    (fun i st => x <- rd (data a) i ;; put (f x) st)) as (d & E & Hl & Hd).
  - rewrite new_tensor_len, W; auto.
  - intros q Hq. destruct (nth_ex (data a) q Hq) as (x & Hx & Ex). exists (f x). rewrite Hx. split; [reflexivity|]. intros st. rewrite Ex. reflexivity.
  - rewrite E. cbn [bind]. f_equal. f_equal. apply list_eq_nth_len; [rewrite map_length; auto|]. intros q Hq. rewrite Hd, nth_error_map by lia. reflexivity.
Qed.

Section C79.
Context {A R : Type} (re im : A -> R) (mk : R -> R -> A) (zero : R).
Notation real := (real_t re).
Notation imag := (imag_t im).
Notation join := (to_complex2 mk).

Lemma to_complex2_map junk (r i : tensor R) : wf r -> length (data r) <= length (data i) ->
  join junk r i = Ok (mkT (dims r) (map (fun p => mk (fst p) (snd p)) (combine (data r) (data i)))).
Proof.
  intros W H. unfold to_complex2. rewrite new_tensor_len, <- W.
  assert (exists g, (forall k, k < length (data r) -> (x <- rd (data r) k ;; y <- rd (data i) k ;; Ok (mk x y)) = Ok (g k)) /\
     map g (seq 0 (length (data r))) = map (fun p => mk (fst p) (snd p)) (combine (data r) (data i))) as (g & Hg & Eg).
  { clear W. revert H. generalize (data i). induction (data r) as [|x l IH]; intros [|y m] H; cbn in H; try lia.
    - exists (fun _ => mk zero zero). split; [intros k Hk; cbn in Hk; lia|reflexivity].
    - exists (fun _ => mk zero zero). split; [intros k Hk; cbn in Hk; lia|reflexivity].
    - destruct (IH m ltac:(lia)) as (g & Hg & Eg). exists (fun k => match k with 0 => mk x y | S k => g k end). split.
      + intros [|k] Hk; cbn in Hk; [reflexivity|]. apply (Hg k). lia.
      + cbn [length seq map combine fst snd]. f_equal. rewrite <- Eg, <- seq_shift, map_map. reflexivity. }
  rewrite (for_ext _ _ (fun k d => x <- (x <- rd (data r) k ;; y <- rd (data i) k ;; Ok (mk x y)) ;; wr d k x)).
  - rewrite (fill_loop _ g); [|rewrite new_tensor_len; auto|exact Hg]. cbn [bind]. rewrite Eg. reflexivity.
  - intros k d Hk. destruct (rd (data r) k); cbn [bind]; auto. destruct (rd (data i) k); reflexivity.
Qed.

(* The parts have the dimensions of the tensor and the parts of its elements. *)
Theorem C79_parts : forall junk (z : tensor A),
  wf z ->
  exists r i, real junk z = Ok r /\ imag junk z = Ok i /\ wf r /\ wf i /\ dims r = dims z /\ dims i = dims z /\
    forall ix, elt r ix = option_map re (elt z ix) /\ elt i ix = option_map im (elt z ix).
Proof.
  intros junk z W. destruct (unop_ok re junk z W) as (r & E1 & W1 & D1 & H1). destruct (unop_ok im junk z W) as (i & E2 & W2 & D2 & H2).
  exists r, i. repeat split; auto.
Qed.

(* A tensor is what its parts make. *)
Theorem C79_split_join : forall junk junkc (z : tensor A),
  (forall x, mk (re x) (im x) = x) -> wf z ->
  (r <- real junk z ;; i <- imag junk z ;; join junkc r i) = Ok z.
Proof.
  intros junk junkc z Hmk W. unfold real_t, imag_t. rewrite !unop_map by auto. cbn [bind].
  rewrite to_complex2_map; [|unfold wf in *; cbn [dims data]; rewrite map_length; auto|cbn [data]; rewrite !map_length; lia]. cbn [dims data].
  destruct z as [ds d]. cbn [dims data]. f_equal. f_equal. clear W. induction d as [|x d IH]; cbn; [|rewrite Hmk, IH]; reflexivity.
Qed.

(* Tensors of the same dimensions are the parts of what they make. *)
Theorem C79_join_split : forall junk junkc (r i : tensor R),
  (forall x y, re (mk x y) = x /\ im (mk x y) = y) -> wf r -> wf i -> dims r = dims i ->
  exists z, join junkc r i = Ok z /\ wf z /\ dims z = dims r /\ real junk z = Ok r /\ imag junk z = Ok i.
Proof.
  intros junk junkc r i Hmk Wr Wi D. assert (El : length (data r) = length (data i)) by (rewrite Wr, Wi, D; auto).
  rewrite to_complex2_map by (auto; lia). eexists. split; [reflexivity|]. 
  assert (Wz : wf (mkT (dims r) (map (fun p => mk (fst p) (snd p)) (combine (data r) (data i))))) by (unfold wf in *; cbn [dims data]; rewrite map_length, combine_length; lia).
  split; [exact Wz|]. split; [reflexivity|]. unfold real_t, imag_t. rewrite !unop_map by auto. cbn [dims data]. rewrite !map_map.
  rewrite (map_ext (fun p => re (mk (fst p) (snd p))) fst) by (intros []; apply Hmk). rewrite (map_ext (fun p => im (mk (fst p) (snd p))) snd) by (intros []; apply Hmk).
  assert (H : forall (l m : list R), length l = length m -> map fst (combine l m) = l /\ map snd (combine l m) = m).
  { clear. induction l as [|x l IH]; intros [|y m] H; cbn in *; try lia; auto. destruct (IH m ltac:(lia)) as [-> ->]. auto. }
  destruct (H _ _ El) as [-> ->]. split; [destruct r; reflexivity|]. rewrite D. destruct i; reflexivity.
Qed.

(* The complex tensor made from a real one has it as real part, and the zeros of
   imag(RTensor) as imaginary part. *)
Theorem C79_from_real : forall junk junkc (r : tensor R),
  (forall x y, re (mk x y) = x /\ im (mk x y) = y) -> wf r ->
  exists z i, to_complex1 mk zero junkc r = Ok z /\ wf z /\ dims z = dims r /\ real junk z = Ok r /\ imag junk z = Ok i /\
    imag_real zero junk r = Ok i /\ forall ix, elt i ix = option_map (fun _ => zero) (elt r ix).
Proof.
  intros junk junkc r Hmk W.
  assert (E : to_complex1 mk zero junkc r = Ok (mkT (dims r) (map (fun x => mk x zero) (data r)))).
  { unfold to_complex1. rewrite new_tensor_len, <- W.
    assert (exists g, (forall k, k < length (data r) -> (x <- rd (data r) k ;; Ok (mk x zero)) = Ok (g k)) /\ map g (seq 0 (length (data r))) = map (fun x => mk x zero) (data r)) as (g & Hg & Eg).
    { exists (fun k => mk (nth k (data r) zero) zero). split.
      - intros k Hk. rewrite (rd_ok _ _ (nth k (data r) zero)) by (apply nth_error_nth'; auto). reflexivity.
      - rewrite <- (map_map (fun k => nth k (data r) zero) (fun x => mk x zero)). f_equal. apply list_eq_nth_len; [rewrite map_length, seq_length; auto|].
        intros q Hq. rewrite map_length, seq_length in Hq. rewrite nth_error_map, (nth_error_nth' (seq 0 _) 0) by (rewrite seq_length; auto). rewrite seq_nth by auto. cbn. symmetry. apply nth_error_nth'. auto. }
    rewrite (for_ext _ _ (fun k d => x <- (x <- rd (data r) k ;; Ok (mk x zero)) ;; wr d k x)).
    - rewrite (fill_loop _ g); [|rewrite new_tensor_len; auto|exact Hg]. cbn [bind]. rewrite Eg. reflexivity.
    - intros k d Hk. destruct (rd (data r) k); reflexivity. }
  rewrite E. exists (mkT (dims r) (map (fun x => mk x zero) (data r))), (mkT (dims r) (map (fun _ => zero) (data r))). split; [reflexivity|].
  assert (Wz : wf (mkT (dims r) (map (fun x => mk x zero) (data r)))) by (unfold wf in *; cbn [dims data]; rewrite map_length; auto).
  split; [exact Wz|]. split; [reflexivity|]. unfold real_t, imag_t. rewrite !unop_map by auto. cbn [dims data]. rewrite !map_map.
  rewrite (map_ext (fun x => re (mk x zero)) (fun x => x)) by (intros; apply Hmk). rewrite (map_ext (fun x => im (mk x zero)) (fun _ => zero)) by (intros; apply Hmk). rewrite map_id.
  split; [destruct r; reflexivity|]. split; [reflexivity|]. split.
  - unfold imag_real. rewrite fill_ok. cbn [dims]. f_equal. f_equal. rewrite new_tensor_len, <- W. clear. induction (data r); cbn; f_equal; auto.
  - intros ix. unfold elt. cbn [dims data]. destruct (validb (dims r) ix); [|reflexivity]. rewrite nth_error_map. reflexivity.
Qed.

(* Nothing checks that the two parts fit: a shorter imaginary part is read out of
   bounds; one of another shape is accepted. *)
Theorem C79_short_refuted : forall junkc (r i : tensor R),
  wf r -> wf i -> nelem (dims i) < nelem (dims r) -> join junkc r i = UB.
Proof.
  intros junkc r i Wr Wi H. unfold to_complex2. rewrite new_tensor_len. rewrite <- Wr, <- Wi in *.
  replace (length (data r)) with (length (data i) + S (length (data r) - length (data i) - 1)) by lia.
  set (b := fun k d => x <- rd (data r) k ;; y <- rd (data i) k ;; wr d k (mk x y)).
  destruct (for_inv (fun _ (d : list A) => length d = length (data r)) (length (data i)) b (data (new_tensor junkc (dims r)))) as (d & E & Hd).
  - rewrite new_tensor_len. auto.
  - intros k d Hk Hd. unfold b. destruct (nth_error_lt (data r) k ltac:(lia)) as [x Hx]. destruct (nth_error_lt (data i) k Hk) as [y Hy].
    rewrite (rd_ok _ _ _ Hx), (rd_ok _ _ _ Hy). cbn [bind]. rewrite wr_ok by lia. eexists. split; [reflexivity|]. rewrite length_upd. auto.
  - assert (Ub : for_ (length (data i) + S (length (data r) - length (data i) - 1)) b (data (new_tensor junkc (dims r))) = UB).
    { generalize (length (data r) - length (data i) - 1) as m. induction m as [|m IH].
      - replace (length (data i) + 1) with (S (length (data i))) by lia. rewrite for_S, E. cbn [bind]. unfold b.
        destruct (nth_error_lt (data r) (length (data i)) ltac:(lia)) as [x Hx]. rewrite (rd_ok _ _ _ Hx). cbn [bind].
        unfold rd. rewrite (proj2 (nth_error_None (data i) (length (data i)))) by lia. reflexivity.
      - replace (length (data i) + S (S m)) with (S (length (data i) + S m)) by lia. rewrite for_S, IH. reflexivity. }
    rewrite Ub. reflexivity.
Qed.
Theorem C79_shapes_refuted : forall junkc (r i : tensor R),
  wf r -> wf i -> nelem (dims r) <= nelem (dims i) -> exists z, join junkc r i = Ok z /\ wf z /\ dims z = dims r.
Proof.
  intros junkc r i Wr Wi H. rewrite to_complex2_map by (auto; rewrite Wr, Wi; auto). eexists. split; [reflexivity|]. split; [|reflexivity].
  unfold wf in *. cbn [dims data]. rewrite map_length, combine_length. lia.
Qed.
End C79.
Print Assumptions C79_parts.
Print Assumptions C79_split_join.
Print Assumptions C79_join_split.
Print Assumptions C79_from_real.
Print Assumptions C79_short_refuted.
Print Assumptions C79_shapes_refuted.

(* conj and round act on each element *)
Theorem C79_functions : forall A R (conj : A -> A) (round : R -> R) junkc junk (z : tensor A) (r : tensor R),
  wf z -> wf r ->
  exists c q, conj_t conj junkc z = Ok c /\ round_t round junk r = Ok q /\ wf c /\ wf q /\ dims c = dims z /\ dims q = dims r /\
    forall ix, elt c ix = option_map conj (elt z ix) /\ elt q ix = option_map round (elt r ix).
Proof.
  intros A R conj round junkc junk z r Wz Wr. destruct (unop_ok conj junkc z Wz) as (c & E1 & W1 & D1 & H1). destruct (unop_ok round junk r Wr) as (q & E2 & W2 & D2 & H2).
  exists c, q. repeat split; auto.
Qed.
Print Assumptions C79_functions.

(* index_to_tensor gives the vector of the indices *)
Theorem C79_index_to_tensor : forall I R (conv : I -> R) junk (ndx : list I),
  index_to_tensor conv junk ndx = Ok (mkT [length ndx] (map conv ndx)).
Proof.
  intros I R conv junk ndx. unfold index_to_tensor.
  destruct ndx as [|x0 l0] eqn:E0; [reflexivity|]. rewrite <- E0. 
  rewrite (for_ext _ _ (fun k d => x <- (x <- rd ndx k ;; Ok (conv x)) ;; wr d k x)) by (intros k d Hk; destruct (rd ndx k); reflexivity).
  rewrite (fill_loop _ (fun k => conv (nth k ndx x0))).
  - cbn [bind]. f_equal. f_equal. rewrite <- (map_map (fun k => nth k ndx x0) conv). f_equal. apply list_eq_nth_len; [rewrite map_length, seq_length; auto|].
    intros q Hq. rewrite map_length, seq_length in Hq. rewrite nth_error_map, (nth_error_nth' (seq 0 _) 0) by (rewrite seq_length; auto). rewrite seq_nth by auto. cbn. symmetry. apply nth_error_nth'. auto.
  - rewrite new_tensor_len. cbn. lia.
  - intros k Hk. rewrite (rd_ok _ _ (nth k ndx x0)) by (apply nth_error_nth'; auto). reflexivity.
Qed.
Print Assumptions C79_index_to_tensor.

Example C79_nonvacuous :
  let z := mkT [2; 1] [(1, 2); (3, 4)]%Z in let r := mkT [2; 1] [1; 3]%Z in let i := mkT [2; 1] [2; 4]%Z in
  wf z /\ real_t fst (fun _ => 9%Z) z = Ok r /\ imag_t snd (fun _ => 9%Z) z = Ok i /\ to_complex2 pair (fun _ => (9, 9)%Z) r i = Ok z /\
  to_complex2 pair (fun _ => (9, 9)%Z) r (mkT [1] [5]%Z) = UB /\
  to_complex2 pair (fun _ => (9, 9)%Z) r (mkT [3] [5; 6; 7]%Z) = Ok (mkT [2; 1] [(1, 5); (3, 6)]%Z) /\
  imag_real 0%Z (fun _ => 9%Z) r = Ok (mkT [2; 1] [0; 0]%Z).
Proof. repeat split. Qed.

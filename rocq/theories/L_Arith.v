From Verif Require Import Base Spec L_Lin M_Tensor L_Tensor M_Arith M_Fold S_Fold L_Fold.

(* sequential output of values given by a partial function f *)
Lemma seq_write_opt {C} (f : nat -> option C) n (out : list C) (body : nat -> list C * nat -> outcome (list C * nat)) :
  length out = n ->
  (forall q, q < n -> exists v, f q = Some v /\ forall st, body q st = put v st) ->
  exists d, for_ n body (out, 0) = Ok (d, n) /\ length d = n /\ forall q, q < n -> nth_error d q = f q.
Proof.
  intros Hl Hb.
  destruct (for_inv (fun m (st : list C * nat) => snd st = m /\ length (fst st) = n /\
     forall q, q < m -> nth_error (fst st) q = f q) n body (out, 0)) as ((d & p) & E & H1 & H2 & H3).
  - simpl. repeat split; auto; lia.
  - intros i (o & p) Hi (H1 & H2 & H3). simpl in *. subst p.
    destruct (Hb i Hi) as (v & Hv & Eb). rewrite Eb. unfold put. rewrite wr_ok by lia. cbn [bind].
    eexists; split; [reflexivity|]. simpl. split; [auto|]. split; [rewrite length_upd; auto|].
    intros q Hq. destruct (Nat.eq_dec q i) as [->|Hne].
    + rewrite nth_error_upd_eq by lia. auto.
    + rewrite nth_error_upd_ne by auto. apply H3; lia.
  - simpl in *. subst p. exists d. auto.
Qed.

Lemma seq_write_opt_map {A C} (h : A -> C) (l : list A) out : length out = length l ->
  for_ (length l) (fun i st => x <- rd l i ;; put (h x) st) (out, 0) = Ok (map h l, length l).
Proof.
  intros Hl. destruct (seq_write_opt (fun q => option_map h (nth_error l q)) (length l) out
    (fun i st => x <- rd l i ;; put (h x) st) Hl) as (d & E & Hd & H).
  - intros q Hq. destruct (nth_error_lt l q Hq) as [x Hx]. exists (h x). rewrite Hx. split; [reflexivity|].
    intros st. rewrite (rd_ok _ _ _ Hx). reflexivity.
  - rewrite E. do 2 f_equal. apply list_eq_nth_len; [rewrite map_length; auto|]. intros i Hi.
    rewrite H, nth_error_map by lia. reflexivity.
Qed.

(* in-place update: step i reads position >= i of the original *)
Lemma inplace_opt {C} (f : nat -> option C) (d0 : list C) (body : nat -> list C -> outcome (list C)) :
  (forall i d, i < length d0 -> length d = length d0 ->
     (forall q, i <= q -> nth_error d q = nth_error d0 q) ->
     exists v, f i = Some v /\ body i d = wr d i v) ->
  exists d, for_ (length d0) body d0 = Ok d /\ length d = length d0 /\ forall q, q < length d0 -> nth_error d q = f q.
Proof.
  intros Hb.
  destruct (for_inv (fun m d => length d = length d0 /\
     (forall q, q < m -> nth_error d q = f q) /\ (forall q, m <= q -> nth_error d q = nth_error d0 q))
     (length d0) body d0) as (d & E & H1 & H2 & _).
  - repeat split; auto; lia.
  - intros i d Hi (H1 & H2 & H3).
    destruct (Hb i d Hi H1 H3) as (v & Hv & Eb). rewrite Eb. rewrite wr_ok by lia.
    eexists; split; [reflexivity|]. split; [rewrite length_upd; auto|]. split.
    + intros q Hq. destruct (Nat.eq_dec q i) as [->|Hne].
      * rewrite nth_error_upd_eq by lia. auto.
      * rewrite nth_error_upd_ne by auto. apply H2; lia.
    + intros q Hq. rewrite nth_error_upd_ne by lia. apply H3; lia.
  - exists d; auto.
Qed.

Lemma nth_ex {A} (l : list A) q : q < length l -> exists v, nth_error l q = Some v /\ rd l q = Ok v.
Proof. intros H. destruct (nth_error_lt l q H) as [v Hv]. exists v. split; auto. apply rd_ok; auto. Qed.

(* elementwise results *)
Definition opt2 {A B C} (op : A -> B -> C) (x : option A) (y : option B) : option C :=
  match x, y with Some a, Some b => Some (op a b) | _, _ => None end.

Lemma elt_of_data {A} (t u : tensor A) : forall ix,
  dims t = dims u -> (forall q, q < prod (dims t) -> nth_error (data t) q = nth_error (data u) q) -> elt t ix = elt u ix.
Proof.
  intros ix E H. unfold elt. rewrite <- E. destruct (validb (dims t) ix) eqn:V; auto.
  apply H. apply lin_lt. apply validb_iff; auto.
Qed.

Section Ops.
Context {A B C : Type}.

Lemma zip_loop (op : A -> B -> C) (junk : nat -> C) (la : list A) (lb : list B) out :
  length out = length la -> length la <= length lb ->
  exists d, for_ (length la) (fun i st => x <- rd la i ;; y <- rd lb i ;; put (op x y) st) (out, 0) = Ok (d, length la) /\
    length d = length la /\ forall q, q < length la -> nth_error d q = opt2 op (nth_error la q) (nth_error lb q).
Proof.
  intros Ho Hl. apply seq_write_opt; auto. intros q Hq.
  destruct (nth_ex la q Hq) as (x & Hx & Ex). destruct (nth_ex lb q ltac:(lia)) as (y & Hy & Ey).
  exists (op x y). rewrite Hx, Hy. split; [reflexivity|]. intros st. rewrite Ex, Ey. reflexivity.
Qed.

Lemma elt_zip (op : A -> B -> C) (a : tensor A) (b : tensor B) d ix :
  wf a -> dims a <> [] -> dims a = dims b -> (forall q, q < length (data a) -> nth_error d q = opt2 op (nth_error (data a) q) (nth_error (data b) q)) ->
  elt (mkT (dims a) d) ix = opt2 op (elt a ix) (elt b ix).
Proof.
  intros Hw Hne E H. unfold elt. cbn [dims data]. rewrite <- E. destruct (validb (dims a) ix) eqn:V; [|reflexivity].
  apply H. rewrite Hw, nelem_prod by auto. apply lin_lt. apply validb_iff; auto.
Qed.
End Ops.

Lemma wf_nil_data {A} (t : tensor A) : wf t -> dims t = [] -> data t = [].
Proof. unfold wf. intros H E. rewrite E in H. simpl in H. destruct (data t); [auto|discriminate]. Qed.

Lemma elt_nil {A} (t : tensor A) ix : data t = [] -> elt t ix = None.
Proof. intros E. unfold elt. rewrite E. destruct (validb _ _); auto. destruct (lin _ _); reflexivity. Qed.

Section OpsMain.
Context {A B C : Type}.

Lemma elt_zip' (op : A -> B -> C) (a : tensor A) (b : tensor B) d ix :
  wf a -> dims a = dims b -> length d = length (data a) ->
  (forall q, q < length (data a) -> nth_error d q = opt2 op (nth_error (data a) q) (nth_error (data b) q)) ->
  elt (mkT (dims a) d) ix = opt2 op (elt a ix) (elt b ix).
Proof.
  intros Hw E Hl H.
  destruct (dims a) as [|d0 ds] eqn:Ed.
  - pose proof (wf_nil_data a Hw Ed) as Hd. rewrite (elt_nil a ix Hd). simpl.
    rewrite Hd in Hl. destruct d; [|discriminate]. apply elt_nil. reflexivity.
  - rewrite <- Ed in *. apply elt_zip; auto. rewrite Ed; discriminate.
Qed.

Lemma t_op_t_ok (op : A -> B -> C) junk (a : tensor A) (b : tensor B) : wf a -> wf b -> dims a = dims b ->
  exists c, t_op_t op junk a b = Ok c /\ wf c /\ dims c = dims a /\ forall ix, elt c ix = opt2 op (elt a ix) (elt b ix).
Proof.
  intros Ha Hb E. unfold t_op_t.
  assert (El : length (data a) = length (data b)) by (rewrite Ha, Hb, E; auto).
  rewrite El, Nat.eqb_refl. cbn [assert_ bind]. rewrite <- El.
  destruct (zip_loop op junk (data a) (data b) (data (new_tensor junk (dims a)))) as (d & E1 & Hl & Hd); try lia.
  { rewrite new_tensor_len, Ha; auto. }
  rewrite E1. cbn [bind]. eexists; split; [reflexivity|]. split; [unfold wf; simpl; rewrite Hl; auto|].
  split; [reflexivity|]. intros ix. apply elt_zip'; auto.
Qed.

Lemma t_op_t_reject (op : A -> B -> C) junk (a : tensor A) (b : tensor B) : wf a -> wf b ->
  nelem (dims a) <> nelem (dims b) -> t_op_t op junk a b = Abort.
Proof.
  intros Ha Hb H. unfold t_op_t. rewrite Ha, Hb. replace (nelem (dims a) =? nelem (dims b)) with false by lia. reflexivity.
Qed.

Lemma t_op_t_total (op : A -> B -> C) junk (a : tensor A) (b : tensor B) : wf a -> wf b ->
  nelem (dims a) = nelem (dims b) -> exists c, t_op_t op junk a b = Ok c /\ dims c = dims a.
Proof.
  intros Ha Hb E. unfold t_op_t.
  assert (El : length (data a) = length (data b)) by (rewrite Ha, Hb, E; auto).
  rewrite El, Nat.eqb_refl. cbn [assert_ bind]. rewrite <- El.
  destruct (zip_loop op junk (data a) (data b) (data (new_tensor junk (dims a)))) as (d & E1 & Hl & Hd); try lia.
  { rewrite new_tensor_len, Ha; auto. }
  rewrite E1. cbn [bind]. eexists; split; [reflexivity|]. reflexivity.
Qed.

Lemma std_equal_spec (d1 d2 : list nat) : length d1 = length d2 -> std_equal d1 d2 = true <-> d1 = d2.
Proof.
  revert d2; induction d1 as [|x d1 IH]; intros [|y d2] Hl; simpl in *; try discriminate; [tauto|].
  rewrite andb_true_iff, Nat.eqb_eq, IH by lia. split; [intros [-> ->]; auto|intros E; inversion E; auto].
Qed.

Lemma verify_spec (d1 d2 : list nat) : verify_dims_match d1 d2 = true <-> d1 = d2.
Proof.
  unfold verify_dims_match, all_equal_ix. destruct (Nat.eq_dec (length d1) (length d2)) as [E|E].
  - rewrite E, Nat.eqb_refl. cbn [negb orb andb]. rewrite negb_involutive. apply std_equal_spec; auto.
  - replace (length d1 =? length d2) with false by lia. simpl. split; [discriminate|intros ->; congruence].
Qed.

Lemma t_op_t_mixed_ok (op : A -> B -> C) junk (a : tensor A) (b : tensor B) : wf a -> wf b ->
  (dims a = dims b -> exists c, t_op_t_mixed op junk a b = Ok c /\ wf c /\ dims c = dims a /\ forall ix, elt c ix = opt2 op (elt a ix) (elt b ix)) /\
  (dims a <> dims b -> t_op_t_mixed op junk a b = Abort).
Proof.
  intros Ha Hb. unfold t_op_t_mixed. split; intros E.
  - rewrite (proj2 (verify_spec _ _) E). cbn [assert_ bind].
    assert (El : length (data a) = length (data b)) by (rewrite Ha, Hb, E; auto).
    destruct (zip_loop op junk (data a) (data b) (data (new_tensor junk (dims a)))) as (d & E1 & Hl & Hd); try lia.
    { rewrite new_tensor_len, Ha; auto. }
    rewrite E1. cbn [bind]. eexists; split; [reflexivity|]. split; [unfold wf; simpl; rewrite Hl; auto|].
    split; [reflexivity|]. intros ix. apply elt_zip'; auto.
  - destruct (verify_dims_match (dims a) (dims b)) eqn:V; [apply verify_spec in V; congruence|reflexivity].
Qed.
End OpsMain.

Section Unary.
Context {A C : Type}.

Lemma elt_map1 (h : A -> C) (a : tensor A) d ix : wf a -> length d = length (data a) ->
  (forall q, q < length (data a) -> nth_error d q = option_map h (nth_error (data a) q)) ->
  elt (mkT (dims a) d) ix = option_map h (elt a ix).
Proof.
  intros Hw Hl H. replace d with (map h (data a)).
  - unfold elt. cbn [dims data]. destruct (validb (dims a) ix); [|reflexivity]. apply nth_error_map.
  - apply list_eq_nth_len; [rewrite map_length; auto|]. intros q Hq. rewrite map_length in Hq.
    rewrite H, nth_error_map by auto. reflexivity.
Qed.

Lemma unop_ok (op : A -> C) junk (a : tensor A) : wf a ->
  exists c, unop op junk a = Ok c /\ wf c /\ dims c = dims a /\ forall ix, elt c ix = option_map op (elt a ix).
Proof.
  intros Ha. unfold unop.
  destruct (seq_write_opt (fun q => option_map op (nth_error (data a) q)) (length (data a)) (data (new_tensor junk (dims a)))
    (fun i st => x <- rd (data a) i ;; put (op x) st)) as (d & E & Hl & Hd).
  - rewrite new_tensor_len, Ha; auto.
  - intros q Hq. destruct (nth_ex (data a) q Hq) as (x & Hx & Ex). exists (op x). rewrite Hx. split; [reflexivity|].
    intros st. rewrite Ex. reflexivity.
  - rewrite E. cbn [bind]. eexists; split; [reflexivity|]. split; [unfold wf; simpl; rewrite Hl; auto|].
    split; [reflexivity|]. intros ix. apply elt_map1; auto.
Qed.

Lemma t_op_n_unop {B} (op : A -> B -> C) junk a b : t_op_n op junk a b = unop (fun x => op x b) junk a.
Proof. reflexivity. Qed.
Lemma n_op_t_unop {B} (op : B -> A -> C) junk b a : n_op_t op junk b a = unop (fun x => op b x) junk a.
Proof. reflexivity. Qed.
End Unary.

Section Assign.
Context {A B : Type}.

Lemma assign_loop (op : A -> B -> A) (a : tensor A) (b : tensor B) :
  wf a -> dims a = dims b -> length (data a) = length (data b) ->
  exists c, (d <- for_ (length (data a)) (fun i d =>
     x <- rd d i ;; y <- rd (data b) i ;; wr d i (op x y)) (data a) ;; Ok (mkT (dims a) d)) = Ok c /\
   wf c /\ dims c = dims a /\ forall ix, elt c ix = opt2 op (elt a ix) (elt b ix).
Proof.
  intros Ha E El.
  destruct (inplace_opt (fun q => opt2 op (nth_error (data a) q) (nth_error (data b) q)) (data a)
    (fun i d => x <- rd d i ;; y <- rd (data b) i ;; wr d i (op x y))) as (d & E1 & Hl & Hd).
  - intros i d Hi Hl Hd. destruct (nth_ex d i ltac:(lia)) as (x & Hx & Ex).
    destruct (nth_ex (data b) i ltac:(lia)) as (y & Hy & Ey).
    exists (op x y). rewrite <- (Hd i) by auto. rewrite Hx, Hy, Ex, Ey. split; reflexivity.
  - rewrite E1. cbn [bind]. eexists; split; [reflexivity|]. split; [unfold wf; simpl; rewrite Hl; auto|].
    split; [reflexivity|]. intros ix. apply elt_zip'; auto.
Qed.

Lemma op_assign_t_ok (op : A -> B -> A) (a : tensor A) (b : tensor B) : wf a -> wf b -> dims a = dims b ->
  exists c, op_assign_t op a b = Ok c /\ wf c /\ dims c = dims a /\ forall ix, elt c ix = opt2 op (elt a ix) (elt b ix).
Proof.
  intros Ha Hb E. unfold op_assign_t.
  assert (El : length (data a) = length (data b)) by (rewrite Ha, Hb, E; auto).
  replace (length (data a) =? length (data b)) with true by lia. cbn [assert_ bind]. apply assign_loop; auto.
Qed.

Lemma op_assign_t_reject (op : A -> B -> A) (a : tensor A) (b : tensor B) : wf a -> wf b ->
  nelem (dims a) <> nelem (dims b) -> op_assign_t op a b = Abort.
Proof.
  intros Ha Hb H. unfold op_assign_t. rewrite Ha, Hb. replace (nelem (dims a) =? nelem (dims b)) with false by lia. reflexivity.
Qed.

Lemma op_assign_t_mixed_ok (op : A -> B -> A) (a : tensor A) (b : tensor B) : wf a -> wf b ->
  (dims a = dims b ->
   exists c, op_assign_t_mixed op a b = Ok c /\ wf c /\ dims c = dims a /\ forall ix, elt c ix = opt2 op (elt a ix) (elt b ix)) /\
  (dims a <> dims b -> op_assign_t_mixed op a b = Abort).
Proof.
  intros Ha Hb. unfold op_assign_t_mixed. split; intros E.
  - rewrite (proj2 (verify_spec _ _) E). cbn [assert_ bind].
    assert (El : length (data a) = length (data b)) by (rewrite Ha, Hb, E; auto).
    apply assign_loop; auto.
  - destruct (verify_dims_match (dims a) (dims b)) eqn:V; [apply verify_spec in V; congruence|reflexivity].
Qed.
End Assign.

Lemma op_assign_self_ok {A} (op : A -> A -> A) (a : tensor A) : wf a ->
  exists c, op_assign_self op a = Ok c /\ wf c /\ dims c = dims a /\ forall ix, elt c ix = opt2 op (elt a ix) (elt a ix).
Proof.
  intros Ha. unfold op_assign_self.
  destruct (inplace_opt (fun q => opt2 op (nth_error (data a) q) (nth_error (data a) q)) (data a)
    (fun i d => x <- rd d i ;; y <- rd d i ;; wr d i (op x y))) as (d & E1 & Hl & Hd).
  - intros i d Hi Hl Hd. destruct (nth_ex d i ltac:(lia)) as (x & Hx & Ex).
    exists (op x x). rewrite <- (Hd i) by auto. rewrite Hx, Ex. split; reflexivity.
  - rewrite E1. cbn [bind]. eexists; split; [reflexivity|]. split; [unfold wf; simpl; rewrite Hl; auto|].
    split; [reflexivity|]. intros ix. apply elt_zip'; auto.
Qed.

Lemma op_assign_n_ok {A} (op : A -> A -> A) (a : tensor A) v : wf a ->
  exists c, op_assign_n op a (Outside v) = Ok c /\ wf c /\ dims c = dims a /\ forall ix, elt c ix = option_map (fun x => op x v) (elt a ix).
Proof.
  intros Ha. unfold op_assign_n.
  destruct (inplace_opt (fun q => option_map (fun x => op x v) (nth_error (data a) q)) (data a)
    (fun i d => x <- rd d i ;; y <- Ok v ;; wr d i (op x y))) as (d & E1 & Hl & Hd).
  - intros i d Hi Hl Hd. destruct (nth_ex d i ltac:(lia)) as (x & Hx & Ex).
    exists (op x v). rewrite <- (Hd i) by auto. rewrite Hx, Ex. split; reflexivity.
  - cbv beta iota. rewrite E1. cbn [bind]. eexists; split; [reflexivity|]. split; [unfold wf; simpl; rewrite Hl; auto|].
    split; [reflexivity|]. intros ix. apply elt_map1; auto.
Qed.

(* ---- constants ---- *)
Section Const.
Context {A : Type} (N : numops A).

Lemma fill_ok (t : tensor A) e : fill_with t e = Ok (mkT (dims t) (repeat e (length (data t)))).
Proof.
  unfold fill_with.
  destruct (inplace_opt (fun q => Some e) (data t) (fun i d => wr d i e)) as (d & E & Hl & Hd).
  - intros. eauto.
  - rewrite E. cbn [bind]. do 2 f_equal. apply list_eq_nth_len; [rewrite repeat_length; auto|].
    intros i Hi. rewrite Hd by lia. symmetry. rewrite (nth_error_nth' _ e) by (rewrite repeat_length; lia).
    rewrite nth_repeat. reflexivity.
Qed.

Lemma nth_error_repeat_lt (e : A) n q : q < n -> nth_error (repeat e n) q = Some e.
Proof. intros H. rewrite (nth_error_nth' _ e) by (rewrite repeat_length; lia). rewrite nth_repeat. reflexivity. Qed.

Lemma const_ok (junk : nat -> A) ds (e : A) : exists c : tensor A, fill_with (new_tensor junk ds) e = Ok c /\ wf c /\ dims c = ds /\
  (ds <> [] -> forall ix, valid ds ix -> elt c ix = Some e).
Proof.
  rewrite fill_ok. eexists; split; [reflexivity|]. rewrite new_tensor_len. split; [unfold wf; simpl; apply repeat_length|].
  split; [reflexivity|]. intros Hne ix Hix. rewrite elt_valid by exact Hix. cbn [dims data].
  apply nth_error_repeat_lt. rewrite nelem_prod by auto. apply lin_lt; auto.
Qed.

Lemma set2_diag (t : tensor A) r c i v : dims t = [r; c] -> i < r -> i < c -> length (data t) = r * c ->
  set2 t (Z.of_nat i) (Z.of_nat i) v = Ok (mkT [r; c] (upd (data t) (i * r + i) v)).
Proof.
  intros E Hr Hc Hl. unfold set2, get_dimensions2. rewrite E. cbn [bind].
  rewrite !normalize_nonneg by auto. cbn [bind]. unfold set_at. rewrite wr_ok by nia. rewrite E. reflexivity.
Qed.

Lemma eye_ok (junk : nat -> A) r c : exists m : tensor A, eye N junk r c = Ok m /\ wf m /\ dims m = [r; c] /\
  forall i j, i < r -> j < c -> elt m [i; j] = Some (if i =? j then none_ N else nzero N).
Proof.
  unfold eye. rewrite fill_ok. cbn [bind]. rewrite new_tensor_len. cbn [new_tensor dims].
  destruct (for_inv (fun n t => dims t = [r; c] /\ length (data t) = r * c /\
     forall i j, i < r -> j < c -> nth_error (data t) (i + r * j) = Some (if (i =? j) && (i <? n) then none_ N else nzero N))
     (Nat.min r c) (fun i output => set2 output (Z.of_nat i) (Z.of_nat i) (none_ N))
     (mkT [r; c] (repeat (nzero N) (nelem [r; c])))) as (m & E & Hd & Hl & H).
  - assert (En : nelem [r; c] = r * c) by (unfold nelem, prod; simpl; lia).
    cbn [dims data]. rewrite En. split; [auto|]. split; [apply repeat_length|].
    intros i j Hi Hj. rewrite nth_error_repeat_lt by (apply mix_lt; auto). replace (i <? 0) with false by lia.
    rewrite andb_false_r. reflexivity.
  - intros n t Hn (Hd & Hl & H). rewrite (set2_diag t r c) by (auto; lia).
    eexists; split; [reflexivity|]. cbn [dims data]. split; [auto|]. split; [rewrite length_upd; auto|].
    intros i j Hi Hj. destruct (Nat.eq_dec (i + r * j) (n * r + n)) as [Ep|Ep].
    + rewrite Ep. rewrite nth_error_upd_eq by nia.
      destruct (mix_inj r i j n n Hi ltac:(lia)) as [-> ->]; [lia|]. rewrite Nat.eqb_refl.
      replace (n <? S n) with true by lia. reflexivity.
    + rewrite nth_error_upd_ne, H by auto. destruct (Nat.eqb_spec i j) as [->|]; auto.
      assert (j <> n) by (intros ->; apply Ep; ring). simpl.
      replace (j <? S n) with (j <? n) by lia. reflexivity.
  - exists m. split; [exact E|]. split; [unfold wf; rewrite Hd, Hl; unfold nelem, prod; simpl; lia|].
    split; [auto|]. intros i j Hi Hj.
    rewrite elt_valid by (rewrite Hd; repeat constructor; auto). rewrite Hd, !lin_cons, lin_nil, Nat.mul_0_r, Nat.add_0_r.
    rewrite H by auto. destruct (Nat.eqb_spec i j) as [->|]; auto. replace (j <? Nat.min r c) with true by lia. reflexivity.
Qed.
End Const.

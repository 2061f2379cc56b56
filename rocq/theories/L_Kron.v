From Verif Require Import Base Spec L_Lin M_Tensor L_Tensor M_Arith M_Fold S_Fold L_Fold L_Arith L_Linspace M_Kron.

Section Kron.
Context {A : Type} (N : numops A).

Lemma val_mat (a : tensor A) r c i k : dims a = [r; c] -> i < r -> k < c ->
  val N a [i; k] = dat N (data a) (i + r * k).
Proof.
  intros E Hi Hk. unfold val. rewrite elt_valid by (rewrite E; repeat constructor; auto).
  rewrite E, !lin_cons, lin_nil, Nat.mul_0_r, Nat.add_0_r. reflexivity.
Qed.

Lemma val_vec (a : tensor A) r i : dims a = [r] -> i < r -> val N a [i] = dat N (data a) i.
Proof.
  intros E Hi. unfold val. rewrite elt_valid by (rewrite E; repeat constructor; auto).
  rewrite E, !lin_cons, lin_nil, Nat.mul_0_r, Nat.add_0_r. reflexivity.
Qed.

Lemma wf_mat (a : tensor A) r c : wf a -> dims a = [r; c] -> length (data a) = r * c.
Proof. intros H E. rewrite H, E. unfold nelem, prod; simpl; lia. Qed.
Lemma wf_vec (a : tensor A) r : wf a -> dims a = [r] -> length (data a) = r.
Proof. intros H E. rewrite H, E. unfold nelem, prod; simpl; lia. Qed.

(* b varies slowly *)
Lemma do_kron_matrix_ok junk (b a : tensor A) rb cb ra ca : wf b -> wf a -> dims b = [rb; cb] -> dims a = [ra; ca] ->
  exists c, do_kron_matrix N junk b a = Ok c /\ wf c /\ dims c = [ra * rb; ca * cb] /\
    forall i j k l, i < ra -> j < rb -> k < ca -> l < cb ->
      elt c [i + ra * j; k + ca * l] = Some (nmul N (val N b [j; l]) (val N a [i; k])).
Proof.
  intros Hb Ha Eb Ea. unfold do_kron_matrix.
  rewrite (dimension_ok a [] ra [ca] 0 Ea eq_refl : dimension a 0 = Ok ra).
  rewrite (dimension_ok b [] rb [cb] 0 Eb eq_refl : dimension b 0 = Ok rb).
  rewrite (dimension_ok a [ra] ca [] 1 Ea eq_refl : dimension a 1 = Ok ca).
  rewrite (dimension_ok b [rb] cb [] 1 Eb eq_refl : dimension b 1 = Ok cb).
  cbn [bind].
  assert (Hla := wf_mat a ra ca Ha Ea). assert (Hlb := wf_mat b rb cb Hb Eb).
  destruct ((ra * rb =? 0) || (ca * cb =? 0)) eqn:Z.
  - eexists; split; [reflexivity|]. split; [apply new_tensor_wf|]. split; [reflexivity|].
    intros i j k l Hi Hj Hk Hl. exfalso.
    assert (ra * rb <> 0) by (apply Nat.neq_mul_0; lia). assert (ca * cb <> 0) by (apply Nat.neq_mul_0; lia). lia.
  - assert (Hra : ra <> 0) by (intros ->; simpl in Z; discriminate).
    assert (Hrb : rb <> 0) by (intros ->; rewrite Nat.mul_0_r in Z; discriminate).
    assert (Hca : ca <> 0) by (intros ->; rewrite orb_true_r in Z; discriminate).
    assert (Hcb : cb <> 0) by (intros ->; rewrite Nat.mul_0_r, orb_true_r in Z; discriminate).
    rewrite !for_nest.
    set (f := fun q : nat =>
        let i := q mod ra in let j := (q / ra) mod rb in let k := (q / ra / rb) mod ca in let l := q / ra / rb / ca in
        nmul N (dat N (data b) (l * rb + j)) (dat N (data a) (k * ra + i))).
    assert (Hn : cb * ca * rb * ra = prod [ra * rb; ca * cb]) by (unfold prod; simpl; ring).
    rewrite (seq_write_all f).
    + cbn [bind]. eexists; split; [reflexivity|]. rewrite Hn. split; [apply wf_map_seq; discriminate|].
      split; [reflexivity|]. intros i j k l Hi Hj Hk Hl.
      rewrite elt_map_seq; auto. 2:{ repeat constructor; apply mix_lt; auto. }
      rewrite !lin_cons, lin_nil, Nat.mul_0_r, Nat.add_0_r.
      replace (i + ra * j + ra * rb * (k + ca * l)) with (i + ra * (j + rb * (k + ca * l))) by ring.
      unfold f. repeat first [rewrite mix_mod by auto | rewrite mix_div by auto].
      rewrite (val_mat b rb cb), (val_mat a ra ca) by auto. do 3 f_equal; lia.
    + rewrite new_tensor_len, nelem_prod by discriminate. unfold prod; simpl; ring.
    + intros q st Hq. unfold f.
      assert (Hq1 : q / ra < cb * ca * rb) by (apply Nat.div_lt_upper_bound; lia).
      assert (Hq2 : q / ra / rb < cb * ca) by (apply Nat.div_lt_upper_bound; lia).
      assert (Hq3 : q / ra / rb / ca < cb) by (apply Nat.div_lt_upper_bound; lia).
      pose proof (Nat.mod_upper_bound q ra Hra). pose proof (Nat.mod_upper_bound (q / ra) rb Hrb).
      pose proof (Nat.mod_upper_bound (q / ra / rb) ca Hca).
      rewrite (rd_dat N (data b)) by (rewrite Hlb; nia).
      cbn [bind]. rewrite (rd_dat N (data a)) by (rewrite Hla; nia). reflexivity.
Qed.

Lemma kron_mat_ok junk (a b : tensor A) ra ca rb cb : wf a -> wf b -> dims a = [ra; ca] -> dims b = [rb; cb] ->
  exists c, kron N junk a b = Ok c /\ wf c /\ dims c = [ra * rb; ca * cb] /\
    forall i j k l, i < ra -> j < rb -> k < ca -> l < cb ->
      elt c [i * rb + j; k * cb + l] = Some (nmul N (val N a [i; k]) (val N b [j; l])).
Proof.
  intros Ha Hb Ea Eb. unfold kron, do_kron. rewrite Ea, Eb. simpl length. simpl Nat.eqb. simpl Nat.leb. cbn [assert_ bind].
  destruct (do_kron_matrix_ok junk a b ra ca rb cb Ha Hb Ea Eb) as (c & E & Hw & Hd & H).
  exists c. split; [exact E|]. split; [auto|]. split; [rewrite Hd; f_equal; [ring|f_equal; ring]|].
  intros i j k l Hi Hj Hk Hl. rewrite <- (H j i l k) by auto. f_equal. f_equal; [lia|f_equal; lia].
Qed.

Lemma kron_vec_ok junk (a b : tensor A) n m : wf a -> wf b -> dims a = [n] -> dims b = [m] ->
  exists c, kron N junk a b = Ok c /\ wf c /\ dims c = [n * m] /\
    forall i j, i < n -> j < m -> elt c [i * m + j] = Some (nmul N (val N a [i]) (val N b [j])).
Proof.
  intros Ha Hb Ea Eb. unfold kron, do_kron. rewrite Ea, Eb. simpl length. simpl Nat.eqb. simpl Nat.leb. cbn [assert_ bind].
  assert (Hla := wf_vec a n Ha Ea). assert (Hlb := wf_vec b m Hb Eb).
  assert (Hn1 : forall k, nelem [k; 1] = k) by (intros; unfold nelem, prod; simpl; lia).
  assert (Hn0 : forall k, nelem [k] = k) by (intros; unfold nelem, prod; simpl; lia).
  rewrite !reshape_ok by (rewrite Hn1; reflexivity). cbn [bind].
  destruct (do_kron_matrix_ok junk (mkT [length (data a); 1] (data a)) (mkT [length (data b); 1] (data b)) n 1 m 1)
    as (c & E & Hw & Hd & H).
  { unfold wf; cbn [data dims]. rewrite Hn1; auto. } { unfold wf; cbn [data dims]. rewrite Hn1; auto. }
  { simpl. congruence. } { simpl. congruence. }
  rewrite E. cbn [bind]. assert (Hlc : length (data c) = m * n).
  { rewrite (wf_mat c (m * n) 1); auto; lia. }
  rewrite reshape_ok by (rewrite Hn0, Hla, Hlb; auto).
  eexists; split; [reflexivity|]. rewrite Hla, Hlb. split; [unfold wf; cbn [data dims]; rewrite Hn0; auto|].
  split; [cbn [dims]; f_equal; ring|]. intros i j Hi Hj.
  assert (Hb' : j + m * i < m * n) by (apply mix_lt; auto).
  specialize (H j i 0 0 Hj Hi ltac:(lia) ltac:(lia)).
  rewrite elt_valid in H by (rewrite Hd; repeat constructor; lia). rewrite Hd, !lin_cons, lin_nil in H.
  rewrite elt_valid by (repeat constructor; simpl; lia). cbn [dims data]. rewrite lin_cons, lin_nil.
  replace (i * m + j + m * n * 0) with (j + m * i + m * n * (0 + 1 * 0 + 1 * 1 * 0)) by lia.
  replace (0 + 1 * 0 + 1 * 1 * 0) with (0 + 1 * 0 + 1 * 0) by lia.
  etransitivity; [|etransitivity; [exact H|]].
  - f_equal; lia.
  - rewrite (val_vec a n), (val_vec b m) by auto.
    rewrite (val_mat (mkT [length (data a); 1] (data a)) n 1), (val_mat (mkT [length (data b); 1] (data b)) m 1) by (simpl; auto; lia || congruence).
    cbn [data]. rewrite !Nat.mul_0_r, !Nat.add_0_r. reflexivity.
Qed.

Lemma kron_reject junk (a b : tensor A) : length (dims a) <> length (dims b) \/ 2 < length (dims a) ->
  kron N junk a b = Abort.
Proof.
  intros H. unfold kron, do_kron. destruct (Nat.eqb_spec (length (dims a)) (length (dims b))) as [E|E]; [|reflexivity].
  cbn [assert_ bind]. destruct H as [H|H]; [congruence|]. replace (length (dims a) <=? 2) with false by lia. reflexivity.
Qed.

(* ---- sums over a product ---- *)
Section Laws.
Hypothesis L : numlaws N.
Lemma add_0_r x : nadd N x (nzero N) = x.
Proof. rewrite (add_comm _ L). apply (add_0_l _ L). Qed.
Lemma mul_0_r x : nmul N x (nzero N) = nzero N.
Proof. rewrite (mul_comm _ L). apply (mul_0_l _ L). Qed.
Lemma mul_1_r x : nmul N x (none_ N) = x.
Proof. rewrite (mul_comm _ L). apply (mul_1_l _ L). Qed.
Lemma mul_add_r x y z : nmul N x (nadd N y z) = nadd N (nmul N x y) (nmul N x z).
Proof. rewrite (mul_comm _ L), (mul_add_l _ L), !(mul_comm _ L x). reflexivity. Qed.

Lemma sum_scal_l n x f : nmul N x (sum_n N n f) = sum_n N n (fun i => nmul N x (f i)).
Proof. induction n as [|n IH]; simpl; [apply mul_0_r|]. rewrite mul_add_r, IH. reflexivity. Qed.
Lemma sum_scal_r n x f : nmul N (sum_n N n f) x = sum_n N n (fun i => nmul N (f i) x).
Proof. rewrite (mul_comm _ L), sum_scal_l. apply sum_ext. intros; apply (mul_comm _ L). Qed.
Lemma sum_app n m f : sum_n N (n + m) f = nadd N (sum_n N n f) (sum_n N m (fun j => f (n + j))).
Proof.
  induction m as [|m IH]; [rewrite Nat.add_0_r; simpl; rewrite add_0_r; reflexivity|].
  rewrite Nat.add_succ_r. simpl. rewrite IH, <- (add_assoc _ L). reflexivity.
Qed.
Lemma sum_prod n m f : sum_n N (n * m) f = sum_n N n (fun i => sum_n N m (fun j => f (i * m + j))).
Proof.
  induction n as [|n IH]; simpl; [reflexivity|]. rewrite Nat.add_comm, sum_app, IH. reflexivity.
Qed.
Lemma sum_mul n m f g : nmul N (sum_n N n f) (sum_n N m g) = sum_n N n (fun i => sum_n N m (fun j => nmul N (f i) (g j))).
Proof. rewrite sum_scal_r. apply sum_ext. intros i _. apply sum_scal_l. Qed.
End Laws.

Lemma mat_ext (x y : tensor A) r c : wf x -> wf y -> dims x = [r; c] -> dims y = [r; c] ->
  (forall i j, i < r -> j < c -> elt x [i; j] = elt y [i; j]) -> x = y.
Proof.
  intros Hx Hy Ex Ey H. destruct x as [dx ex], y as [dy ey]. simpl in *. subst dx dy. f_equal.
  pose proof (wf_mat _ r c Hx eq_refl) as Lx. pose proof (wf_mat _ r c Hy eq_refl) as Ly. simpl in Lx, Ly.
  apply list_eq_nth_len; [lia|]. intros q Hq. rewrite Lx in Hq.
  assert (Hr : r <> 0) by (intros ->; lia).
  assert (Hq1 : q / r < c) by (apply Nat.div_lt_upper_bound; lia).
  pose proof (Nat.mod_upper_bound q r Hr).
  specialize (H (q mod r) (q / r) ltac:(auto) ltac:(auto)).
  rewrite !elt_valid in H by (simpl; repeat constructor; auto). cbn [dims data] in H.
  rewrite !lin_cons, lin_nil, Nat.mul_0_r, Nat.add_0_r, <- (mix_split r q) in H by auto. exact H.
Qed.

Lemma val_some (t : tensor A) ix v : elt t ix = Some v -> val N t ix = v.
Proof. unfold val. intros ->. reflexivity. Qed.

Lemma split_lt n m r : r < n * m -> exists i j, i < n /\ j < m /\ r = i * m + j.
Proof.
  intros H. assert (m <> 0) by (intros ->; lia). exists (r / m), (r mod m).
  split; [apply Nat.div_lt_upper_bound; lia|]. split; [apply Nat.mod_upper_bound; auto|].
  pose proof (mix_split m r). lia.
Qed.

Lemma unsplit_lt n m i j : i < n -> j < m -> i * m + j < n * m.
Proof. nia. Qed.

Lemma mmult_ok jd junk (a b : tensor A) r l c :
  wf a -> wf b -> dims a = [r; l] -> dims b = [l; c] -> 0 < l ->
  exists p, mmult N jd junk a b = Ok p /\ wf p /\ dims p = [r; c] /\
    forall i j, i < r -> j < c ->
      elt p [i; j] = Some (sum_n N l (fun x => nmul N (val N a [i; x]) (val N b [x; j]))).
Proof.
  intros Ha Hb Ea Eb Hl.
  destruct (do_fold_ok N false jd junk a b (-1) 0 [r] l [] [] [c]) as (p & E & Hw & Hd & H); auto; try discriminate.
  - rewrite Ea. split; simpl; [lia|auto].
  - rewrite Eb. split; simpl; [lia|auto].
  - exists p. split; [exact E|]. split; [auto|]. split; [exact Hd|]. intros i j Hi Hj.
    apply (H [i] [] [] [j]); repeat constructor; auto.
Qed.

Lemma kron_mixed_product jd junk (a b c d : tensor A) ra la ca rb lb cb :
  numlaws N -> wf a -> wf b -> wf c -> wf d ->
  dims a = [ra; la] -> dims c = [la; ca] -> dims b = [rb; lb] -> dims d = [lb; cb] -> 0 < la -> 0 < lb ->
  exists ab cd ac bd p,
    kron N junk a b = Ok ab /\ kron N junk c d = Ok cd /\ mmult N jd junk a c = Ok ac /\ mmult N jd junk b d = Ok bd /\
    mmult N jd junk ab cd = Ok p /\ kron N junk ac bd = Ok p.
Proof.
  intros L Ha Hb Hc Hd Ea Ec Eb Ed Hla Hlb.
  destruct (kron_mat_ok junk a b ra la rb lb) as (ab & E1 & W1 & D1 & H1); auto.
  destruct (kron_mat_ok junk c d la ca lb cb) as (cd & E2 & W2 & D2 & H2); auto.
  destruct (mmult_ok jd junk a c ra la ca) as (ac & E3 & W3 & D3 & H3); auto.
  destruct (mmult_ok jd junk b d rb lb cb) as (bd & E4 & W4 & D4 & H4); auto.
  destruct (mmult_ok jd junk ab cd (ra * rb) (la * lb) (ca * cb)) as (p & E5 & W5 & D5 & H5); auto.
  { apply Nat.mul_pos_pos; auto. }
  destruct (kron_mat_ok junk ac bd ra ca rb cb) as (p' & E6 & W6 & D6 & H6); auto.
  exists ab, cd, ac, bd, p. do 5 (split; [auto|]). rewrite E6. f_equal.
  apply (mat_ext p' p (ra * rb) (ca * cb)); auto. intros r s Hr Hs.
  apply split_lt in Hr as (i & j & Hi & Hj & ->). apply split_lt in Hs as (k & l & Hk & Hl & ->).
  rewrite H6 by auto. rewrite H5 by (apply unsplit_lt; auto).
  f_equal. rewrite (val_some _ _ _ (H3 i k Hi Hk)), (val_some _ _ _ (H4 j l Hj Hl)).
  rewrite sum_mul by auto. rewrite sum_prod by auto. apply sum_ext. intros x Hx. apply sum_ext. intros y Hy.
  rewrite (val_some _ _ _ (H1 i j x y Hi Hj Hx Hy)), (val_some _ _ _ (H2 x y k l Hx Hy Hk Hl)).
  rewrite !(mul_assoc _ L). f_equal. rewrite <- !(mul_assoc _ L). f_equal. apply (mul_comm _ L).
Qed.

(* ---- kron2_sum ---- *)
Lemma kron2_sum_mat_ok junk (a b : tensor A) ra ca rb cb : numlaws N -> wf a -> wf b -> dims a = [ra; ca] -> dims b = [rb; cb] ->
  exists c, kron2_sum N junk a b = Ok c /\ wf c /\ dims c = [ra * rb; ca * cb] /\
    forall i j k l, i < ra -> j < rb -> k < ca -> l < cb ->
      elt c [i * rb + j; k * cb + l] =
      Some (nadd N (if i =? k then val N b [j; l] else nzero N) (if j =? l then val N a [i; k] else nzero N)).
Proof.
  intros L Ha Hb Ea Eb. unfold kron2_sum, do_kron2_sum, get_dimensions2. rewrite Ea, Eb. simpl length. simpl Nat.eqb. simpl Nat.leb.
  cbn [assert_ bind].
  destruct (eye_ok N junk ra ca) as (ea & E1 & W1 & D1 & H1). rewrite E1. cbn [bind].
  destruct (kron_mat_ok junk ea b ra ca rb cb W1 Hb D1 Eb) as (x & E2 & W2 & D2 & H2). rewrite E2. cbn [bind].
  destruct (eye_ok N junk rb cb) as (eb & E3 & W3 & D3 & H3). rewrite E3. cbn [bind].
  destruct (kron_mat_ok junk a eb ra ca rb cb Ha W3 Ea D3) as (y & E4 & W4 & D4 & H4). rewrite E4. cbn [bind].
  destruct (t_op_t_ok (nadd N) junk x y W2 W4 ltac:(congruence)) as (c & E5 & W5 & D5 & H5).
  exists c. split; [auto|]. split; [auto|]. split; [congruence|]. intros i j k l Hi Hj Hk Hl.
  rewrite H5, H2, H4 by auto. cbn [opt2].
  rewrite (val_some _ _ _ (H1 i k Hi Hk)), (val_some _ _ _ (H3 j l Hj Hl)). f_equal. f_equal.
  - destruct (i =? k); [apply (mul_1_l _ L)|apply (mul_0_l _ L)].
  - destruct (j =? l); [apply mul_1_r; auto|apply mul_0_r; auto].
Qed.

Lemma kron2_sum_vec_ok junk (a b : tensor A) n m : numlaws N -> wf a -> wf b -> dims a = [n] -> dims b = [m] ->
  exists c, kron2_sum N junk a b = Ok c /\ wf c /\ dims c = [n * m] /\
    forall i j, i < n -> j < m -> elt c [i * m + j] = Some (nadd N (val N b [j]) (val N a [i])).
Proof.
  intros L Ha Hb Ea Eb. unfold kron2_sum, do_kron2_sum. rewrite Ea, Eb. simpl length. simpl Nat.eqb. simpl Nat.leb.
  cbn [assert_ bind].
  assert (Hla := wf_vec a n Ha Ea). assert (Hlb := wf_vec b m Hb Eb). rewrite Hla, Hlb.
  assert (Hn1 : forall k, nelem [k; 1] = k) by (intros; unfold nelem, prod; simpl; lia).
  assert (Hn0 : forall k, nelem [k] = k) by (intros; unfold nelem, prod; simpl; lia).
  rewrite !reshape_ok by (rewrite Hn1; auto). cbn [bind].
  destruct (const_ok junk [n; 1] (none_ N)) as (oa & E1 & W1 & D1 & H1).
  unfold ones. rewrite E1. cbn [bind].
  unfold kron2. fold (kron N junk oa (mkT [m; 1] (data b))).
  destruct (kron_mat_ok junk oa (mkT [m; 1] (data b)) n 1 m 1 W1) as (x & E2 & W2 & D2 & H2); auto.
  { unfold wf; cbn [data dims]; rewrite Hn1; auto. }
  rewrite E2. cbn [bind].
  destruct (const_ok junk [m; 1] (none_ N)) as (ob & E3 & W3 & D3 & H3).
  rewrite E3. cbn [bind]. fold (kron N junk (mkT [n; 1] (data a)) ob).
  destruct (kron_mat_ok junk (mkT [n; 1] (data a)) ob n 1 m 1) as (y & E4 & W4 & D4 & H4); auto.
  { unfold wf; cbn [data dims]; rewrite Hn1; auto. }
  rewrite E4. cbn [bind].
  destruct (t_op_t_ok (nadd N) junk x y W2 W4 ltac:(congruence)) as (c & E5 & W5 & D5 & H5). rewrite E5. cbn [bind].
  assert (Hlc : length (data c) = n * m) by (rewrite (wf_mat c (n * m) (1 * 1)); auto; try congruence; lia).
  rewrite reshape_ok by (rewrite Hn0; lia).
  eexists; split; [reflexivity|]. split; [unfold wf; cbn [data dims]; rewrite Hn0; lia|].
  split; [cbn [dims]; f_equal; ring|]. intros i j Hi Hj.
  assert (Hb' : i * m + j < n * m) by nia.
  specialize (H5 [i * m + j; 0 * 1 + 0]). rewrite H2, H4 in H5 by lia.
  rewrite elt_valid in H5 by (rewrite D5, D2; repeat constructor; simpl; lia). rewrite D5, D2, !lin_cons, lin_nil in H5.
  rewrite elt_valid by (repeat constructor; simpl; lia). cbn [dims data]. rewrite lin_cons, lin_nil.
  replace (i * m + j + m * n * 0) with (i * m + j + n * m * (0 * 1 + 0 + 1 * 1 * 0)) by lia. rewrite H5.
  cbn [opt2]. f_equal.
  rewrite (val_vec a n), (val_vec b m) by auto.
  rewrite (val_mat (mkT [n; 1] (data a)) n 1), (val_mat (mkT [m; 1] (data b)) m 1) by (simpl; auto; lia || congruence).
  cbn [data]. rewrite !Nat.mul_0_r, !Nat.add_0_r.
  rewrite (val_some oa _ _ (H1 ltac:(discriminate) [i; 0] ltac:(repeat constructor; lia))).
  rewrite (val_some ob _ _ (H3 ltac:(discriminate) [j; 0] ltac:(repeat constructor; lia))).
  rewrite (mul_1_l _ L), mul_1_r by auto. reflexivity.
Qed.
End Kron.

(* The lemmas on packed rows, restated for well-formed sparse matrices. *)
From Verif Require Import Base Spec S_Fold S_Reduce S_Sparse M_Tensor M_Arith M_Fold M_Permute M_Kron M_Sparse
  L_Lin L_Tensor L_Arith L_Fold L_Permute L_Kron L_Scale L_Trace L_Reduce L_Sparse L_Sparse2 L_Sparse3 L_Sparse4 L_Sparse5 L_Sparse6.
From Coq Require Import Sorted.

Section Wf.
Context {A : Type} (N : numops A).
Notation z := (nzero N).

Lemma rows_of_nth (s : sparse A) i : i < srows s -> nth_error (rows_of s) i = Some (row_entries s i).
Proof. intros H. unfold rows_of. rewrite nth_error_map_seq by auto. reflexivity. Qed.
Lemma rows_of_len (s : sparse A) : length (rows_of s) = srows s.
Proof. unfold rows_of. rewrite map_length, seq_length. reflexivity. Qed.
Lemma rows_of_nth0 (s : sparse A) i : i < srows s -> nth i (rows_of s) [] = row_entries s i.
Proof. intros H. apply nth_error_nth, rows_of_nth. auto. Qed.

Lemma full_elts junk (s : sparse A) : wf_sparse s ->
  exists t, full N junk s = Ok t /\ wf t /\ dims t = [srows s; scols s] /\
    forall i j, i < srows s -> j < scols s -> elt t [i; j] = Some (entry z s i j).
Proof.
  intros W. destruct (wf_pack s W) as [E G]. destruct (full_ok N junk (scols s) (rows_of s) G) as (t & H1 & H2 & H3 & H4).
  rewrite <- E in H1. exists t. rewrite rows_of_len in H3. repeat split; auto. intros i j Hi Hj. apply H4; auto. apply rows_of_nth. auto.
Qed.
Lemma full_is junk (s : sparse A) (t : tensor A) : wf_sparse s -> wf t -> dims t = [srows s; scols s] ->
  (forall i j, i < srows s -> j < scols s -> elt t [i; j] = Some (entry z s i j)) -> full N junk s = Ok t.
Proof.
  intros W Ht Hd He. destruct (full_elts junk s W) as (u & E & Hu & Hdu & Heu). rewrite E. f_equal. eapply mat_ext; eauto.
  intros i j Hi Hj. rewrite Heu, He; auto.
Qed.

Lemma of_dense_full (isz : A -> bool) (Hisz : forall x, isz x = true <-> x = z) jrs jcol jdata (t : tensor A) R C : wf t -> dims t = [R; C] ->
  exists s, of_dense isz jrs jcol jdata t = Ok s /\ wf_sparse s /\ no_zeros z s /\ srows s = R /\ scols s = C /\
    (forall i j, i < R -> j < C -> entry z s i j = val N t [i; j]) /\ forall junk, full N junk s = Ok t.
Proof.
  intros Ht Hd. exists (pack C (dense_rows N isz t R C)). split; [apply of_dense_ok; auto|].
  assert (W : wf_sparse (pack C (dense_rows N isz t R C))) by (apply pack_wf, dense_rows_good; auto).
  assert (Hr : srows (pack C (dense_rows N isz t R C)) = R) by (unfold pack, dense_rows; simpl; rewrite map_length, seq_length; reflexivity).
  assert (He : forall i j, i < R -> j < C -> entry z (pack C (dense_rows N isz t R C)) i j = val N t [i; j]).
  { intros i j Hi Hj. rewrite (entry_pack z C _ i j (dense_row isz (fun j => val N t [i; j]) C)) by (unfold dense_rows; rewrite nth_error_map_seq by auto; reflexivity).
    destruct (dense_row_ok N isz Hisz (fun j => val N t [i; j]) C) as (_ & H & _). apply H; auto. }
  split; [auto|]. split.
  { unfold no_zeros, pack. cbn [sdata]. intros Hz. apply in_map_iff in Hz. destruct Hz as (p & Ep & Hp). apply in_concat in Hp. destruct Hp as (r & Hr' & Hp).
    apply in_map_iff in Hr'. destruct Hr' as (i & <- & _). destruct (dense_row_ok N isz Hisz (fun j => val N t [i; j]) C) as (_ & _ & H). apply (H p); auto. }
  split; [auto|]. split; [reflexivity|]. split; [auto|]. intros junk. apply full_is; auto.
  - rewrite Hr. exact Hd.
  - rewrite Hr. replace (scols (pack C (dense_rows N isz t R C))) with C by reflexivity. intros i j Hi Hj. rewrite He by auto.
    destruct (elt_some t [i; j]) as [x Hx]; auto; [rewrite Hd; discriminate|rewrite Hd; repeat constructor; auto|]. rewrite (val_some _ _ _ _ Hx). auto.
Qed.

Lemma get_ok (s : sparse A) row col i j : wf_sparse s -> coord (srows s) row i -> coord (scols s) col j -> sget N s row col = Ok (entry z s i j).
Proof.
  intros W Hi Hj. destruct (wf_pack s W) as [E G]. assert (Hlt : i < srows s) by (destruct Hi; auto).
  assert (H := sget_ok N (scols s) (rows_of s) row col i j (row_entries s i) G (rows_of_nth s i Hlt)). rewrite rows_of_len, <- E in H. apply H; auto.
Qed.

(* arithmetic *)
Lemma binop_wf (isz : A -> bool) (Hisz : forall x, isz x = true <-> x = z) op (Hop : op z z = z) jrs jcol jdata (a b : sparse A) :
  wf_sparse a -> wf_sparse b -> srows a = srows b -> scols a = scols b ->
  exists s F, (forall fuel, F <= fuel -> sparse_binop N isz fuel jrs jcol jdata op a b = Ok s) /\
    wf_sparse s /\ no_zeros z s /\ srows s = srows a /\ scols s = scols a /\
    forall i j, i < srows a -> entry z s i j = op (entry z a i j) (entry z b i j).
Proof.
  intros Wa Wb Hr Hc. destruct (wf_pack a Wa) as [Ea Ga], (wf_pack b Wb) as [Eb Gb].
  destruct (binop_ok N isz jrs jcol jdata op (scols a) (rows_of a) (rows_of b)) as (F & HF); auto; [rewrite !rows_of_len; auto|rewrite Hc; auto|].
  assert (Eb' : pack (scols a) (rows_of b) = b) by (rewrite Hc; auto). rewrite <- Ea, Eb', rows_of_len in HF.
  set (s := pack (scols a) (brows N isz op (rows_of a) (rows_of b) (srows a))) in *.
  exists s, F. split; [exact HF|]. split; [apply pack_wf, brows_good; auto; rewrite Hc; auto|]. split.
  { unfold no_zeros, s, pack. cbn [sdata]. intros Hz. apply in_map_iff in Hz. destruct Hz as (p & Ep & Hp). apply in_concat in Hp. destruct Hp as (r & Hr' & Hp).
    apply in_map_iff in Hr'. destruct Hr' as (i & <- & _). unfold brow in Hp. apply (nzrow_nz N isz Hisz) in Hp. auto. }
  split; [unfold s, pack, brows; simpl; rewrite map_length, seq_length; reflexivity|]. split; [reflexivity|].
  intros i j Hi. unfold s. rewrite brows_entry; auto; [|rewrite Hc; auto]. rewrite !rows_of_nth0 by lia. reflexivity.
Qed.
Lemma binop_reject isz fuel jrs jcol jdata op (a b : sparse A) : srows a <> srows b \/ scols a <> scols b ->
  sparse_binop N isz fuel jrs jcol jdata op a b = Abort.
Proof.
  intros H. unfold sparse_binop. replace ((srows a =? srows b) && (scols a =? scols b)) with false; [reflexivity|].
  symmetry. apply andb_false_iff. rewrite !Nat.eqb_neq. auto.
Qed.

Lemma transpose_wf (isz : A -> bool) (Hisz : forall x, isz x = true <-> x = z) sorter jrows jcol jdata (s : sparse A) : is_std_sort sorter -> wf_sparse s ->
  exists s', stranspose isz sorter jrows jcol jdata s = Ok s' /\ wf_sparse s' /\ no_zeros z s' /\ srows s' = scols s /\ scols s' = srows s /\
    forall i j, i < srows s -> j < scols s -> entry z s' j i = entry z s i j.
Proof.
  intros Hs W. destruct (wf_pack s W) as [E G].
  destruct (trans_gen N isz Hisz (fun x => x) eq_refl sorter jrows jcol jdata (scols s) (rows_of s) Hs G) as (s' & H1 & H2 & H3 & H4 & H5 & H6).
  rewrite map_id, <- E, rows_of_len in *. exists s'. repeat split; auto; try apply H2. intros i j Hi Hj. rewrite (H6 i j (row_entries s i)); auto. apply rows_of_nth; auto.
Qed.
Lemma adjoint_wf (isz : A -> bool) (Hisz : forall x, isz x = true <-> x = z) (Hc : nconj N z = z) sorter jrows jcol jdata (s : sparse A) : is_std_sort sorter -> wf_sparse s ->
  exists s', sadjoint N isz sorter jrows jcol jdata s = Ok s' /\ wf_sparse s' /\ no_zeros z s' /\ srows s' = scols s /\ scols s' = srows s /\
    forall i j, i < srows s -> j < scols s -> entry z s' j i = nconj N (entry z s i j).
Proof.
  intros Hs W. destruct (wf_pack s W) as [E G].
  destruct (trans_gen N isz Hisz (nconj N) Hc sorter jrows jcol jdata (scols s) (rows_of s) Hs G) as (s' & H1 & H2 & H3 & H4 & H5 & H6).
  rewrite <- E, rows_of_len in *. exists s'. repeat split; auto; try apply H2. intros i j Hi Hj. rewrite (H6 i j (row_entries s i)); auto. apply rows_of_nth; auto.
Qed.

(* kron(a, b) *)
Lemma kron_wf (L : numlaws N) jrs jcol jdata (a b : sparse A) : wf_sparse a -> wf_sparse b ->
  exists s, skron N jrs jcol jdata a b = Ok s /\ wf_sparse s /\ srows s = srows a * srows b /\ scols s = scols a * scols b /\
    forall i j k l, i < srows a -> j < srows b -> k < scols a -> l < scols b ->
      entry z s (i * srows b + j) (k * scols b + l) = nmul N (entry z a i k) (entry z b j l).
Proof.
  intros Wa Wb. destruct (wf_pack a Wa) as [Ea Ga], (wf_pack b Wb) as [Eb Gb].
  assert (H := sdo_kron_ok N jrs jcol jdata (scols a) (scols b) (rows_of a) (rows_of b)). rewrite <- Ea, <- Eb in H.
  eexists. split; [exact H|]. split; [apply pack_wf, krows_good; auto|].
  split; [unfold pack, krows; simpl; rewrite map_length, seq_length, !rows_of_len; lia|]. split; [unfold pack; simpl; lia|].
  intros i j k l Hi Hj Hk Hl.
  assert (He := krows_entry N L (scols b) (scols a) (rows_of a) (rows_of b) i j l k (row_entries a i) (row_entries b j) Ga Gb (rows_of_nth a i Hi) (rows_of_nth b j Hj) Hl).
  rewrite !rows_of_len in *. rewrite He. apply (mul_comm _ L).
Qed.

Lemma nth_rows s x : nth x (rows_of s) [] = if x <? srows s then @row_entries A s x else [].
Proof.
  destruct (Nat.ltb_spec x (srows s)); [apply rows_of_nth0; auto|]. apply nth_overflow. rewrite rows_of_len. auto.
Qed.

(* products *)
Lemma mmult_sp_t_wf (L : numlaws N) jd junk (s : sparse A) (t : tensor A) ds : wf_sparse s -> wf t -> dims t = scols s :: ds ->
  exists p, mmult_sp_t N jd junk s t = Ok p /\ wf p /\ dims p = srows s :: ds /\
    forall i v, i < srows s -> valid ds v -> elt p (i :: v) = Some (sum_n N (scols s) (fun x => nmul N (entry z s i x) (val N t (x :: v)))).
Proof.
  intros W Ht Hd. destruct (wf_pack s W) as [E G]. destruct (mmult_sp_t_elts N L jd junk (scols s) (rows_of s) t ds G Ht Hd) as (p & H1 & H2 & H3 & H4).
  rewrite <- E, rows_of_len in *. exists p. repeat split; auto. intros i v Hi Hv. apply (H4 i (row_entries s i)); auto. apply rows_of_nth; auto.
Qed.
Lemma mmult_t_sp_wf (L : numlaws N) jd junk (s : sparse A) (t : tensor A) ds : wf_sparse s -> wf t -> dims t = ds ++ [srows s] ->
  exists p, mmult_t_sp_from N (Ok (srows s)) jd junk t s = Ok p /\ wf p /\ dims p = ds ++ [scols s] /\
    forall v j, valid ds v -> j < scols s -> elt p (v ++ [j]) = Some (sum_n N (srows s) (fun x => nmul N (val N t (v ++ [x])) (entry z s x j))).
Proof.
  intros W Ht Hd. destruct (wf_pack s W) as [E G]. 
  destruct (mmult_t_sp_elts N L jd junk (scols s) (rows_of s) t ds G Ht ltac:(rewrite rows_of_len; auto)) as (p & H1 & H2 & H3 & H4).
  rewrite <- E, rows_of_len in *. exists p. repeat split; auto. intros v j Hv Hj. rewrite H4 by auto. f_equal. apply sum_ext. intros x Hx.
  rewrite rows_of_nth0 by auto. reflexivity.
Qed.

Lemma slength_wf (s : sparse A) : wf_sparse s -> slength s = Ok (length (sdata s)).
Proof.
  intros W. destruct (wf_pack s W) as [E G]. assert (H := slength_pack (scols s) (rows_of s)). rewrite <- E in H. rewrite H. f_equal.
  destruct (pack_nnz (scols s) (rows_of s)) as [_ Hn]. rewrite <- E in Hn. auto.
Qed.
Lemma eye_wf jrs jdata R C : exists s, seye N jrs jdata R C = Ok s /\ wf_sparse s /\ srows s = R /\ scols s = C /\
  forall i j, i < R -> j < C -> entry z s i j = if i =? j then none_ N else z.
Proof.
  rewrite seye_ok. destruct (seye_rows N R C) as (G & Hl & H). eexists; split; [reflexivity|]. split; [apply pack_wf; auto|].
  split; [exact Hl|]. split; [reflexivity|]. intros i j Hi Hj. destruct (H i Hi) as (r & Hr & He). rewrite (entry_pack z C _ i j r Hr). auto.
Qed.

Lemma kron2_sum_wf (L : numlaws N) (isz : A -> bool) (Hisz : forall x, isz x = true <-> x = z) jrs jcol jdata (a b : sparse A) n m :
  wf_sparse a -> wf_sparse b -> srows a = n -> scols a = n -> srows b = m -> scols b = m ->
  length (sdata a) = n -> length (sdata b) = m ->
  exists s F, (forall fuel, F <= fuel -> skron2_sum N isz fuel jrs jcol jdata a b = Ok s) /\ wf_sparse s /\ srows s = m * n /\ scols s = m * n /\
    forall i j k l, i < m -> j < n -> k < m -> l < n ->
      entry z s (i * n + j) (k * n + l) = nadd N (if j =? l then entry z b i k else z) (if i =? k then entry z a j l else z).
Proof.
  intros Wa Wb Ra Ca Rb Cb La Lb. unfold skron2_sum. rewrite (slength_wf a Wa), (slength_wf b Wb), La, Lb. cbn [bind].
  destruct (eye_wf jrs jdata n n) as (ea & E1 & W1 & R1 & C1 & H1), (eye_wf jrs jdata m m) as (eb & E2 & W2 & R2 & C2 & H2).
  rewrite E1, E2. cbn [bind].
  destruct (kron_wf L jrs jcol jdata b ea Wb W1) as (x & Ex & Wx & Rx & Cx & Hx). destruct (kron_wf L jrs jcol jdata eb a W2 Wa) as (y & Ey & Wy & Ry & Cy & Hy).
  rewrite Ex, Ey. cbn [bind].
  destruct (binop_wf isz Hisz (nadd N) (add_0_l _ L z) jrs jcol jdata x y Wx Wy) as (s & F & HF & Ws & _ & Rs & Cs & Hs); [congruence|congruence|].
  exists s, F. split; [exact HF|]. split; [auto|]. split; [congruence|]. split; [congruence|].
  intros i j k l Hi Hj Hk Hl. rewrite Hs by (rewrite Rx, Rb, R1; nia).
  assert (Qx := Hx i j k l). rewrite R1, C1, Rb, Cb in Qx. rewrite Qx by auto. rewrite H1 by auto.
  assert (Qy := Hy i j k l). rewrite Ra, Ca, R2, C2 in Qy. rewrite Qy by auto. rewrite H2 by auto. f_equal.
  - destruct (j =? l); rewrite (mul_comm _ L); [apply (mul_1_l _ L)|apply (mul_0_l _ L)].
  - destruct (i =? k); [apply (mul_1_l _ L)|apply (mul_0_l _ L)].
Qed.

(* dense counterparts *)
Lemma kron_dense (L : numlaws N) jrs jcol jdata (a b : sparse A) : wf_sparse a -> wf_sparse b ->
  exists s ta tb t, skron N jrs jcol jdata a b = Ok s /\ 
    forall junk, full N junk a = Ok ta /\ full N junk b = Ok tb /\ kron N junk ta tb = Ok t /\ full N junk s = Ok t.
Proof.
  intros Wa Wb. destruct (kron_wf L jrs jcol jdata a b Wa Wb) as (s & Es & Ws & Rs & Cs & Hs).
  destruct (full_elts (fun _ => z) a Wa) as (ta & _ & Ta & Da & Ha), (full_elts (fun _ => z) b Wb) as (tb & _ & Tb & Db & Hb).
  destruct (kron_mat_ok N (fun _ => z) ta tb _ _ _ _ Ta Tb Da Db) as (t & _ & Tt & Dt & Ht).
  exists s, ta, tb, t. split; [auto|]. intros junk.
  split; [apply full_is; auto|]. split; [apply full_is; auto|]. split.
  - destruct (kron_mat_ok N junk ta tb _ _ _ _ Ta Tb Da Db) as (t' & Et' & Tt' & Dt' & Ht'). rewrite Et'. f_equal. eapply mat_ext; eauto.
    intros i j Hi Hj. destruct (split_lt _ _ _ Hi) as (i1 & i2 & Q1 & Q2 & ->), (split_lt _ _ _ Hj) as (j1 & j2 & Q3 & Q4 & ->). rewrite Ht, Ht' by auto. reflexivity.
  - apply full_is; auto; [congruence|]. rewrite Rs, Cs. intros i j Hi Hj.
    destruct (split_lt _ _ _ Hi) as (i1 & i2 & Q1 & Q2 & ->), (split_lt _ _ _ Hj) as (j1 & j2 & Q3 & Q4 & ->). rewrite Ht, Hs by auto.
    unfold val. rewrite Ha, Hb by auto. reflexivity.
Qed.

Lemma binop_dense (isz : A -> bool) (Hisz : forall x, isz x = true <-> x = z) op (Hop : op z z = z) jrs jcol jdata (a b : sparse A) :
  wf_sparse a -> wf_sparse b -> srows a = srows b -> scols a = scols b ->
  exists s F ta tb t, (forall fuel, F <= fuel -> sparse_binop N isz fuel jrs jcol jdata op a b = Ok s) /\
    forall junk, full N junk a = Ok ta /\ full N junk b = Ok tb /\ t_op_t op junk ta tb = Ok t /\ full N junk s = Ok t.
Proof.
  intros Wa Wb Hr Hc. destruct (binop_wf isz Hisz op Hop jrs jcol jdata a b Wa Wb Hr Hc) as (s & F & HF & Ws & _ & Rs & Cs & Hs).
  destruct (full_elts (fun _ => z) a Wa) as (ta & _ & Ta & Da & Ha), (full_elts (fun _ => z) b Wb) as (tb & _ & Tb & Db & Hb).
  assert (Dab : dims ta = dims tb) by congruence.
  destruct (t_op_t_ok op (fun _ => z) ta tb Ta Tb Dab) as (t & _ & Tt & Dt & Ht).
  exists s, F, ta, tb, t. split; [auto|]. intros junk. split; [apply full_is; auto|]. split; [apply full_is; auto|]. split.
  - destruct (t_op_t_ok op junk ta tb Ta Tb Dab) as (t' & Et' & Tt' & Dt' & Ht'). rewrite Et'. f_equal. apply tensor_ext; auto. split; [congruence|].
    intros ix. rewrite Ht, Ht'. reflexivity.
  - apply full_is; auto; [congruence|]. rewrite Rs, Cs. intros i j Hi Hj. rewrite Ht, Ha, Hb by (try rewrite <- Hr; try rewrite <- Hc; auto). rewrite Hs by auto. reflexivity.
Qed.

Lemma transpose_dense (isz : A -> bool) (Hisz : forall x, isz x = true <-> x = z) sorter jrows jcol jdata (s : sparse A) : is_std_sort sorter -> wf_sparse s ->
  exists s' t t', stranspose isz sorter jrows jcol jdata s = Ok s' /\
    forall junk, full N junk s = Ok t /\ transpose junk t = Ok t' /\ full N junk s' = Ok t'.
Proof.
  intros Hs W. destruct (transpose_wf isz Hisz sorter jrows jcol jdata s Hs W) as (s' & E & W' & _ & R' & C' & H').
  destruct (full_elts (fun _ => z) s W) as (t & _ & T & D & H). destruct (c15_transpose (fun _ => z) t _ _ T D) as (u & _ & U & DU & HU).
  exists s', t, u. split; [auto|]. intros junk. split; [apply full_is; auto|]. split.
  - destruct (c15_transpose junk t _ _ T D) as (u' & E' & U' & DU' & HU'). rewrite E'. f_equal. eapply mat_ext; eauto. intros i j _ _. rewrite HU, HU'. reflexivity.
  - apply full_is; auto; [congruence|]. rewrite R', C'. intros i j Hi Hj. rewrite HU, H, H' by auto. reflexivity.
Qed.
Lemma adjoint_dense (isz : A -> bool) (Hisz : forall x, isz x = true <-> x = z) (Hc : nconj N z = z) sorter jrows jcol jdata (s : sparse A) : is_std_sort sorter -> wf_sparse s ->
  exists s' t t', sadjoint N isz sorter jrows jcol jdata s = Ok s' /\
    forall junk, full N junk s = Ok t /\ adjoint (nconj N) junk t = Ok t' /\ full N junk s' = Ok t'.
Proof.
  intros Hs W. destruct (adjoint_wf isz Hisz Hc sorter jrows jcol jdata s Hs W) as (s' & E & W' & _ & R' & C' & H').
  destruct (full_elts (fun _ => z) s W) as (t & _ & T & D & H). destruct (c15_adjoint_gen (nconj N) (fun _ => z) t _ _ T D) as (u & _ & U & DU & HU).
  exists s', t, u. split; [auto|]. intros junk. split; [apply full_is; auto|]. split.
  - destruct (c15_adjoint_gen (nconj N) junk t _ _ T D) as (u' & E' & U' & DU' & HU'). rewrite E'. f_equal. eapply mat_ext; eauto. intros i j _ _. rewrite HU, HU'. reflexivity.
  - apply full_is; auto; [congruence|]. rewrite R', C'. intros i j Hi Hj. rewrite HU, H, H' by auto. reflexivity.
Qed.

Lemma mmult_sp_t_dense (L : numlaws N) (s : sparse A) (t : tensor A) ds : wf_sparse s -> wf t -> dims t = scols s :: ds -> 0 < scols s ->
  exists ts p, forall jd junk, full N junk s = Ok ts /\ mmult N jd junk ts t = Ok p /\ mmult_sp_t N jd junk s t = Ok p.
Proof.
  intros W Ht Hd Hc. destruct (full_elts (fun _ => z) s W) as (ts & _ & Ts & Ds & Hs).
  destruct (mmult_sp_t_wf L (fun _ => 0) (fun _ => z) s t ds W Ht Hd) as (p & _ & Tp & Dp & Hp).
  exists ts, p. intros jd junk. split; [apply full_is; auto|].
  assert (Hext : forall q, wf q -> dims q = srows s :: ds -> (forall i v, i < srows s -> valid ds v -> elt q (i :: v) = elt p (i :: v)) -> q = p).
  { intros q Tq Dq Hq. apply tensor_ext; auto. split; [congruence|]. intros ix Ev. rewrite Dq in Ev. inversion Ev; subst. apply Hq; auto. }
  split.
  - destruct (do_fold_ok N false jd junk ts t (-1) 0 [srows s] (scols s) [] [] ds) as (q & Eq & Tq & Dq & Hq); auto; try discriminate.
    + rewrite Ds. split; simpl; [lia|auto].
    + rewrite Hd. split; simpl; [lia|auto].
    + change (mmult N jd junk ts t) with (do_fold N false false false jd junk ts (-1) t 0). rewrite Eq. f_equal. apply Hext; auto.
      intros i v Hi Hv. rewrite Hp by auto. assert (Q := Hq [i] [] [] v ltac:(repeat constructor; auto) ltac:(constructor) ltac:(constructor) Hv).
      simpl app in Q. cbn [scalar_ix] in Q. rewrite Q.
      f_equal. apply sum_ext. intros x Hx. unfold cj, val at 1. simpl app. rewrite Hs by auto. reflexivity.
  - destruct (mmult_sp_t_wf L jd junk s t ds W Ht Hd) as (q & Eq & Tq & Dq & Hq). rewrite Eq. f_equal. apply Hext; auto. intros i v Hi Hv. rewrite Hp, Hq by auto. reflexivity.
Qed.
Lemma mmult_t_sp_dense (L : numlaws N) (s : sparse A) (t : tensor A) ds : wf_sparse s -> wf t -> dims t = ds ++ [srows s] -> 0 < srows s ->
  exists ts p, forall jd junk, full N junk s = Ok ts /\ mmult N jd junk t ts = Ok p /\ mmult_t_sp_from N (Ok (srows s)) jd junk t s = Ok p.
Proof.
  intros W Ht Hd Hc. destruct (full_elts (fun _ => z) s W) as (ts & _ & Ts & Ds & Hs).
  destruct (mmult_t_sp_wf L (fun _ => 0) (fun _ => z) s t ds W Ht Hd) as (p & _ & Tp & Dp & Hp).
  exists ts, p. intros jd junk. split; [apply full_is; auto|].
  assert (Hext : forall q, wf q -> dims q = ds ++ [scols s] -> (forall v j, valid ds v -> j < scols s -> elt q (v ++ [j]) = elt p (v ++ [j])) -> q = p).
  { intros q Tq Dq Hq. apply tensor_ext; auto. split; [congruence|]. intros ix Ev. rewrite Dq in Ev.
    apply valid_app_inv in Ev. destruct Ev as (v & w & -> & Hv & Hw). inversion Hw; subst. inversion H3; subst. apply Hq; auto. }
  split.
  - destruct (do_fold_ok N false jd junk t ts (-1) 0 ds (srows s) [] [] [scols s]) as (q & Eq & Tq & Dq & Hq); auto; try discriminate.
    + rewrite Hd, app_length. split; simpl; lia.
    + rewrite Ds. split; simpl; [lia|auto].
    + change (mmult N jd junk t ts) with (do_fold N false false false jd junk t (-1) ts 0). rewrite Eq. f_equal.
      assert (Hne : forall B (l : list B) x, l ++ [x] <> []) by (intros B [|]; discriminate).
      apply Hext; auto; [rewrite Dq; simpl; destruct ds; reflexivity|].
      intros v j Hv Hj. rewrite Hp by auto. assert (Q := Hq v [] [] [j] Hv ltac:(constructor) ltac:(constructor) ltac:(repeat constructor; auto)). simpl app in Q.
      replace (scalar_ix (v ++ [j])) with (v ++ [j]) in Q by (destruct v; reflexivity). rewrite Q.
      f_equal. apply sum_ext. intros x Hx. unfold cj, val at 2. rewrite Hs by auto. reflexivity.
  - destruct (mmult_t_sp_wf L jd junk s t ds W Ht Hd) as (q & Eq & Tq & Dq & Hq). rewrite Eq. f_equal. apply Hext; auto. intros v j Hv Hj. rewrite Hp, Hq by auto. reflexivity.
Qed.
End Wf.

Lemma smap_wf {A B} (z : A) (z' : B) (f : A -> B) (Hf : f z = z') junk (s : sparse A) : wf_sparse s ->
  exists s', smap junk f s = Ok s' /\ wf_sparse s' /\ srows s' = srows s /\ scols s' = scols s /\
    forall i j, i < srows s -> entry z' s' i j = f (entry z s i j).
Proof.
  intros W. destruct (wf_pack s W) as [E G]. assert (H := smap_ok junk f (scols s) (rows_of s)). rewrite <- E in H.
  eexists; split; [exact H|]. split; [apply pack_wf, good_map; auto|]. split; [unfold pack; simpl; rewrite map_length; apply rows_of_len|]. split; [reflexivity|].
  intros i j Hi. rewrite (entry_pack z' (scols s) _ i j (map_row f (row_entries s i))) by (rewrite nth_error_map, rows_of_nth by auto; reflexivity).
  apply lookup_map; auto.
Qed.

Lemma map_fst_combine {X Y} (l : list X) (m : list Y) : length m = length l -> map fst (combine l m) = l.
Proof. revert m. induction l as [|x l IH]; intros [|y m] H; simpl in *; try discriminate; auto. rewrite IH; auto. Qed.
Lemma in_combine_nth {X Y} (l : list X) (m : list Y) x y : In (x, y) (combine l m) -> exists k, nth_error l k = Some x /\ nth_error m k = Some y.
Proof.
  revert m. induction l as [|a l IH]; intros [|b m]; simpl; try tauto. intros [H|H].
  - inversion H; subst. exists 0. auto.
  - destruct (IH _ H) as (k & H1 & H2). exists (S k). auto.
Qed.
Lemma nth_in_combine {X Y} (l : list X) (m : list Y) k x y : nth_error l k = Some x -> nth_error m k = Some y -> In (x, y) (combine l m).
Proof.
  revert m k. induction l as [|a l IH]; intros [|b m] [|k]; simpl; try discriminate.
  - intros H1 H2. inversion H1; inversion H2; subst. auto.
  - intros H1 H2. right. eauto.
Qed.

Section Wf2.
Context {A : Type} (N : numops A).
Notation z := (nzero N).

Lemma coo_perm (isz : A -> bool) (Hisz : forall x, isz x = true <-> x = z) sorter sorter' jcol jdata jcol' jdata' rows cols (d : list A) rows' cols' (d' : list A) nrows ncols :
  is_std_sort sorter -> is_std_sort sorter' ->
  length cols = length rows -> length d = length rows -> length cols' = length rows' -> length d' = length rows' ->
  NoDup (combine rows cols) -> (forall r, In r rows -> r < nrows) -> (forall c, In c cols -> c < ncols) ->
  Permutation (combine (combine rows cols) d) (combine (combine rows' cols') d') ->
  exists s, of_coo isz sorter jcol jdata rows cols d nrows ncols = Ok s /\ of_coo isz sorter' jcol' jdata' rows' cols' d' nrows ncols = Ok s.
Proof.
  intros Hs Hs' H1 H2 H1' H2' Hnd Hr Hc Hp.
  assert (L1 : length (combine rows cols) = length rows) by (rewrite combine_length; lia).
  assert (L2 : length (combine rows' cols') = length rows') by (rewrite combine_length; lia).
  assert (Hq : Permutation (combine rows cols) (combine rows' cols')).
  { rewrite <- (map_fst_combine (combine rows cols) d), <- (map_fst_combine (combine rows' cols') d') by lia. apply Permutation_map. auto. }
  assert (Qr : Permutation rows rows') by (rewrite <- (map_fst_combine rows cols), <- (map_fst_combine rows' cols') by lia; apply Permutation_map; auto).
  destruct (coo_full N isz Hisz sorter jcol jdata rows cols d nrows ncols) as (s & E & W & R & C & Z & P1 & P2); auto.
  destruct (coo_full N isz Hisz sorter' jcol' jdata' rows' cols' d' nrows ncols) as (s' & E' & W' & R' & C' & Z' & P1' & P2'); auto.
  - eapply Permutation_NoDup; eauto.
  - intros r Hin. apply Hr. eapply Permutation_in; [apply Permutation_sym; eauto|auto].
  - intros c Hin. destruct (In_nth_error _ _ Hin) as [k Hk]. assert (Hlt : k < length rows') by (rewrite <- H1'; apply nth_error_Some; congruence).
    destruct (nth_error_lt rows' k Hlt) as [r Hrk]. assert (Hi := nth_in_combine _ _ _ _ _ Hrk Hk). apply (Permutation_in _ (Permutation_sym Hq)) in Hi.
    apply in_combine_r in Hi. auto.
  - exists s. split; [auto|]. rewrite E'. f_equal. symmetry. apply (sparse_unique z); auto; [congruence|congruence|].
    intros i j Hi Hj. assert (Dec : forall x y : nat * nat, {x = y} + {x <> y}) by (intros; repeat decide equality).
    destruct (in_dec Dec (i, j) (combine rows cols)) as [Hin|Hn].
    + destruct (In_nth_error _ _ Hin) as [k Hk]. assert (Hlt : k < length d) by (rewrite H2, <- L1; apply nth_error_Some; congruence).
      destruct (nth_error_lt d k Hlt) as [x Hx]. assert (Hi3 := nth_in_combine _ _ _ _ _ Hk Hx).
      assert (Hi3' := Permutation_in _ Hp Hi3).
      destruct (in_combine_nth _ _ _ _ Hi3') as (k' & Hk' & Hx').
      assert (X1 : forall (l m : list nat) q a b, nth_error (combine l m) q = Some (a, b) -> nth_error l q = Some a /\ nth_error m q = Some b).
      { clear. induction l as [|u l IH]; intros [|v m] [|q] a b; simpl; try discriminate; [intros H; inversion H; auto|apply IH]. }
      destruct (X1 _ _ _ _ _ Hk) as [K1 K2], (X1 _ _ _ _ _ Hk') as [K1' K2']. rewrite (P1 k i j x), (P1' k' i j x); auto.
    + rewrite R in Hi. rewrite P2, P2'; auto. intros Hin. apply Hn. eapply Permutation_in; [apply Permutation_sym; eauto|auto].
Qed.

Lemma of_dense_of_full (isz : A -> bool) (Hisz : forall x, isz x = true <-> x = z) (s : sparse A) : wf_sparse s -> no_zeros z s ->
  exists t, forall junk jrs jcol jdata, full N junk s = Ok t /\ of_dense isz jrs jcol jdata t = Ok s.
Proof.
  intros W Z. destruct (full_elts N (fun _ => z) s W) as (t & _ & T & D & H). exists t. intros junk jrs jcol jdata. split; [apply full_is; auto|].
  destruct (of_dense_full N isz Hisz jrs jcol jdata t _ _ T D) as (s' & E & W' & Z' & R' & C' & H' & _). rewrite E. f_equal. apply (sparse_unique z); auto.
  rewrite R', C'. intros i j Hi Hj. rewrite H' by auto. unfold val. rewrite H by auto. reflexivity.
Qed.

Lemma get_full (s : sparse A) row col i j : wf_sparse s -> coord (srows s) row i -> coord (scols s) col j ->
  forall junk t, full N junk s = Ok t -> exists x, sget N s row col = Ok x /\ elt t [i; j] = Some x.
Proof.
  intros W Hi Hj junk t Ht. destruct (full_elts N junk s W) as (t' & E & T & D & H). rewrite Ht in E. inversion E; subst t'.
  exists (entry z s i j). split; [apply get_ok; auto|]. apply H; [destruct Hi|destruct Hj]; auto.
Qed.
Lemma get_reject (s : sparse A) row col : (forall i, ~ coord (srows s) row i) \/ (forall j, ~ coord (scols s) col j) -> sget N s row col = Abort.
Proof.
  intros H. unfold sget. destruct (normalize_cases row (srows s)) as [(q & Hq & E)|(_ & E)]; rewrite E; [|reflexivity].
  destruct H as [H|H]; [exfalso; exact (H q Hq)|]. cbn [bind]. rewrite (not_coord_normalize (scols s) col) by auto. reflexivity.
Qed.

Lemma mmult_t_sp_aborts jd junk (t : tensor A) (s : sparse A) : dims t <> [] -> mmult_t_sp N jd junk t s = Abort.
Proof.
  intros Hne. unfold mmult_t_sp, mmult_t_sp_from.
  match goal with |- context [for_ ?m ?b ?s] => destruct (for_inv (fun k (st : list nat * nat) => length (fst st) = length (dims t)) m b s) as ((ds & ln) & E & P1) end.
  - cbn [fst snd]. apply length_alloc.
  - intros k (ds & ln) Hk P1. cbn [fst snd] in *. destruct (nth_error_lt (dims t) k ltac:(lia)) as [d Hdk].
    destruct (nth_error_split _ _ Hdk) as (q1 & q2 & Eq & Hq1). rewrite (dimension_ok t q1 d q2) by (auto; lia).
    cbn [bind]. rewrite wr_ok by lia. cbn [bind]. eexists; split; [reflexivity|]. cbn [fst]. rewrite length_upd. auto.
  - rewrite E. cbn [bind fst] in *. unfold dimension. replace (-1 <? Z.of_nat (length (dims t)))%Z with true by lia. reflexivity.
Qed.
End Wf2.

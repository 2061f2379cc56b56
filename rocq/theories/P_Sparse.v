(* C21 (sparse arguments), C34-C38, C59: sparse matrices.
   isz stands for the comparison with zero, sorter for std::sort. *)
From Verif Require Import Base Spec S_Fold S_Reduce S_Sparse M_Tensor M_Arith M_Fold M_Permute M_Kron M_Sparse
  L_Fold L_Reduce L_Sparse L_Sparse4 L_Sparse6 L_Sparse7.

Local Ltac good_tac :=
  repeat match goal with |- good _ _ => unfold good | |- Forall _ _ => constructor | |- good_row _ _ => split; [cbn; repeat constructor; cbn; lia|intros p Hp; cbn in Hp; intuition (subst; cbn; lia)] end.

(* ---- C34: coordinate lists ---- *)

(* With the sizes given, distinct coordinates in range: the matrix has the listed
   entries and no others, in well-formed compressed storage without zeros. *)
Theorem C34_coordinates_partial : forall A (N : numops A) isz sorter jcol jdata (rows cols : list nat) (d : list A) nrows ncols,
  (forall x, isz x = true <-> x = nzero N) -> is_std_sort sorter ->
  length cols = length rows -> length d = length rows -> NoDup (combine rows cols) ->
  (forall r, In r rows -> r < nrows) -> (forall c, In c cols -> c < ncols) ->
  exists s, of_coo isz sorter jcol jdata rows cols d nrows ncols = Ok s /\
    wf_sparse s /\ srows s = nrows /\ scols s = ncols /\ no_zeros (nzero N) s /\
    (forall k r c x, nth_error rows k = Some r -> nth_error cols k = Some c -> nth_error d k = Some x ->
       entry (nzero N) s r c = x) /\
    (forall i j, i < nrows -> ~ In (i, j) (combine rows cols) -> entry (nzero N) s i j = nzero N).
Proof. intros. apply coo_full; auto. Qed.
Print Assumptions C34_coordinates_partial.

(* listing the same entries in another order gives the same object *)
Theorem C34_any_order : forall A (N : numops A) isz sorter sorter' jcol jdata jcol' jdata'
    rows cols (d : list A) rows' cols' (d' : list A) nrows ncols,
  (forall x, isz x = true <-> x = nzero N) -> is_std_sort sorter -> is_std_sort sorter' ->
  length cols = length rows -> length d = length rows -> length cols' = length rows' -> length d' = length rows' ->
  NoDup (combine rows cols) -> (forall r, In r rows -> r < nrows) -> (forall c, In c cols -> c < ncols) ->
  Permutation (combine (combine rows cols) d) (combine (combine rows' cols') d') ->
  exists s, of_coo isz sorter jcol jdata rows cols d nrows ncols = Ok s /\
            of_coo isz sorter' jcol' jdata' rows' cols' d' nrows ncols = Ok s.
Proof. intros. eapply coo_perm; eauto. Qed.
Print Assumptions C34_any_order.

Theorem C34_lengths_checked : forall A isz sorter jcol (jdata : nat -> A) rows cols d nrows ncols,
  length cols <> length rows \/ length d <> length rows ->
  of_coo isz sorter jcol jdata rows cols d nrows ncols = Abort.
Proof.
  intros A isz sorter jcol jdata rows cols d nrows ncols H. unfold of_coo.
  destruct (Nat.eqb_spec (length cols) (length rows)); [|reflexivity]. destruct H as [H|H]; [contradiction|].
  destruct (Nat.eqb_spec (length d) (length rows)); [contradiction|reflexivity].
Qed.
Print Assumptions C34_lengths_checked.

(* Sparse(rows, cols, nonzero) makes an empty matrix with room for [nonzero]
   elements, for every number that a matrix of those dimensions can hold, and
   refuses numbers from rows * (cols + 1) on. *)
Theorem C34_reserve : forall A (N : numops A) jcol jdata rows cols nonzero, 0 < rows -> 0 < cols ->
  (nonzero <= rows * cols -> exists s, new_sparse jcol jdata rows cols nonzero = Ok s /\ srows s = rows /\ scols s = cols /\
     length (column s) = nonzero /\ length (sdata s) = nonzero /\ length (row_start s) = rows + 1 /\
     forall i j, i < rows -> entry (nzero N) s i j = nzero N) /\
  (rows * (cols + 1) <= nonzero -> new_sparse jcol jdata rows cols nonzero = Abort).
Proof.
  intros A N jcol jdata rows cols nonzero Hr Hc. unfold new_sparse, safe_size.
  destruct (Nat.eqb_spec rows 0); [lia|]. destruct (Nat.eqb_spec cols 0); [lia|]. cbn [orb]. split; intros H.
  - assert (E : nonzero / rows <=? cols = true). { apply Nat.leb_le. apply Nat.div_le_upper_bound; lia. }
    rewrite E. cbn [assert_ bind]. eexists. split; [reflexivity|]. cbn [srows scols column sdata row_start].
    split; [reflexivity|]. split; [reflexivity|]. split; [apply length_alloc|]. split; [apply length_alloc|]. split; [apply repeat_length|].
    intros i j Hi. unfold entry, row_entries. cbn [row_start column sdata]. rewrite !List.nth_repeat. reflexivity.
  - assert (E : nonzero / rows <=? cols = false). { apply Nat.leb_gt. assert (cols + 1 <= nonzero / rows) by (apply Nat.div_le_lower_bound; lia). lia. }
    rewrite E. reflexivity.
Qed.
Print Assumptions C34_reserve.

(* Without sizes, the number of rows is the largest row number, not one more, so
   the last row is lost and, here, a stored column is out of range. *)
Theorem C34_default_sizes_refuted : forall sorter jcol jdata, is_std_sort sorter ->
  exists s, of_coo (Z.eqb 0) sorter jcol jdata [1] [1] [5%Z] 0 0 = Ok s /\
    srows s = 1 /\ scols s = 1 /\ ~ wf_sparse s /\ sget Znum s 1 1 = Abort.
Proof.
  intros sorter jcol jdata Hs.
  assert (E : sorter (@triplet_lt Z) [(1, 1, 5%Z)] = [(1, 1, 5%Z)]).
  { assert (Hw : strict_weak (@triplet_lt Z) [(1, 1, 5%Z)]).
    { assert (Hx : forall x, In x [(1, 1, 5%Z)] -> x = (1, 1, 5%Z)) by (simpl; intuition).
      repeat split; intros; repeat match goal with H : In _ _ |- _ => apply Hx in H; subst end; try discriminate; reflexivity. }
    destruct (Hs _ _ Hw) as [P _]. apply Permutation_length_1_inv in P. exact P. }
  unfold of_coo. cbn -[triplet_lt]. rewrite E. eexists. split; [reflexivity|]. split; [reflexivity|]. split; [reflexivity|]. split.
  - intros W. assert (H := ws_range _ W 0 1 eq_refl). simpl in H. lia.
  - reflexivity.
Qed.
Print Assumptions C34_default_sizes_refuted.

Example C34_nonvacuous :
  is_std_sort (@insertion_sort (nat * nat * Z)) /\ NoDup (combine [2; 0; 0] [0; 3; 1]) /\
  of_coo (Z.eqb 0) insertion_sort (fun _ => 7) (fun _ => 9%Z) [2; 0; 0] [0; 3; 1] [5; 6; 8]%Z 3 4 =
  Ok (mkS 3 4 [0; 2; 2; 3] [1; 3; 0] [8; 6; 5]%Z) /\
  Permutation (combine (combine [2; 0; 0] [0; 3; 1]) [5; 6; 8]%Z) (combine (combine [0; 0; 2] [3; 1; 0]) [6; 8; 5]%Z).
Proof.
  split; [intros lt l Hw; apply insertion_sort_ok; auto|]. split; [repeat constructor; simpl; intuition congruence|]. split; [reflexivity|].
  simpl. apply (Permutation_cons_append [(0, 3, 6%Z); (0, 1, 8%Z)] (2, 0, 5%Z)).
Qed.

(* ---- C35: conversions ---- *)

Theorem C35_dense_sparse_dense : forall A (N : numops A) isz jrs jcol jdata (t : tensor A) R C,
  (forall x, isz x = true <-> x = nzero N) -> wf t -> dims t = [R; C] ->
  exists s, of_dense isz jrs jcol jdata t = Ok s /\ wf_sparse s /\ no_zeros (nzero N) s /\ srows s = R /\ scols s = C /\
    (forall i j, i < R -> j < C -> entry (nzero N) s i j = val N t [i; j]) /\
    forall junk, full N junk s = Ok t.
Proof. intros. apply of_dense_full; auto. Qed.
Print Assumptions C35_dense_sparse_dense.

Theorem C35_sparse_dense_sparse : forall A (N : numops A) isz (s : sparse A),
  (forall x, isz x = true <-> x = nzero N) -> wf_sparse s -> no_zeros (nzero N) s ->
  exists t, forall junk jrs jcol jdata, full N junk s = Ok t /\ of_dense isz jrs jcol jdata t = Ok s.
Proof. intros. apply of_dense_of_full; auto. Qed.
Print Assumptions C35_sparse_dense_sparse.

(* full(s) has the entries of s *)
Theorem C35_full : forall A (N : numops A) junk (s : sparse A), wf_sparse s ->
  exists t, full N junk s = Ok t /\ wf t /\ dims t = [srows s; scols s] /\
    forall i j, i < srows s -> j < scols s -> elt t [i; j] = Some (entry (nzero N) s i j).
Proof. intros. apply full_elts; auto. Qed.
Print Assumptions C35_full.

(* s(row, col), negative indices counted from the end, is the element of full(s) *)
Theorem C35_get : forall A (N : numops A) junk (s : sparse A) (row col : Z) i j t,
  wf_sparse s -> coord (srows s) row i -> coord (scols s) col j -> full N junk s = Ok t ->
  exists x, sget N s row col = Ok x /\ elt t [i; j] = Some x.
Proof. intros. eapply get_full; eauto. Qed.
Print Assumptions C35_get.

Theorem C35_get_checked : forall A (N : numops A) (s : sparse A) (row col : Z),
  (forall i, ~ coord (srows s) row i) \/ (forall j, ~ coord (scols s) col j) -> sget N s row col = Abort.
Proof. intros. apply get_reject; auto. Qed.
Print Assumptions C35_get_checked.

Theorem C35_eye : forall A (N : numops A) jrs jdata R C,
  exists s, seye N jrs jdata R C = Ok s /\ wf_sparse s /\ srows s = R /\ scols s = C /\
    forall i j, i < R -> j < C -> entry (nzero N) s i j = if i =? j then none_ N else nzero N.
Proof. intros. apply eye_wf. Qed.
Print Assumptions C35_eye.

(* 5 0 0 6
   0 0 0 0
   0 7 0 0 *)
Definition ex_s : sparse Z := mkS 3 4 [0; 2; 2; 3] [0; 3; 1] [5; 6; 7]%Z.
(* 1 0 2 -6
   0 3 0 0
   0 0 0 0 *)
Definition ex_u : sparse Z := mkS 3 4 [0; 3; 4; 4] [0; 2; 3; 1] [1; 2; -6; 3]%Z.
Example ex_s_wf : wf_sparse ex_s /\ wf_sparse ex_u /\ no_zeros 0%Z ex_s.
Proof.
  split; [|split].
  - change ex_s with (pack 4 [[(0, 5%Z); (3, 6%Z)]; []; [(1, 7%Z)]]). apply pack_wf.
    good_tac.
  - change ex_u with (pack 4 [[(0, 1%Z); (2, 2%Z); (3, (-6)%Z)]; [(1, 3%Z)]; []]). apply pack_wf.
    good_tac.
  - unfold no_zeros. simpl. lia.
Qed.
Example C35_nonvacuous :
  full Znum (fun _ => 9%Z) ex_s = Ok (mkT [3; 4] [5; 0; 0; 0; 0; 7; 0; 0; 0; 6; 0; 0]%Z) /\
  sget Znum ex_s 0 (-1) = Ok 6%Z /\ sget Znum ex_s 1 2 = Ok 0%Z /\ sget Znum ex_s 3 0 = Abort.
Proof. repeat split. Qed.

(* ---- C36: arithmetic ---- *)

(* +, - and the elementwise product, in terms of entries *)
Theorem C36_elementwise : forall A (N : numops A) isz op jrs jcol jdata (a b : sparse A),
  (forall x, isz x = true <-> x = nzero N) -> op (nzero N) (nzero N) = nzero N ->
  wf_sparse a -> wf_sparse b -> srows a = srows b -> scols a = scols b ->
  exists s F, (forall fuel, F <= fuel -> sparse_binop N isz fuel jrs jcol jdata op a b = Ok s) /\
    wf_sparse s /\ no_zeros (nzero N) s /\ srows s = srows a /\ scols s = scols a /\
    forall i j, i < srows a -> entry (nzero N) s i j = op (entry (nzero N) a i j) (entry (nzero N) b i j).
Proof. intros. apply binop_wf; auto. Qed.
Print Assumptions C36_elementwise.

(* the same with the dense operation: full(a op b) = full(a) op full(b) *)
Theorem C36_agrees_with_dense : forall A (N : numops A) isz op jrs jcol jdata (a b : sparse A),
  (forall x, isz x = true <-> x = nzero N) -> op (nzero N) (nzero N) = nzero N ->
  wf_sparse a -> wf_sparse b -> srows a = srows b -> scols a = scols b ->
  exists s F ta tb t, (forall fuel, F <= fuel -> sparse_binop N isz fuel jrs jcol jdata op a b = Ok s) /\
    forall junk, full N junk a = Ok ta /\ full N junk b = Ok tb /\ t_op_t op junk ta tb = Ok t /\ full N junk s = Ok t.
Proof. intros. apply binop_dense; auto. Qed.
Print Assumptions C36_agrees_with_dense.

Theorem C36_dimensions_checked : forall A (N : numops A) isz fuel op jrs jcol jdata (a b : sparse A),
  srows a <> srows b \/ scols a <> scols b -> sparse_binop N isz fuel jrs jcol jdata op a b = Abort.
Proof. intros. apply binop_reject; auto. Qed.
Print Assumptions C36_dimensions_checked.

(* negation, multiples, quotients by a number, conj, real, imag, to_complex *)
Theorem C36_unary : forall A B (z : A) (z' : B) (f : A -> B) junk (s : sparse A),
  f z = z' -> wf_sparse s ->
  exists s', smap junk f s = Ok s' /\ wf_sparse s' /\ srows s' = srows s /\ scols s' = scols s /\
    forall i j, i < srows s -> entry z' s' i j = f (entry z s i j).
Proof. intros. apply smap_wf; auto. Qed.
Print Assumptions C36_unary.

Example C36_nonvacuous :
  (forall fuel, 20 <= fuel -> sparse_binop Znum (Z.eqb 0) fuel (fun _ => 7) (fun _ => 7) (fun _ => 9%Z) Z.add ex_s ex_u =
    Ok (mkS 3 4 [0; 2; 3; 4] [0; 2; 1; 1] [6; 2; 3; 7]%Z)) /\
  smap (fun _ => 9%Z) (Z.mul 2) ex_s = Ok (mkS 3 4 [0; 2; 2; 3] [0; 3; 1] [10; 12; 14]%Z).
Proof.
  split; [|reflexivity]. intros fuel H. do 20 (destruct fuel as [|fuel]; [lia|]). reflexivity.
Qed.

(* ---- C37: transpose, adjoint, kron ---- *)

Theorem C37_transpose : forall A (N : numops A) isz sorter jrows jcol jdata (s : sparse A),
  (forall x, isz x = true <-> x = nzero N) -> is_std_sort sorter -> wf_sparse s ->
  exists s', stranspose isz sorter jrows jcol jdata s = Ok s' /\ wf_sparse s' /\ no_zeros (nzero N) s' /\
    srows s' = scols s /\ scols s' = srows s /\
    forall i j, i < srows s -> j < scols s -> entry (nzero N) s' j i = entry (nzero N) s i j.
Proof. intros. apply transpose_wf; auto. Qed.
Print Assumptions C37_transpose.

Theorem C37_transpose_agrees_with_dense : forall A (N : numops A) isz sorter jrows jcol jdata (s : sparse A),
  (forall x, isz x = true <-> x = nzero N) -> is_std_sort sorter -> wf_sparse s ->
  exists s' t t', stranspose isz sorter jrows jcol jdata s = Ok s' /\
    forall junk, full N junk s = Ok t /\ transpose junk t = Ok t' /\ full N junk s' = Ok t'.
Proof. intros. apply transpose_dense; auto. Qed.
Print Assumptions C37_transpose_agrees_with_dense.

Theorem C37_adjoint : forall A (N : numops A) isz sorter jrows jcol jdata (s : sparse A),
  (forall x, isz x = true <-> x = nzero N) -> nconj N (nzero N) = nzero N -> is_std_sort sorter -> wf_sparse s ->
  exists s', sadjoint N isz sorter jrows jcol jdata s = Ok s' /\ wf_sparse s' /\ no_zeros (nzero N) s' /\
    srows s' = scols s /\ scols s' = srows s /\
    forall i j, i < srows s -> j < scols s -> entry (nzero N) s' j i = nconj N (entry (nzero N) s i j).
Proof. intros. apply adjoint_wf; auto. Qed.
Print Assumptions C37_adjoint.

Theorem C37_adjoint_agrees_with_dense : forall A (N : numops A) isz sorter jrows jcol jdata (s : sparse A),
  (forall x, isz x = true <-> x = nzero N) -> nconj N (nzero N) = nzero N -> is_std_sort sorter -> wf_sparse s ->
  exists s' t t', sadjoint N isz sorter jrows jcol jdata s = Ok s' /\
    forall junk, full N junk s = Ok t /\ adjoint (nconj N) junk t = Ok t' /\ full N junk s' = Ok t'.
Proof. intros. apply adjoint_dense; auto. Qed.
Print Assumptions C37_adjoint_agrees_with_dense.

Theorem C37_kron : forall A (N : numops A) jrs jcol jdata (a b : sparse A),
  numlaws N -> wf_sparse a -> wf_sparse b ->
  exists s, skron N jrs jcol jdata a b = Ok s /\ wf_sparse s /\
    srows s = srows a * srows b /\ scols s = scols a * scols b /\
    forall i j k l, i < srows a -> j < srows b -> k < scols a -> l < scols b ->
      entry (nzero N) s (i * srows b + j) (k * scols b + l) =
      nmul N (entry (nzero N) a i k) (entry (nzero N) b j l).
Proof. intros. apply kron_wf; auto. Qed.
Print Assumptions C37_kron.

Theorem C37_kron_agrees_with_dense : forall A (N : numops A) jrs jcol jdata (a b : sparse A),
  numlaws N -> wf_sparse a -> wf_sparse b ->
  exists s ta tb t, skron N jrs jcol jdata a b = Ok s /\ skron2 N jrs jcol jdata b a = Ok s /\
    forall junk, full N junk a = Ok ta /\ full N junk b = Ok tb /\ kron N junk ta tb = Ok t /\ full N junk s = Ok t.
Proof.
  intros A N jrs jcol jdata a b L Wa Wb. destruct (kron_dense N L jrs jcol jdata a b Wa Wb) as (s & ta & tb & t & H & H').
  exists s, ta, tb, t. split; [exact H|]. split; [exact H|exact H'].
Qed.
Print Assumptions C37_kron_agrees_with_dense.

Example C37_nonvacuous :
  let c := mkS 2 1 [0; 1; 1] [0] [(2, 3)%Z] in
  stranspose (Z.eqb 0) insertion_sort (fun _ => 8) (fun _ => 7) (fun _ => 9%Z) ex_s =
    Ok (mkS 4 3 [0; 1; 2; 2; 3] [0; 2; 0] [5; 7; 6]%Z) /\
  nconj Gnum (nzero Gnum) = nzero Gnum /\
  sadjoint Gnum (fun x => (fst x =? 0)%Z && (snd x =? 0)%Z) insertion_sort (fun _ => 8) (fun _ => 7) (fun _ => (9, 9)%Z) c =
    Ok (mkS 1 2 [0; 1] [0] [(2, -3)%Z]) /\
  skron Znum (fun _ => 8) (fun _ => 7) (fun _ => 9%Z) (mkS 2 2 [0; 1; 2] [1; 0] [2; 3]%Z) (mkS 1 2 [0; 2] [0; 1] [5; 7]%Z) =
    Ok (mkS 2 4 [0; 2; 4] [2; 3; 0; 1] [10; 14; 15; 21]%Z).
Proof. repeat split. Qed.

(* ---- C38: products with dense tensors ---- *)

(* mmult(S, t) = mmult(full(S), t), when the contracted dimension is not zero *)
Theorem C38_sparse_tensor_partial : forall A (N : numops A) (s : sparse A) (t : tensor A) ds,
  numlaws N -> wf_sparse s -> wf t -> dims t = scols s :: ds -> 0 < scols s ->
  exists ts p, forall jd junk,
    full N junk s = Ok ts /\ mmult N jd junk ts t = Ok p /\ mmult_sp_t N jd junk s t = Ok p.
Proof. intros. eapply mmult_sp_t_dense; eauto. Qed.
Print Assumptions C38_sparse_tensor_partial.

Theorem C38_sparse_tensor_elements : forall A (N : numops A) jd junk (s : sparse A) (t : tensor A) ds,
  numlaws N -> wf_sparse s -> wf t -> dims t = scols s :: ds ->
  exists p, mmult_sp_t N jd junk s t = Ok p /\ wf p /\ dims p = srows s :: ds /\
    forall i v, i < srows s -> valid ds v ->
      elt p (i :: v) = Some (sum_n N (scols s) (fun x => nmul N (entry (nzero N) s i x) (val N t (x :: v)))).
Proof. intros. apply mmult_sp_t_wf; auto. Qed.
Print Assumptions C38_sparse_tensor_elements.

(* the dense product refuses a contraction over an empty index *)
Theorem C38_empty_contraction_refuted :
  let s := mkS 1 0 [0; 0] [] [] in let t := mkT [0; 1] ([] : list Z) in
  wf_sparse s /\ wf t /\
  mmult_sp_t Znum (fun _ => 7) (fun _ => 9%Z) s t = Ok (mkT [1; 1] [0%Z]) /\
  (ts <- full Znum (fun _ => 9%Z) s ;; mmult Znum (fun _ => 7) (fun _ => 9%Z) ts t) = Abort.
Proof.
  simpl. split; [|repeat split]. change (mkS 1 0 [0; 0] [] []) with (pack 0 [[] : list (nat * Z)]). apply pack_wf. good_tac.
Qed.
Print Assumptions C38_empty_contraction_refuted.

Theorem C38_dimensions_checked : forall A (N : numops A) jd junk (s : sparse A) (t : tensor A) l ds,
  dims t = l :: ds -> l <> scols s -> mmult_sp_t N jd junk s t = Abort.
Proof. intros. eapply mmult_sp_t_reject; eauto. Qed.
Print Assumptions C38_dimensions_checked.

(* mmult(t, S) stops at a failed assertion whatever its arguments *)
Theorem C38_tensor_sparse_always_aborts_refuted : forall A (N : numops A) jd junk (t : tensor A) (s : sparse A),
  dims t <> [] -> mmult_t_sp N jd junk t s = Abort.
Proof. intros. apply mmult_t_sp_aborts; auto. Qed.
Print Assumptions C38_tensor_sparse_always_aborts_refuted.

(* what it would compute if dimension(-1) were the last dimension *)
Theorem C38_tensor_sparse_partial : forall A (N : numops A) (s : sparse A) (t : tensor A) ds,
  numlaws N -> wf_sparse s -> wf t -> dims t = ds ++ [srows s] -> 0 < srows s ->
  exists ts p, forall jd junk,
    full N junk s = Ok ts /\ mmult N jd junk t ts = Ok p /\
    mmult_t_sp_from N (Ok (last (dims t) 0)) jd junk t s = Ok p.
Proof. intros A N s t ds L W Ht Hd Hp. rewrite Hd, last_last. eapply mmult_t_sp_dense; eauto. Qed.
Print Assumptions C38_tensor_sparse_partial.

Example C38_nonvacuous :
  let t := mkT [4; 2] [1; 2; 3; 4; 5; 6; 7; 8]%Z in let u := mkT [2; 3] [1; 2; 3; 4; 5; 6]%Z in
  wf t /\ wf u /\
  mmult_sp_t Znum (fun _ => 7) (fun _ => 9%Z) ex_s t = Ok (mkT [3; 2] [29; 0; 14; 73; 0; 42]%Z) /\
  mmult_t_sp_from Znum (Ok 3) (fun _ => 7) (fun _ => 9%Z) u ex_s = Ok (mkT [2; 4] [5; 10; 35; 42; 0; 0; 6; 12]%Z) /\
  mmult_t_sp Znum (fun _ => 7) (fun _ => 9%Z) u ex_s = Abort.
Proof. repeat split. Qed.

(* ---- C21: kron2_sum of sparse matrices ---- *)

(* Right when each matrix has as many stored elements as rows: the identities
   are made as large as the number of stored elements.  The second argument
   varies slowly: it is kron2's ordering. *)
Theorem C21_sparse_partial : forall A (N : numops A) isz jrs jcol jdata (a b : sparse A) n m,
  numlaws N -> (forall x, isz x = true <-> x = nzero N) ->
  wf_sparse a -> wf_sparse b -> srows a = n -> scols a = n -> srows b = m -> scols b = m ->
  length (sdata a) = n -> length (sdata b) = m ->
  exists s F, (forall fuel, F <= fuel -> skron2_sum N isz fuel jrs jcol jdata a b = Ok s) /\
    wf_sparse s /\ srows s = m * n /\ scols s = m * n /\
    forall i j k l, i < m -> j < n -> k < m -> l < n ->
      entry (nzero N) s (i * n + j) (k * n + l) =
      nadd N (if j =? l then entry (nzero N) b i k else nzero N)
             (if i =? k then entry (nzero N) a j l else nzero N).
Proof. intros. apply kron2_sum_wf; auto. Qed.
Print Assumptions C21_sparse_partial.

(* diag(1,0) + diag(1,0) should be 4 x 4 *)
Theorem C21_sparse_size_refuted :
  let a := mkS 2 2 [0; 1; 1] [0] [1%Z] in
  wf_sparse a /\
  forall fuel, 10 <= fuel ->
  exists s, skron2_sum Znum (Z.eqb 0) fuel (fun _ => 7) (fun _ => 7) (fun _ => 9%Z) a a = Ok s /\ srows s = 2 /\ scols s = 2.
Proof.
  cbv zeta. split.
  - change (mkS 2 2 [0; 1; 1] [0] [1%Z]) with (pack 2 [[(0, 1%Z)]; []]). apply pack_wf. good_tac.
  - intros fuel H. do 10 (destruct fuel as [|fuel]; [lia|]).
    exists (mkS 2 2 [0; 1; 1] [0] [2%Z]). split; [vm_compute; reflexivity|split; reflexivity].
Qed.
Print Assumptions C21_sparse_size_refuted.

(* diag(1,2) and diag(3,5): the sparse and the dense function differ in ordering *)
Theorem C21_sparse_ordering_refuted :
  let a := mkS 2 2 [0; 1; 2] [0; 1] [1; 2]%Z in let b := mkS 2 2 [0; 1; 2] [0; 1] [3; 5]%Z in
  let da := mkT [2; 2] [1; 0; 0; 2]%Z in let db := mkT [2; 2] [3; 0; 0; 5]%Z in
  full Znum (fun _ => 9%Z) a = Ok da /\ full Znum (fun _ => 9%Z) b = Ok db /\
  (exists t, kron2_sum Znum (fun _ => 9%Z) da db = Ok t /\ map (fun i => elt t [i; i]) [0; 1; 2; 3] = map Some [4; 6; 5; 7]%Z) /\
  forall fuel, 20 <= fuel ->
  exists s, skron2_sum Znum (Z.eqb 0) fuel (fun _ => 7) (fun _ => 7) (fun _ => 9%Z) a b = Ok s /\
    map (fun i => entry 0%Z s i i) [0; 1; 2; 3] = [4; 5; 6; 7]%Z.
Proof.
  cbv zeta. split; [reflexivity|]. split; [reflexivity|]. split.
  - exists (mkT [4; 4] [4; 0; 0; 0; 0; 6; 0; 0; 0; 0; 5; 0; 0; 0; 0; 7]%Z). split; [vm_compute; reflexivity|reflexivity].
  - intros fuel H. do 20 (destruct fuel as [|fuel]; [lia|]).
    exists (mkS 4 4 [0; 1; 2; 3; 4] [0; 1; 2; 3] [4; 5; 6; 7]%Z). split; [vm_compute; reflexivity|reflexivity].
Qed.
Print Assumptions C21_sparse_ordering_refuted.

(* ---- C59: all_equal ---- *)

(* all_equal(S, T) tells whether S and T are the same matrix, provided neither
   stores a zero *)
Theorem C59_all_equal_partial : forall A (eqb : A -> A -> bool) (zero : A) (s u : sparse A),
  (forall x y, eqb x y = true <-> x = y) ->
  wf_sparse s -> wf_sparse u -> no_zeros zero s -> no_zeros zero u ->
  (sall_equal eqb s u = true <->
   srows s = srows u /\ scols s = scols u /\
   forall i j, i < srows s -> j < scols s -> entry zero s i j = entry zero u i j).
Proof.
  intros A eqb zero s u H Ws Wu Zs Zu. rewrite sall_equal_iff by auto. split; [intros ->; auto|].
  intros (H1 & H2 & H3). apply (sparse_unique zero); auto.
Qed.
Print Assumptions C59_all_equal_partial.

(* S * 0 keeps the stored pattern and so differs from the matrix without entries *)
Theorem C59_explicit_zeros_refuted :
  exists z, smap (fun _ => 9%Z) (Z.mul 0) ex_s = Ok z /\
  exists e, new_sparse (fun _ => 7) (fun _ => 9%Z) 3 4 0 = Ok e /\
  full Znum (fun _ => 9%Z) z = full Znum (fun _ => 9%Z) e /\ sall_equal Z.eqb z e = false.
Proof. eexists. split; [reflexivity|]. eexists. repeat split. Qed.
Print Assumptions C59_explicit_zeros_refuted.

Example C59_nonvacuous : sall_equal Z.eqb ex_s ex_s = true /\ sall_equal Z.eqb ex_s ex_u = false /\ no_zeros 0%Z ex_s /\ no_zeros 0%Z ex_u.
Proof. split; [reflexivity|]. split; [reflexivity|]. unfold no_zeros. simpl. lia. Qed.

(* Dense and sparse conversions, element access, identity. *)
From Verif Require Import Base Spec S_Fold S_Reduce S_Sparse M_Tensor M_Arith M_Fold M_Sparse
  L_Lin L_Tensor L_Arith L_Fold L_Kron L_Scale L_Trace L_Reduce L_Sparse.
From Coq Require Import Sorted.

(* an output buffer of n elements, the first of which are L *)
Definition buf {B} (n : nat) (out L : list B) : Prop := length out = n /\ firstn (length L) out = L.
Lemma buf_nil {B} n (out : list B) : length out = n -> buf n out [].
Proof. intros H. split; auto. Qed.
Lemma buf_push {B} n (out L : list B) x : buf n out L -> length L < n ->
  wr out (length L) x = Ok (upd out (length L) x) /\ buf n (upd out (length L) x) (L ++ [x]).
Proof.
  intros [H1 H2] H. split; [apply wr_ok; lia|]. split; [rewrite length_upd; auto|].
  rewrite app_length. simpl. rewrite Nat.add_1_r, firstn_upd, H2 by lia. reflexivity.
Qed.
Lemma buf_full {B} n (out L : list B) : buf n out L -> length L = n -> out = L.
Proof. intros [H1 H2] H. rewrite <- H2. symmetry. apply firstn_all2. lia. Qed.
Lemma buf_eq {B} n (out L L' : list B) : buf n out L -> L = L' -> buf n out L'.
Proof. intros H ->. exact H. Qed.

Definition natnum : numops nat := mkNum 0 1 Nat.add Nat.mul (fun x => x).
Lemma natnum_laws : numlaws natnum.
Proof. constructor; intros; cbv beta iota delta [natnum nadd nmul nconj nzero none_]; lia. Qed.
Lemma sum_add n (f g : nat -> nat) : sum_n natnum n (fun i => f i + g i) = sum_n natnum n f + sum_n natnum n g.
Proof. induction n as [|n IH]; [reflexivity|]. cbn [sum_n]. rewrite IH. cbv beta iota delta [natnum nadd]. lia. Qed.
Lemma sum_zero n : sum_n natnum n (fun _ => 0) = 0.
Proof. induction n as [|n IH]; [reflexivity|]. cbn [sum_n]. rewrite IH. reflexivity. Qed.
Lemma sum_swap n m (f : nat -> nat -> nat) :
  sum_n natnum n (fun i => sum_n natnum m (fun j => f i j)) = sum_n natnum m (fun j => sum_n natnum n (fun i => f i j)).
Proof.
  induction n as [|n IH]; [simpl; symmetry; apply sum_zero|]. cbn [sum_n]. rewrite IH.
  change (nadd natnum) with Nat.add. rewrite <- sum_add. reflexivity.
Qed.

Lemma firstn_map_seq {B} (f : nat -> B) n k : k <= n -> firstn k (map f (seq 0 n)) = map f (seq 0 k).
Proof.
  intros H. rewrite firstn_map. f_equal. replace n with (k + (n - k)) by lia. rewrite seq_app, firstn_app, seq_length, Nat.sub_diag.
  rewrite (@firstn_all2 _ k (seq 0 k)) by (rewrite seq_length; lia). simpl. apply app_nil_r.
Qed.

Section Sp.
Context {A : Type} (N : numops A).
Notation z := (nzero N).
Notation dat := (L_Fold.dat N).

Lemma lookup_snoc c (r : list (nat * A)) t j j' x : good_row c r -> nth_error r t = Some (j', x) ->
  lookup z j (firstn (S t) r) = if j' =? j then x else lookup z j (firstn t r).
Proof.
  revert t. induction r as [|p r IH]; intros t Hg Ht; [destruct t; discriminate|].
  destruct (sorted_in _ _ _ Hg) as (Hr & Hb & Hlt). destruct t as [|t].
  - simpl in Ht. inversion Ht; subst. simpl. rewrite lookup_cons. reflexivity.
  - simpl in Ht. rewrite !firstn_cons, !lookup_cons. rewrite (IH t Hr Ht).
    apply nth_error_In in Ht. apply Hlt in Ht. simpl in Ht.
    destruct (Nat.eqb_spec (fst p) j), (Nat.eqb_spec j' j); auto. lia.
Qed.

Lemma full_ok junk c (rws : list (list (nat * A))) : good c rws ->
  exists t, full N junk (pack c rws) = Ok t /\ wf t /\ dims t = [length rws; c] /\
    forall i j r, nth_error rws i = Some r -> j < c -> elt t [i; j] = Some (lookup z j r).
Proof.
  intros Hg. unfold full. replace (srows (pack c rws)) with (length rws) by reflexivity.
  replace (scols (pack c rws)) with c by reflexivity. set (R := length rws).
  destruct ((R =? 0) || (c =? 0)) eqn:E0.
  { eexists; split; [reflexivity|]. split; [apply new_tensor_wf|]. split; [reflexivity|].
    intros i j r Hi Hj. apply nth_error_lt_inv in Hi. fold R in Hi. lia. }
  rewrite fill_ok. cbn [bind]. rewrite new_tensor_len. cbn [new_tensor dims].
  assert (En : nelem [R; c] = R * c) by (unfold nelem; rewrite !prod_cons; replace (prod []) with 1 by reflexivity; lia).
  rewrite En.
  match goal with |- context [for_ R ?b ?s] => destruct (for_inv (fun i (st : tensor A * nat) =>
     dims (fst st) = [R; c] /\ length (data (fst st)) = R * c /\ snd st = offs rws i /\
     forall i' j r, nth_error rws i' = Some r -> j < c ->
       dat (data (fst st)) (j * R + i') = if i' <? i then lookup z j r else z) R b s) as ((t & p) & E & P1 & P2 & P3 & P4) end.
  { cbn [fst snd dims data]. rewrite repeat_length. repeat split; auto. intros i' j r Hi Hj. apply repeat_dat. reflexivity. }
  { intros i (t & p) Hi (P1 & P2 & P3 & P4). cbn [fst snd] in *. subst p.
    destruct (nth_error_lt rws i Hi) as [r Hr]. rewrite (span_pack c rws i r Hr). cbn [bind].
    assert (Hgr : good_row c r) by (unfold good in Hg; rewrite Forall_forall in Hg; apply Hg; eapply nth_error_In; eauto).
    match goal with |- exists s'', for_ ?n ?b ?s = _ /\ _ => destruct (for_inv (fun k (st : tensor A * nat) =>
       dims (fst st) = [R; c] /\ length (data (fst st)) = R * c /\ snd st = offs rws i + k /\
       forall i' j r', nth_error rws i' = Some r' -> j < c ->
         dat (data (fst st)) (j * R + i') = if i' <? i then lookup z j r' else if i' =? i then lookup z j (firstn k r) else z) n b s)
       as ((t1 & p1) & E1 & Q1 & Q2 & Q3 & Q4) end.
    - cbn [fst snd]. repeat split; auto. intros i' j r' Hi' Hj. rewrite (P4 i' j r') by auto. destruct (i' <? i); auto. destruct (i' =? i); auto.
    - intros k (t1 & p1) Hk (Q1 & Q2 & Q3 & Q4). cbn [fst snd] in *. subst p1.
      destruct (nth_error_lt r k Hk) as [[j0 x0] Hx].
      assert (Hcc : nth_error (concat rws) (offs rws i + k) = Some (j0, x0)) by (rewrite (nth_concat _ _ _ _ Hr) by auto; auto).
      rewrite (rd_col c rws _ _ _ Hcc), (rd_dt c rws _ _ _ Hcc). cbn [bind].
      assert (Hj0 : j0 < c) by (apply (proj2 Hgr (j0, x0)); eapply nth_error_In; eauto).
      unfold set2, get_dimensions2. rewrite Q1. cbn [bind]. rewrite !normalize_nonneg by lia. cbn [bind].
      unfold set_at. assert (Hpos : j0 * R + i < length (data t1)) by (rewrite Q2; nia).
      rewrite wr_ok by auto. cbn [bind]. eexists; split; [reflexivity|]. cbn [fst snd dims data].
      rewrite length_upd. split; [auto|]. split; [auto|]. split; [lia|].
      intros i' j r' Hi' Hj. rewrite (dat_upd N) by auto.
      assert (Hi'R : i' < R) by (apply nth_error_lt_inv in Hi'; auto).
      rewrite (lookup_snoc c r k j j0 x0) by auto.
      destruct (Nat.eq_dec i' i) as [->|Hne].
      + replace (i <? i) with false by lia. rewrite Nat.eqb_refl.
        destruct (Nat.eqb_spec j0 j) as [->|Hnj]; [replace (j * R + i =? j * R + i) with true by lia; auto|].
        replace (j * R + i =? j0 * R + i) with false by (symmetry; apply Nat.eqb_neq; nia).
        rewrite (Q4 i j r') by auto. replace (i <? i) with false by lia. rewrite Nat.eqb_refl. reflexivity.
      + replace (j * R + i' =? j0 * R + i) with false.
        2: { symmetry. apply Nat.eqb_neq. intros Hq. apply Hne.
             destruct (Nat.lt_trichotomy j j0) as [H|[->|H]]; [|lia|]; exfalso; nia. }
        rewrite (Q4 i' j r') by auto. replace (i' =? i) with false by lia. reflexivity.
    - rewrite E1. eexists; split; [reflexivity|]. cbn [fst snd] in *. split; [auto|]. split; [auto|].
      split; [rewrite (offs_S _ _ _ Hr); auto|]. intros i' j r' Hi' Hj. rewrite (Q4 i' j r') by auto. rewrite firstn_all.
      destruct (Nat.ltb_spec i' i), (Nat.ltb_spec i' (S i)), (Nat.eqb_spec i' i); auto; try lia. subst i'. congruence. }
  rewrite E. cbn [bind]. cbn [fst snd] in *. exists t. split; [reflexivity|]. split; [unfold wf; rewrite P1; lia|]. split; [auto|].
  intros i j r Hi Hj. assert (HiR : i < R) by (apply nth_error_lt_inv in Hi; auto).
  assert (Hv : valid (dims t) [i; j]) by (rewrite P1; repeat constructor; auto).
  rewrite elt_valid by auto. rewrite P1. simpl lin. rewrite (nth_dat N) by (rewrite P2; nia).
  replace (i + R * (j + c * 0)) with (j * R + i) by nia. rewrite (P4 i j r) by auto. replace (i <? R) with true by lia. reflexivity.
Qed.

(* operator() *)
Lemma sget_loop_ok c (rws : list (list (nat * A))) i r j : nth_error rws i = Some r -> good_row c r ->
  forall n k, n + k = length r -> sget_loop N (pack c rws) j (offs rws i + k) n = Ok (lookup z j (skipn k r)).
Proof.
  intros Hr Hg. induction n as [|n IH]; intros k Hk.
  - simpl. rewrite (@skipn_all2 _ k r) by lia. reflexivity.
  - cbn [sget_loop]. destruct (nth_error_lt r k ltac:(lia)) as [[j0 x0] Hx].
    assert (Hcc : nth_error (concat rws) (offs rws i + k) = Some (j0, x0)) by (rewrite (nth_concat _ _ _ _ Hr) by lia; auto).
    rewrite (rd_col c rws _ _ _ Hcc). cbn [bind].
    destruct (nth_error_split _ _ Hx) as (l1 & l2 & El & Hl1). subst r k.
    rewrite skipn_app, skipn_all, Nat.sub_diag. simpl skipn. simpl app. rewrite lookup_cons. cbn [fst snd].
    destruct (Nat.eqb_spec j0 j) as [->|Hne].
    + rewrite (rd_dt c rws _ _ _ Hcc). reflexivity.
    + assert (Hg2 : good_row c ((j0, x0) :: l2)).
      { destruct Hg as [Hs Hb]. split; [|intros p Hp; apply Hb; apply in_or_app; auto].
        rewrite map_app in Hs. clear - Hs. induction l1 as [|a l1 IH]; simpl in *; auto. apply IH. inversion Hs; auto. }
      destruct (sorted_in _ _ _ Hg2) as (_ & _ & Hlt). destruct (Nat.ltb_spec j j0).
      * rewrite lookup_out; auto. intros p Hp. apply Hlt in Hp. simpl in Hp. lia.
      * replace (S (offs rws i + length l1)) with (offs rws i + S (length l1)) by lia.
        rewrite app_length in Hk. simpl in Hk. rewrite IH by (rewrite app_length; simpl; lia).
        rewrite skipn_app, (@skipn_all2 _ (S (length l1)) l1) by lia. replace (S (length l1) - length l1) with 1 by lia. reflexivity.
Qed.

Lemma sget_ok c (rws : list (list (nat * A))) row col i j r : good c rws -> nth_error rws i = Some r ->
  coord (length rws) row i -> coord c col j -> sget N (pack c rws) row col = Ok (lookup z j r).
Proof.
  intros Hg Hr Hi Hj. assert (Hlt := nth_error_lt_inv _ _ _ Hr). unfold sget. rewrite (normalize_ok _ _ _ Hi : normalize_index row (srows (pack c rws)) = Ok i).
  rewrite (normalize_ok _ _ _ Hj : normalize_index col (scols (pack c rws)) = Ok j). cbn [bind].
  rewrite !rd_rs by lia. cbn [bind]. rewrite (offs_S _ _ _ Hr). replace (offs rws i + length r - offs rws i) with (length r) by lia.
  replace (offs rws i) with (offs rws i + 0) by lia.
  rewrite (sget_loop_ok c rws i r j Hr); [reflexivity| |lia]. unfold good in Hg. rewrite Forall_forall in Hg. apply Hg. eapply nth_error_In; eauto.
Qed.

Lemma sget_reject (s : sparse A) row col : (forall i, ~ coord (srows s) row i) \/ (forall j, ~ coord (scols s) col j) ->
  sget N s row col = Abort.
Proof.
  intros H. unfold sget. destruct (normalize_cases row (srows s)) as [(i & Hi & E)|[Hi E]]; rewrite E; cbn [bind]; [|reflexivity].
  destruct H as [H|H]; [exfalso; eapply H; eauto|]. rewrite (not_coord_normalize _ _ H). reflexivity.
Qed.

(* from dense *)
Context (isz : A -> bool) (Hisz : forall x, isz x = true <-> x = z).

Definition dense_row (g : nat -> A) (c : nat) : list (nat * A) :=
  filter (fun p => negb (isz (snd p))) (map (fun j => (j, g j)) (seq 0 c)).

Lemma dense_row_S g c : dense_row g (S c) = dense_row g c ++ (if isz (g c) then [] else [(c, g c)]).
Proof. unfold dense_row. rewrite seq_S, map_app, filter_app. simpl. destruct (isz (g c)); reflexivity. Qed.

Lemma good_row_snoc c c' (r : list (nat * A)) x : good_row c r -> c <= c' -> good_row (S c') (r ++ [(c', x)]).
Proof.
  intros [Hs Hb] Hc. split.
  - rewrite map_app. simpl. clear - Hs Hb Hc. induction r as [|p r IH]; simpl in *; [constructor; constructor|].
    inversion Hs; subst. constructor; [apply IH; auto|]. apply Forall_app. split; auto. constructor; [|constructor]. specialize (Hb p (or_introl eq_refl)). lia.
  - intros p Hp. apply in_app_or in Hp. destruct Hp as [Hp|[<-|[]]]; [specialize (Hb p Hp); lia|simpl; lia].
Qed.
Lemma good_row_mono c c' (r : list (nat * A)) : good_row c r -> c <= c' -> good_row c' r.
Proof. intros [Hs Hb] H. split; auto. intros p Hp. specialize (Hb p Hp). lia. Qed.

Lemma dense_row_ok g c : good_row c (dense_row g c) /\ (forall j, j < c -> lookup z j (dense_row g c) = g j) /\
  forall p, In p (dense_row g c) -> snd p <> z.
Proof.
  induction c as [|c (Hg & Hl & Hz)].
  - split; [apply good_row_nil|]. split; [intros; lia|]. intros p [].
  - rewrite dense_row_S. destruct (isz (g c)) eqn:E.
    + rewrite app_nil_r. split; [eapply good_row_mono; eauto|]. split; auto. intros j Hj.
      destruct (Nat.eq_dec j c) as [->|]; [|apply Hl; lia]. apply Hisz in E. rewrite E. apply lookup_out.
      intros p Hp. apply (proj2 Hg) in Hp. lia.
    + split; [eapply good_row_snoc; eauto|]. split.
      * intros j Hj. assert (Hng : good_row (S c) (dense_row g c ++ [(c, g c)])) by (eapply good_row_snoc; eauto).
        pose proof (lookup_snoc (S c) (dense_row g c ++ [(c, g c)]) (length (dense_row g c)) j c (g c) Hng) as H.
        rewrite (@firstn_all2 _ (S (length (dense_row g c)))) in H by (rewrite app_length; simpl; lia).
        rewrite H by (rewrite nth_error_app2, Nat.sub_diag by lia; reflexivity).
        rewrite firstn_app, firstn_all, Nat.sub_diag. simpl. rewrite app_nil_r.
        destruct (Nat.eqb_spec c j) as [->|]; auto. apply Hl. lia.
      * intros p Hp. apply in_app_or in Hp. destruct Hp as [Hp|[<-|[]]]; [auto|]. simpl. intros Ez. apply Hisz in Ez. congruence.
Qed.

Definition b01 (x : A) : nat := if isz x then 0 else 1.
Lemma nnz_sum (d : list A) : number_of_nonzero isz d = sum_n natnum (length d) (fun q => b01 (dat d q)).
Proof.
  unfold number_of_nonzero.
  assert (H : forall d k, fold_left (fun counter x => if negb (isz x) then S counter else counter) d k = k + length (filter (fun x => negb (isz x)) d)).
  { clear. induction d as [|x d IH]; intros k; simpl; [lia|]. rewrite IH. destruct (isz x); simpl; lia. }
  rewrite H. simpl. clear H. induction d as [|x d IH] using rev_ind; [reflexivity|].
  rewrite filter_app, !app_length, IH. simpl length at 3. rewrite Nat.add_1_r. cbn [sum_n].
  change (nadd natnum) with Nat.add. f_equal.
  - apply sum_ext. intros q Hq. f_equal. unfold L_Fold.dat. rewrite nth_error_app1 by auto. reflexivity.
  - unfold L_Fold.dat. rewrite nth_error_app2, Nat.sub_diag by lia. simpl. unfold b01. destruct (isz x); reflexivity.
Qed.

Lemma dense_row_len g c : length (dense_row g c) = sum_n natnum c (fun j => b01 (g j)).
Proof.
  induction c as [|c IH]; [reflexivity|]. rewrite dense_row_S, app_length, IH. cbn [sum_n]. change (nadd natnum) with Nat.add. f_equal.
  unfold b01. destruct (isz (g c)); reflexivity.
Qed.

Definition dense_rows (t : tensor A) (R C : nat) : list (list (nat * A)) :=
  map (fun i => dense_row (fun j => val N t [i; j]) C) (seq 0 R).

Lemma dense_rows_len t C n : length (concat (map (fun i => dense_row (fun j => val N t [i; j]) C) (seq 0 n))) =
  sum_n natnum n (fun i => sum_n natnum C (fun j => b01 (val N t [i; j]))).
Proof.
  induction n as [|n IH]; [reflexivity|]. rewrite seq_S, map_app, concat_app, app_length, IH. simpl. rewrite app_nil_r, dense_row_len. reflexivity.
Qed.

Lemma nnz_dense (t : tensor A) R C : wf t -> dims t = [R; C] -> number_of_nonzero isz (data t) = length (concat (dense_rows t R C)).
Proof.
  intros Hw E. unfold dense_rows. rewrite (dense_rows_len t C R), nnz_sum, (wf_mat t R C Hw E), Nat.mul_comm.
  rewrite (sum_prod natnum natnum_laws C R). rewrite sum_swap. apply sum_ext. intros i Hi. apply sum_ext. intros j Hj.
  rewrite (val_mat N t R C) by auto. do 2 f_equal. lia.
Qed.

Lemma of_dense_ok jrs jcol jdata (t : tensor A) R C : wf t -> dims t = [R; C] ->
  of_dense isz jrs jcol jdata t = Ok (pack C (dense_rows t R C)).
Proof.
  intros Hw E. unfold of_dense.
  rewrite (dimension_ok t [] R [C] 0 E eq_refl : dimension t 0 = Ok R).
  rewrite (dimension_ok t [R] C [] 1 E eq_refl : dimension t 1 = Ok C). cbn [bind]. cbv zeta.
  rewrite (nnz_dense t R C Hw E). set (rws := dense_rows t R C). set (n := length (concat rws)).
  assert (Hlr : length rws = R) by (unfold rws, dense_rows; rewrite map_length, seq_length; reflexivity).
  assert (Hrow : forall i, i < R -> nth_error rws i = Some (dense_row (fun j => val N t [i; j]) C)) by (intros i Hi; unfold rws, dense_rows; rewrite nth_error_map_seq by auto; reflexivity).
  rewrite wr_ok by (rewrite length_alloc; lia). cbn [bind].
  match goal with |- context [for_ R ?b ?s] => destruct (for_inv (fun i (st : list nat * list nat * list A * nat) =>
     let '(rs, col, dt, k) := st in
     buf (R + 1) rs (map (offs rws) (seq 0 (S i))) /\ k = offs rws i /\
     buf n col (map fst (concat (firstn i rws))) /\ buf n dt (map snd (concat (firstn i rws)))) R b s) as ((((rs & col) & dt) & k) & E1 & P1 & P2 & P3 & P4) end.
  { split; [|split; [reflexivity|split; apply buf_nil; apply length_alloc]].
    split; [rewrite length_upd; apply length_alloc|]. replace (R + 1) with (S R) by lia. reflexivity. }
  { intros i (((rs & col) & dt) & k) Hi (P1 & P2 & P3 & P4). subst k.
    set (g := fun j => val N t [i; j]).
    match goal with |- context [for_ C ?b ?s] => destruct (for_inv (fun j (st : list nat * list A * nat) =>
       let '(col, dt, k) := st in k = offs rws i + length (dense_row g j) /\
       buf n col (map fst (concat (firstn i rws) ++ dense_row g j)) /\ buf n dt (map snd (concat (firstn i rws) ++ dense_row g j))) C b s)
       as (((col1 & dt1) & k1) & E1 & Q1 & Q2 & Q3) end.
    - simpl. rewrite app_nil_r. repeat split; auto; try apply P3; try apply P4.
    - intros j ((col1 & dt1) & k1) Hj (Q1 & Q2 & Q3). subst k1.
      assert (Hget : get2 t (Z.of_nat i) (Z.of_nat j) = Ok (g j)).
      { unfold get2, get_dimensions2. rewrite E. cbn [bind]. rewrite !normalize_nonneg by lia. cbn [bind].
        rewrite (rd_dat N) by (rewrite (wf_mat t R C Hw E); nia). unfold g. rewrite (val_mat N t R C) by auto. do 2 f_equal. lia. }
      rewrite Hget. cbn [bind]. rewrite dense_row_S. destruct (isz (g j)) eqn:Ez; simpl negb; cbv iota.
      + eexists; split; [reflexivity|]. rewrite app_nil_r. auto.
      + assert (Hlen : offs rws i + length (dense_row g j) < n).
        { pose proof (offs_le rws i _ (Hrow i Hi)) as Hb. fold n g in Hb.
          assert (Hm : S (length (dense_row g j)) <= length (dense_row g C)).
          { rewrite !dense_row_len. replace C with (S j + (C - S j)) by lia. rewrite (sum_app natnum natnum_laws). change (nadd natnum) with Nat.add. cbn [sum_n].
            change (nadd natnum) with Nat.add. unfold b01 at 3. rewrite Ez. lia. }
          lia. }
        assert (Hl1 : length (map fst (concat (firstn i rws) ++ dense_row g j)) = offs rws i + length (dense_row g j)) by (rewrite map_length, app_length; reflexivity).
        assert (Hl2 : length (map snd (concat (firstn i rws) ++ dense_row g j)) = offs rws i + length (dense_row g j)) by (rewrite map_length, app_length; reflexivity).
        destruct (buf_push n dt1 _ (g j) Q3 ltac:(lia)) as [Ed Bd]. destruct (buf_push n col1 _ j Q2 ltac:(lia)) as [Ec Bc].
        rewrite Hl2 in Ed. rewrite Hl1 in Ec. rewrite Ed. cbn [bind]. rewrite Ec. cbn [bind].
        eexists; split; [reflexivity|]. split; [rewrite app_length; simpl; lia|]. rewrite Hl1 in Bc. rewrite Hl2 in Bd.
        rewrite app_assoc, !map_app in *. split; [eapply buf_eq; [exact Bc|]|eapply buf_eq; [exact Bd|]]; rewrite ?map_app; reflexivity.
    - rewrite E1. cbn [bind].
      assert (Hoff : k1 = offs rws (S i)) by (rewrite Q1; symmetry; apply offs_S; apply Hrow; auto).
      destruct (buf_push (R + 1) rs _ k1 P1) as [Er Br]; [rewrite map_length, seq_length; lia|].
      rewrite map_length, seq_length in Er. rewrite Er. cbn [bind]. eexists; split; [reflexivity|]. split; [|split; [auto|]].
      + rewrite map_length, seq_length in Br. eapply buf_eq; [exact Br|]. rewrite (seq_S (S i)), map_app, Hoff. reflexivity.
      + rewrite (firstn_S_snoc _ _ _ (Hrow i Hi)), concat_app. simpl. rewrite app_nil_r. auto. }
  rewrite E1. cbn [bind]. f_equal. unfold pack. rewrite Hlr.
  rewrite <- Hlr in P3, P4. rewrite firstn_all in P3, P4.
  apply buf_full in P1; [|rewrite map_length, seq_length; lia]. apply buf_full in P3; [|apply map_length]. apply buf_full in P4; [|apply map_length].
  rewrite P1, P3, P4. reflexivity.
Qed.

Lemma dense_rows_good t R C : good C (dense_rows t R C).
Proof.
  unfold good, dense_rows. rewrite Forall_forall. intros r Hr. apply in_map_iff in Hr. destruct Hr as (i & <- & _). apply dense_row_ok.
Qed.

(* eye *)
Lemma seye_ok jrs jdata R C : seye N jrs jdata R C =
  Ok (pack C (map (fun i => if i <? C then [(i, none_ N)] else []) (seq 0 R))).
Proof.
  clear isz Hisz.
  unfold seye. rewrite fill_ok. cbn [bind data]. rewrite new_tensor_len.
  set (rws := map (fun i => if i <? C then [(i, none_ N)] else []) (seq 0 R)).
  set (nel := Nat.min R C).
  assert (Hc : forall k, k <= R -> concat (firstn k rws) = map (fun i => (i, none_ N)) (seq 0 (Nat.min k C))).
  { intros k Hk. unfold rws. rewrite firstn_map_seq by auto. clear Hk. induction k as [|k IH]; [reflexivity|].
    rewrite seq_S, map_app, concat_app, IH. cbn [map concat Nat.add]. rewrite app_nil_r. destruct (Nat.ltb_spec k C).
    - replace (Nat.min (S k) C) with (S k) by lia. replace (Nat.min k C) with k by lia. rewrite seq_S, map_app. reflexivity.
    - replace (Nat.min (S k) C) with (Nat.min k C) by lia. apply app_nil_r. }
  assert (Hlr : length rws = R) by (unfold rws; rewrite map_length, seq_length; reflexivity).
  assert (Ho : forall k, k <= R -> offs rws k = Nat.min k nel).
  { intros k Hk. unfold offs. rewrite Hc by auto. rewrite map_length, seq_length. unfold nel. lia. }
  match goal with |- context [for_ (R + 1) ?b ?s] => destruct (for_inv (fun i rs => buf (R + 1) rs (map (offs rws) (seq 0 i))) (R + 1) b s) as (rs & Er & Br) end.
  { apply buf_nil, length_alloc. }
  { intros i rs Hi B. rewrite <- Ho by lia. destruct (buf_push _ _ _ (offs rws i) B) as [Ew Bw]; [rewrite map_length, seq_length; lia|].
    rewrite map_length, seq_length in *. eexists; split; [exact Ew|]. rewrite seq_S, map_app. exact Bw. }
  rewrite Er. cbn [bind]. apply buf_full in Br; [|rewrite map_length, seq_length; lia]. unfold from_parts. rewrite Br at 1. rewrite map_length, seq_length, Nat.eqb_refl.
  cbn [assert_ bind]. f_equal. unfold pack. rewrite Hlr. replace (R + 1) with (S R) in Br by lia. rewrite <- Br.
  assert (Hcc : concat rws = map (fun i => (i, none_ N)) (seq 0 nel)) by (rewrite <- (firstn_all rws), Hlr, Hc by lia; reflexivity).
  rewrite Hcc, !map_map. cbn [fst snd].
  replace (nelem [nel]) with nel by (unfold nelem; rewrite prod_cons; replace (prod []) with 1 by reflexivity; lia).
  rewrite map_id. f_equal. clear. generalize nel 0. intros m. induction m as [|m IH]; intros b; simpl; [reflexivity|]. f_equal. apply IH.
Qed.

Lemma seye_rows R C : let rws := map (fun i => if i <? C then [(i, none_ N)] else []) (seq 0 R) in
  good C rws /\ length rws = R /\ forall i, i < R -> exists r, nth_error rws i = Some r /\ forall j, j < C -> lookup z j r = if i =? j then none_ N else z.
Proof.
  intros rws. split; [|split].
  - unfold good, rws. rewrite Forall_forall. intros r Hr. apply in_map_iff in Hr. destruct Hr as (i & <- & _).
    destruct (Nat.ltb_spec i C); [|apply good_row_nil]. split; [constructor; constructor|]. intros p [<-|[]]. auto.
  - unfold rws. rewrite map_length, seq_length. reflexivity.
  - intros i Hi. eexists; split; [unfold rws; rewrite nth_error_map_seq by auto; reflexivity|]. intros j Hj. destruct (Nat.ltb_spec i C).
    + rewrite lookup_cons. reflexivity.
    + replace (i =? j) with false by lia. reflexivity.
Qed.
End Sp.

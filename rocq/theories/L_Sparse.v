(* Sparse matrices as lists of rows; every function is shown to compute on them. *)
From Verif Require Import Base Spec S_Fold S_Reduce S_Sparse M_Tensor M_Arith M_Fold M_Sparse
  L_Lin L_Tensor L_Arith L_Fold L_Kron L_Scale L_Trace L_Reduce.
From Coq Require Import Sorted.

Section Pack.
Context {A : Type}.
Implicit Types rws : list (list (nat * A)).

(* position where row k starts *)
Definition offs rws (k : nat) : nat := length (concat (firstn k rws)).

Definition pack (c : nat) rws : sparse A :=
  mkS (length rws) c (map (offs rws) (seq 0 (S (length rws)))) (map fst (concat rws)) (map snd (concat rws)).

Definition good_row (c : nat) (r : list (nat * A)) : Prop :=
  StronglySorted lt (map fst r) /\ forall p, In p r -> fst p < c.
Definition good c rws : Prop := Forall (good_row c) rws.

Lemma offs_0 rws : offs rws 0 = 0.
Proof. reflexivity. Qed.
Lemma offs_S rws k r : nth_error rws k = Some r -> offs rws (S k) = offs rws k + length r.
Proof.
  intros H. unfold offs. rewrite (firstn_S_snoc _ _ _ H), concat_app, app_length. simpl. rewrite app_nil_r. reflexivity.
Qed.
Lemma offs_all rws : offs rws (length rws) = length (concat rws).
Proof. unfold offs. rewrite firstn_all. reflexivity. Qed.
Lemma offs_app l1 l2 : offs (l1 ++ l2) (length l1) = length (concat l1).
Proof. unfold offs. rewrite firstn_app, firstn_all, Nat.sub_diag. simpl. rewrite app_nil_r. reflexivity. Qed.

Lemma concat_split rws k r : nth_error rws k = Some r ->
  concat rws = concat (firstn k rws) ++ r ++ concat (skipn (S k) rws).
Proof.
  intros H. destruct (nth_error_split _ _ H) as (l1 & l2 & -> & <-).
  rewrite firstn_app, firstn_all, Nat.sub_diag. simpl firstn. rewrite app_nil_r.
  rewrite skipn_app, (@skipn_all2 _ (S (length l1)) l1) by lia. replace (S (length l1) - length l1) with 1 by lia.
  rewrite concat_app. reflexivity.
Qed.

Lemma nth_concat rws k r t : nth_error rws k = Some r -> t < length r ->
  nth_error (concat rws) (offs rws k + t) = nth_error r t.
Proof.
  intros H Ht. rewrite (concat_split rws k r H). unfold offs.
  rewrite nth_error_app2 by lia. rewrite nth_error_app1 by lia. f_equal. lia.
Qed.

Lemma offs_le rws k r : nth_error rws k = Some r -> offs rws k + length r <= length (concat rws).
Proof. intros H. rewrite (concat_split rws k r H), !app_length. unfold offs. lia. Qed.

Lemma rs_pack c rws k : k <= length rws -> nth_error (row_start (pack c rws)) k = Some (offs rws k).
Proof. intros H. unfold pack. cbn [row_start]. apply nth_error_map_seq. lia. Qed.

Lemma pack_nnz c rws : length (column (pack c rws)) = length (concat rws) /\ length (sdata (pack c rws)) = length (concat rws).
Proof. unfold pack. cbn [column sdata]. rewrite !map_length. auto. Qed.

Lemma rd_rs c rws k : k <= length rws -> rd (row_start (pack c rws)) k = Ok (offs rws k).
Proof. intros H. apply rd_ok, rs_pack; auto. Qed.

Lemma span_pack c rws k r : nth_error rws k = Some r -> span (row_start (pack c rws)) k = Ok (length r).
Proof.
  intros H. assert (Hk := nth_error_lt_inv _ _ _ H). unfold span. rewrite !rd_rs by lia. cbn [bind].
  rewrite (offs_S _ _ _ H). replace (offs rws k + length r <? offs rws k) with false by lia. f_equal. lia.
Qed.

Lemma rd_col c rws q j x : nth_error (concat rws) q = Some (j, x) -> rd (column (pack c rws)) q = Ok j.
Proof. intros H. apply rd_ok. unfold pack. cbn [column]. rewrite nth_error_map, H. reflexivity. Qed.
Lemma rd_dt c rws q j x : nth_error (concat rws) q = Some (j, x) -> rd (sdata (pack c rws)) q = Ok x.
Proof. intros H. apply rd_ok. unfold pack. cbn [sdata]. rewrite nth_error_map, H. reflexivity. Qed.

Lemma combine_fst_snd (l : list (nat * A)) : combine (map fst l) (map snd l) = l.
Proof. induction l as [|[x y] l IH]; simpl; congruence. Qed.

Lemma row_entries_pack c rws i r : nth_error rws i = Some r -> row_entries (pack c rws) i = r.
Proof.
  intros H. assert (Hi := nth_error_lt_inv _ _ _ H). unfold row_entries.
  rewrite (nth_error_nth _ _ 0 (rs_pack c rws i ltac:(lia))), (nth_error_nth _ _ 0 (rs_pack c rws (S i) ltac:(lia))).
  rewrite (offs_S _ _ _ H). replace (offs rws i + length r - offs rws i) with (length r) by lia.
  unfold pack. cbn [column sdata]. rewrite combine_fst_snd, (concat_split rws i r H). unfold offs.
  rewrite skipn_app, skipn_all, Nat.sub_diag. simpl skipn. rewrite app_nil_l, firstn_app, firstn_all, Nat.sub_diag. simpl. apply app_nil_r.
Qed.

Lemma entry_pack z c rws i j r : nth_error rws i = Some r -> entry z (pack c rws) i j = lookup z j r.
Proof. intros H. unfold entry. rewrite (row_entries_pack _ _ _ _ H). reflexivity. Qed.

Lemma sorted_nth (l : list nat) : StronglySorted lt l <-> (forall k x y, nth_error l k = Some x -> nth_error l (S k) = Some y -> x < y).
Proof.
  split.
  - intros H. induction H as [|a l H IH Ha]; intros k x y Hx Hy; [destruct k; discriminate|].
    destruct k as [|k].
    + simpl in *. inversion Hx; subst. rewrite Forall_forall in Ha. apply Ha. apply nth_error_In with 0; exact Hy.
    + simpl in *. eapply IH; eauto.
  - induction l as [|a l IH]; intros H; [constructor|].
    assert (Hl : StronglySorted lt l) by (apply IH; intros k x y Hx Hy; apply (H (S k)); auto).
    constructor; auto. destruct l as [|b l]; [constructor|].
    assert (a < b) by (apply (H 0); auto). inversion Hl; subst. constructor; auto.
    eapply Forall_impl; [|eauto]. simpl. lia.
Qed.

Lemma pack_wf c rws : good c rws -> wf_sparse (pack c rws).
Proof.
  intros Hg. constructor.
  - unfold pack. cbn [row_start srows]. rewrite map_length, seq_length. reflexivity.
  - apply rs_pack. lia.
  - replace (srows (pack c rws)) with (length rws) by reflexivity. rewrite rs_pack, offs_all by lia.
    unfold pack. cbn [column]. rewrite map_length. reflexivity.
  - unfold pack. cbn [column sdata]. rewrite !map_length. reflexivity.
  - intros i a b Ha Hb. assert (Hi := nth_error_lt_inv _ _ _ Hb). unfold pack in Hi. cbn [row_start] in Hi. rewrite map_length, seq_length in Hi.
    destruct (nth_error_lt rws i ltac:(lia)) as [r Hr].
    rewrite rs_pack in Ha, Hb by lia. rewrite (offs_S _ _ _ Hr) in Hb. inversion Ha; inversion Hb. lia.
  - intros k j Hk. unfold pack in *. cbn [column scols] in *. rewrite nth_error_map in Hk.
    destruct (nth_error (concat rws) k) as [p|] eqn:E; [|discriminate]. simpl in Hk. inversion Hk; subst.
    apply nth_error_In, in_concat in E. destruct E as (r & Hr & Hp). unfold good in Hg. rewrite Forall_forall in Hg. apply (Hg r Hr). auto.
  - intros i a b k j j' Ha Hb H1 H2 Hj Hj'. assert (Hi := nth_error_lt_inv _ _ _ Hb). unfold pack in Hi. cbn [row_start] in Hi. rewrite map_length, seq_length in Hi.
    destruct (nth_error_lt rws i ltac:(lia)) as [r Hr].
    rewrite rs_pack in Ha, Hb by lia. rewrite (offs_S _ _ _ Hr) in Hb. inversion Ha; inversion Hb; subst.
    unfold pack in Hj, Hj'. cbn [column] in *. rewrite nth_error_map in Hj, Hj'.
    replace k with (offs rws i + (k - offs rws i)) in Hj by lia.
    replace (S k) with (offs rws i + S (k - offs rws i)) in Hj' by lia.
    rewrite (nth_concat _ _ _ _ Hr) in Hj by lia. rewrite (nth_concat _ _ _ _ Hr) in Hj' by lia. rewrite <- nth_error_map in Hj, Hj'.
    unfold good in Hg. rewrite Forall_forall in Hg. destruct (Hg r (nth_error_In _ _ Hr)) as [Hs _].
    rewrite sorted_nth in Hs. eapply Hs; eauto.
Qed.

Definition rows_of (s : sparse A) : list (list (nat * A)) := map (row_entries s) (seq 0 (srows s)).

Lemma rows_concat (l : list (nat * A)) (f : nat -> nat) n : f 0 = 0 -> (forall i, i < n -> f i <= f (S i)) -> f n = length l ->
  forall k, k <= n -> concat (map (fun i => firstn (f (S i) - f i) (skipn (f i) l)) (seq 0 k)) = firstn (f k) l.
Proof.
  intros H0 Hm Hn. induction k as [|k IH]; intros Hk.
  - simpl. rewrite H0. reflexivity.
  - rewrite seq_S, map_app, concat_app, IH by lia. simpl. rewrite app_nil_r.
    assert (Hmk := Hm k ltac:(lia)). replace (f (S k)) with (f k + (f (S k) - f k)) at 2 by lia.
    rewrite <- (firstn_skipn (f k) l) at 3.
    assert (Hb : f (S k) <= length l).
    { rewrite <- Hn. clear - Hm Hk. revert Hk. generalize (S k). intros m Hmn. replace n with (m + (n - m)) in * by lia.
      generalize dependent (n - m). intros d. induction d as [|d IHd]; intros; [rewrite Nat.add_0_r; auto|].
      eapply Nat.le_trans; [apply IHd; [intros; apply Hm; lia|lia]|]. replace (m + S d) with (S (m + d)) by lia. apply Hm. lia. }
    assert (El : length (firstn (f k) l) = f k) by (rewrite firstn_length; lia).
    rewrite firstn_app, El. rewrite (@firstn_all2 _ (f k + (f (S k) - f k)) (firstn (f k) l)) by lia. do 2 f_equal. lia.
Qed.

Lemma wf_pack (s : sparse A) : wf_sparse s -> s = pack (scols s) (rows_of s) /\ good (scols s) (rows_of s).
Proof.
  intros [W1 W2 W3 W4 W5 W6 W7].
  set (f := fun i => nth i (row_start s) 0).
  assert (Hf : forall i, i <= srows s -> nth_error (row_start s) i = Some (f i)) by (intros i Hi; apply nth_error_nth'; lia).
  set (l := combine (column s) (sdata s)).
  assert (Hll : length l = length (column s)) by (unfold l; rewrite combine_length; lia).
  assert (Hm : forall i, i < srows s -> f i <= f (S i)) by (intros i Hi; apply (W5 i); apply Hf; lia).
  assert (Hn : f (srows s) = length l) by (rewrite Hf in W3 by lia; congruence).
  assert (H0 : f 0 = 0) by (rewrite Hf in W2 by lia; congruence).
  assert (Hc : forall k, k <= srows s -> concat (firstn k (rows_of s)) = firstn (f k) l).
  { intros k Hk. unfold rows_of. rewrite firstn_map. replace (firstn k (seq 0 (srows s))) with (seq 0 k).
    - exact (rows_concat l f (srows s) H0 Hm Hn k Hk).
    - replace (srows s) with (k + (srows s - k)) by lia. rewrite seq_app, firstn_app, seq_length, Nat.sub_diag.
      rewrite (@firstn_all2 _ k (seq 0 k)) by (rewrite seq_length; lia). simpl. rewrite app_nil_r. reflexivity. }
  assert (Hlr : length (rows_of s) = srows s) by (unfold rows_of; rewrite map_length, seq_length; reflexivity).
  assert (Hoff : forall k, k <= srows s -> offs (rows_of s) k = f k).
  { intros k Hk. unfold offs. rewrite Hc by auto. rewrite firstn_length.
    enough (f k <= length l) by lia. rewrite <- Hn. clear - Hm Hk.
    revert Hm. replace (srows s) with (k + (srows s - k)) by lia. generalize (srows s - k). intros d. induction d as [|d IHd]; intros Hm; [rewrite Nat.add_0_r; auto|].
    eapply Nat.le_trans; [apply IHd; intros; apply Hm; lia|]. replace (k + S d) with (S (k + d)) by lia. apply Hm. lia. }
  assert (Hall : concat (rows_of s) = l).
  { rewrite <- (firstn_all (rows_of s)), Hlr, Hc by lia. rewrite Hn. apply firstn_all. }
  split.
  - unfold pack. rewrite Hlr, Hall.
    assert (Ers : row_start s = map (offs (rows_of s)) (seq 0 (S (srows s)))).
    { apply list_eq_nth_len; [rewrite map_length, seq_length; lia|]. intros i Hi. rewrite Hf by lia. rewrite nth_error_map_seq by lia. rewrite Hoff by lia. reflexivity. }
    assert (E1 : map fst l = column s /\ map snd l = sdata s).
    { unfold l. generalize (column s) (sdata s) W4. induction l0 as [|x l0 IH]; intros [|y l1] He; simpl in *; try discriminate; auto.
      destruct (IH l1 ltac:(lia)) as [-> ->]. auto. }
    destruct E1 as [-> ->]. rewrite <- Ers. destruct s; reflexivity.
  - unfold good. rewrite Forall_forall. intros r Hr. apply In_nth_error in Hr. destruct Hr as [i Hr].
    assert (Hi := nth_error_lt_inv _ _ _ Hr). rewrite Hlr in Hi.
    assert (Hnth : forall t, t < length r -> nth_error r t = nth_error l (f i + t)).
    { intros t Ht. rewrite <- Hall, <- Hoff by lia. symmetry. apply nth_concat; auto. }
    assert (Hlen : f (S i) = f i + length r) by (rewrite <- !Hoff by lia; apply offs_S; auto).
    assert (Hcol : forall t c, nth_error (map fst r) t = Some c -> t < length r /\ nth_error (column s) (f i + t) = Some c).
    { intros t c Ht. assert (Hlt := nth_error_lt_inv _ _ _ Ht). rewrite map_length in Hlt. split; auto.
      rewrite nth_error_map, Hnth in Ht by auto. destruct (nth_error l (f i + t)) as [[c' x]|] eqn:E; [|discriminate].
      simpl in Ht. inversion Ht; subst c'. unfold l in E.
      clear - E. revert E. generalize (f i + t) (sdata s). intros q l'. revert q l'. induction (column s) as [|a cl IH]; intros [|q] [|b l'] E; simpl in *; try discriminate; [congruence|eauto]. }
    split.
    + apply sorted_nth. intros k x y Hx Hy. apply Hcol in Hx, Hy. destruct Hx as [Hx1 Hx], Hy as [Hy1 Hy].
      apply (W7 i (f i) (f (S i)) (f i + k)); auto; try (apply Hf; lia); try lia.
      rewrite <- Hy. f_equal. lia.
    + intros p Hp. apply In_nth_error in Hp. destruct Hp as [t Ht]. apply (W6 (f i + t)).
      apply Hcol. rewrite nth_error_map, Ht. reflexivity.
Qed.

Lemma rows_of_pack c rws : rows_of (pack c rws) = rws.
Proof.
  unfold rows_of. replace (srows (pack c rws)) with (length rws) by reflexivity.
  apply list_eq_nth_len; [rewrite map_length, seq_length; reflexivity|]. rewrite map_length, seq_length. intros i Hi.
  rewrite nth_error_map_seq by auto. destruct (nth_error_lt rws i Hi) as [r Hr]. rewrite (row_entries_pack c rws i r Hr). auto.
Qed.

(* lookup *)
Lemma lookup_out z j (r : list (nat * A)) : (forall p, In p r -> fst p <> j) -> lookup z j r = z.
Proof.
  intros H. unfold lookup. destruct (find (fun p => fst p =? j) r) as [p|] eqn:E; auto.
  apply find_some in E. destruct E as [Hp E]. apply Nat.eqb_eq in E. exfalso. eapply H; eauto.
Qed.
Lemma lookup_cons z j p (r : list (nat * A)) : lookup z j (p :: r) = if fst p =? j then snd p else lookup z j r.
Proof. unfold lookup. simpl. destruct (fst p =? j); reflexivity. Qed.
Lemma lookup_app z j (r1 r2 : list (nat * A)) : lookup z j (r1 ++ r2) =
  if existsb (fun p => fst p =? j) r1 then lookup z j r1 else lookup z j r2.
Proof.
  induction r1 as [|p r1 IH]; [reflexivity|]. simpl app. rewrite !lookup_cons. simpl. destruct (fst p =? j); auto.
Qed.
Lemma sorted_in c (r : list (nat * A)) p : good_row c (p :: r) -> good_row c r /\ fst p < c /\ forall q, In q r -> fst p < fst q.
Proof.
  intros [Hs Hb]. simpl in Hs. inversion Hs; subst. split; [split; auto; intros q Hq; apply Hb; simpl; auto|].
  split; [apply Hb; simpl; auto|]. intros q Hq. rewrite Forall_forall in H2. apply H2. apply in_map; auto.
Qed.
Lemma good_row_nil c : good_row c [].
Proof. split; [constructor|]. intros p []. Qed.
Lemma lookup_in c z (r : list (nat * A)) j x : good_row c r -> In (j, x) r -> lookup z j r = x.
Proof.
  induction r as [|p r IH]; intros Hg Hin; [destruct Hin|]. destruct (sorted_in _ _ _ Hg) as (Hr & _ & Hlt).
  rewrite lookup_cons. destruct Hin as [->|Hin].
  - simpl. rewrite Nat.eqb_refl. reflexivity.
  - specialize (Hlt _ Hin). simpl in Hlt. replace (fst p =? j) with false by lia. auto.
Qed.
End Pack.

From Verif Require Import Base Spec S_Compare M_Tensor L_Lin L_Tensor M_Arith L_Arith M_Compare.

Section C.
Context {A : Type}.
Lemma cmp_vv_ok (f : A -> A -> bool) junk (a b : list A) : length a = length b ->
  exists c, cmp_vv f junk a b = Ok c /\ length c = length a /\
    forall i x y, nth_error a i = Some x -> nth_error b i = Some y -> nth_error c i = Some (f x y).
Proof.
  intros H. unfold cmp_vv. rewrite H, Nat.eqb_refl. cbn [assert_ bind]. rewrite <- H.
  destruct (zip_loop f junk a b (alloc junk (length a))) as (d & E & Hl & Hd); [apply length_alloc|lia|].
  rewrite E. cbn [bind]. exists d. split; [reflexivity|]. split; [auto|]. intros i x y Hx Hy.
  rewrite Hd by (apply nth_error_Some; congruence). rewrite Hx, Hy. reflexivity.
Qed.
Lemma cmp_vv_reject (f : A -> A -> bool) junk (a b : list A) : length a <> length b -> cmp_vv f junk a b = Abort.
Proof. intros H. unfold cmp_vv. replace (length a =? length b) with false by lia. reflexivity. Qed.
Lemma cmp_vn_ok (f : A -> A -> bool) junk (a : list A) b : cmp_vn f junk a b = Ok (map (fun x => f x b) a).
Proof. unfold cmp_vn. rewrite (seq_write_opt_map (fun x => f x b)) by apply length_alloc. reflexivity. Qed.
End C.

Lemma Zapply_holds op x y : apply_op Zcmps op x y = true <-> holds op x y.
Proof. destruct op; simpl; try lia; rewrite ?Z.gtb_gt, ?Z.geb_le; lia. Qed.

Lemma std_equalb_spec (a b : list Z) : length a = length b -> exists r, std_equalb Zcmps a b = Ok r /\ (r = true <-> a = b).
Proof.
  revert b; induction a as [|x a IH]; intros [|y b] H; simpl in *; try discriminate.
  - exists true. tauto.
  - destruct (Z.eqb_spec x y) as [->|Hne].
    + destruct (IH b ltac:(lia)) as (r & E & Hr). exists r. split; auto. rewrite Hr. split; congruence.
    + exists false. split; auto. split; [discriminate|congruence].
Qed.

Lemma all_equal_n_spec (a : list Z) b : all_equal_n Zcmps a b = true <-> forall x, In x a -> x = b.
Proof.
  induction a as [|x a IH]; simpl; [split; [intros _ x []|auto]|].
  destruct (Z.eqb_spec x b) as [->|Hne]; simpl.
  - rewrite IH. split; intros H; [intros y [<-|Hy]; auto|intros y Hy; auto].
  - split; [discriminate|]. intros H. exfalso. apply Hne. apply H. auto.
Qed.

Lemma b_not_ok junk b : b_not junk b = Ok (map negb b).
Proof. unfold b_not. rewrite seq_write_opt_map by apply length_alloc. reflexivity. Qed.

Lemma std_count_le b : std_count b <= length b.
Proof. induction b as [|[] b IH]; simpl; lia. Qed.
Lemma all_of_spec b : all_of b = true <-> forall i, i < length b -> nth_error b i = Some true.
Proof.
  unfold all_of. induction b as [|x b IH]; simpl; [split; [intros; lia|auto]|].
  pose proof (std_count_le b). destruct x; simpl.
  - rewrite IH. split; intros Hx; [intros [|i] Hi; simpl; auto; apply Hx; lia|intros i Hi; apply (Hx (S i)); lia].
  - split; [lia|]. intros Hx. specialize (Hx 0 ltac:(lia)). discriminate.
Qed.
Lemma any_of_spec b : any_of b = true <-> exists i, nth_error b i = Some true.
Proof.
  unfold any_of. induction b as [|x b IH]; simpl.
  - split; [discriminate|]. intros [[|i] H]; discriminate.
  - destruct x; simpl.
    + split; auto. intros _. exists 0. reflexivity.
    + rewrite IH. split; intros [i Hi]; [exists (S i); auto|]. destruct i; [discriminate|]. exists i; auto.
Qed.

(* which *)
Fixpoint trues (b : list bool) (i : nat) : list nat :=
  match b with [] => [] | x :: b' => (if x then [i] else []) ++ trues b' (S i) end.
Lemma trues_length b i : length (trues b i) = std_count b.
Proof. revert i; induction b as [|[] b IH]; intros i; simpl; auto. Qed.
Lemma trues_In b : forall i p, In p (trues b i) <-> (i <= p /\ nth_error b (p - i) = Some true).
Proof.
  induction b as [|x b IH]; intros i p; simpl.
  - split; [tauto|]. intros [_ H]. destruct (p - i); discriminate.
  - rewrite in_app_iff, IH. split.
    + intros [H|[H1 H2]].
      * destruct x; simpl in H; [|tauto]. destruct H as [<-|[]]. rewrite Nat.sub_diag. auto.
      * split; [lia|]. replace (p - i) with (S (p - S i)) by lia. auto.
    + intros [H1 H2]. destruct (Nat.eq_dec p i) as [->|Hne].
      * left. rewrite Nat.sub_diag in H2. simpl in H2. inversion H2. left; auto.
      * right. split; [lia|]. replace (p - i) with (S (p - S i)) in H2 by lia. auto.
Qed.
Lemma increasing_cons x l : (forall y, In y l -> x < y) -> increasing l -> increasing (x :: l).
Proof. intros H1 H2. destruct l; simpl; auto. split; auto. apply H1. left; auto. Qed.
Lemma trues_increasing b : forall i, increasing (trues b i).
Proof.
  induction b as [|x b IH]; intros i; simpl; auto. destruct x; simpl; auto.
  apply increasing_cons; auto. intros y Hy. apply trues_In in Hy. lia.
Qed.

Lemma trues_app b1 b2 i : trues (b1 ++ b2) i = trues b1 i ++ trues b2 (i + length b1).
Proof.
  revert i; induction b1 as [|x b1 IH]; intros i; simpl; [rewrite Nat.add_0_r; auto|].
  rewrite IH, <- app_assoc. do 3 f_equal. lia.
Qed.
Lemma std_count_app b1 b2 : std_count (b1 ++ b2) = std_count b1 + std_count b2.
Proof. induction b1 as [|[] b1 IH]; simpl; auto. Qed.

Lemma which_ok junk b : which junk b = Ok (trues b 0).
Proof.
  unfold which.
  destruct (for_inv (fun m (st : list nat * nat) =>
     snd st = std_count (firstn m b) /\ length (fst st) = std_count b /\ firstn (snd st) (fst st) = trues (firstn m b) 0)
     (length b) (fun i st => x <- rd b i ;; if x then put i st else Ok st) (alloc junk (std_count b), 0))
    as ((o & p) & E & H1 & H2 & H3).
  - simpl. rewrite length_alloc. auto.
  - intros i (o & p) Hi (H1 & H2 & H3). cbn [fst snd] in *. destruct (nth_ex b i Hi) as (x & Hx & Ex). rewrite Ex. cbn [bind].
    assert (Ef : firstn (S i) b = firstn i b ++ [x]).
    { clear - Hx. revert i Hx; induction b as [|y b IH]; intros [|i] Hx; simpl in *; try discriminate.
      - inversion Hx; auto.
      - f_equal. apply IH; auto. }
    rewrite Ef, std_count_app, trues_app, firstn_length_le by lia. cbn [trues std_count plus].
    assert (Hc : std_count b = std_count (firstn (S i) b) + std_count (skipn (S i) b))
      by (rewrite <- std_count_app, firstn_skipn; auto).
    rewrite Ef, std_count_app in Hc. simpl in Hc.
    destruct x; simpl in Hc |- *.
    + rewrite wr_ok by lia. cbn [bind]. eexists; split; [reflexivity|]. simpl. split; [lia|]. rewrite length_upd. split; [auto|].
      rewrite <- H3. clear - Hc H1 H2. assert (p < length o) by lia. clear - H. revert p H; induction o as [|y o IH]; intros p H; simpl in *; [lia|].
      destruct p; simpl; auto. f_equal. apply IH. lia.
    + eexists; split; [reflexivity|]. simpl. rewrite app_nil_r. repeat split; auto; lia.
  - rewrite E. cbn [bind]. simpl in *. rewrite firstn_all in H1, H3. rewrite <- H3, H1, <- H2, firstn_all. reflexivity.
Qed.

(* index vectors *)
Lemma concat_ok junk a b : concat_ix junk a b = Ok (a ++ b).
Proof.
  unfold concat_ix.
  set (out := alloc junk (length a + length b)). assert (Ho : length out = length a + length b) by apply length_alloc.
  set (f := fun (l : list Z) q => nth q l 0%Z).
  assert (Hb : forall (l : list Z) q st, q < length l -> (x <- rd l q ;; put x st) = put (f l q) st).
  { intros l q st Hq. rewrite (rd_ok l q (f l q)) by (apply nth_error_nth'; auto). reflexivity. }
  rewrite (seq_write (f a) (length a) out 0) by (lia || auto). cbn [bind].
  assert (Hf : forall l : list Z, map (f l) (seq 0 (length l)) = l).
  { intros l. apply list_eq_nth_len; rewrite map_length, seq_length; auto. intros i Hi. rewrite nth_error_map_seq by auto.
    symmetry. apply nth_error_nth'. auto. }
  rewrite Hf. cbn [firstn app plus].
  rewrite (seq_write (f b) (length b)); [|rewrite app_length, skipn_length; lia|auto].
  cbn [bind]. rewrite Hf. rewrite (@skipn_all2 Z (length a + length b)) by (rewrite app_length, skipn_length; lia).
  rewrite firstn_app, firstn_all, Nat.sub_diag. simpl. rewrite !app_nil_r. reflexivity.
Qed.

Lemma iota_ok junk a b s : (0 < s)%Z ->
  exists l, iota junk a b s = Ok l /\
   (if (b <? a)%Z then l = [] else exists n, 0 < n /\ l = progression a s n /\
      (a + s * Z.of_nat (n - 1) <= b < a + s * Z.of_nat n)%Z).
Proof.
  intros Hs. unfold iota. destruct (Z.ltb_spec b a); [exists []; auto|].
  replace (s =? 0)%Z with false by lia.
  assert (Eq : Z.quot (b - a) s = ((b - a) / s)%Z) by (apply Z.quot_div_nonneg; lia).
  rewrite Eq. assert (H0 : (0 <= (b - a) / s)%Z) by (apply Z.div_pos; lia).
  replace ((b - a) / s + 1 <? 0)%Z with false by lia.
  set (n := Z.to_nat ((b - a) / s + 1)).
  destruct (for_inv (fun m (st : (list Z * nat) * Z) => snd st = (a + s * Z.of_nat m)%Z /\ snd (fst st) = m /\
     length (fst (fst st)) = n /\ forall q, q < m -> nth_error (fst (fst st)) q = Some (a + s * Z.of_nat q)%Z)
     n (fun _ '(st, m) => st <- put m st ;; Ok (st, (m + s)%Z)) ((alloc junk n, 0), a)) as (((o & p) & m) & E & H1 & H2 & H3 & H4).
  - simpl. rewrite length_alloc. repeat split; lia.
  - intros i ((o & p) & m) Hi (H1 & H2 & H3 & H4). simpl in *. subst p m.
    rewrite wr_ok by lia. cbn [bind]. eexists; split; [reflexivity|]. simpl. rewrite length_upd.
    split; [lia|]. split; [lia|]. split; [auto|]. intros q Hq. destruct (Nat.eq_dec q i) as [->|Hne].
    + apply nth_error_upd_eq. lia.
    + rewrite nth_error_upd_ne by auto. apply H4. lia.
  - rewrite E. cbn [bind fst]. exists o. split; [reflexivity|]. exists n. split; [unfold n; lia|]. split.
    + apply list_eq_nth_len; unfold progression; rewrite ?map_length, ?seq_length; auto.
      simpl in *. intros i Hi. rewrite nth_error_map_seq by lia. apply H4. lia.
    + unfold n. pose proof (Z.div_mod (b - a) s ltac:(lia)). pose proof (Z.mod_pos_bound (b - a) s Hs). nia.
Qed.

Lemma sv_size_fold {A} (l : list A) : forall v, sv_size (fold_left SVS l v) = sv_size v + length l.
Proof. induction l as [|x l IH]; intros v; simpl; [lia|]. rewrite IH. simpl. lia. Qed.

Fixpoint sv_list {A} (v : static_vector A) : list A :=
  match v with SV1 x => [x] | SVS i x => sv_list i ++ [x] end.
Lemma sv_list_length {A} (v : static_vector A) : length (sv_list v) = sv_size v.
Proof. induction v; simpl; auto. rewrite app_length, IHv. simpl. lia. Qed.
Lemma sv_list_fold {A} (l : list A) : forall v, sv_list (fold_left SVS l v) = sv_list v ++ l.
Proof. induction l as [|x l IH]; intros v; simpl; [rewrite app_nil_r; auto|]. rewrite IH. simpl. rewrite <- app_assoc. reflexivity. Qed.
Lemma sv_push_ok {A} (v : static_vector A) : forall out, sv_size v <= length out ->
  sv_push v out = Ok (sv_list v ++ skipn (sv_size v) out).
Proof.
  induction v as [x|v IH x]; intros out H; cbn [sv_size] in H.
  - simpl. destruct out; simpl in *; [lia|]. reflexivity.
  - cbn [sv_push]. rewrite IH by lia. cbn [bind sv_size]. replace (S (sv_size v) - 1) with (sv_size v) by lia.
    destruct (skipn (sv_size v) out) as [|y rest] eqn:E.
    + apply (f_equal (@length A)) in E. rewrite skipn_length in E. simpl in E. lia.
    + rewrite wr_ok by (rewrite app_length, sv_list_length; simpl; lia).
      rewrite <- sv_list_length at 1. rewrite upd_app_mid. cbn [sv_list]. rewrite <- app_assoc. simpl.
      apply skipn_S_eq in E. simpl in E. rewrite E. reflexivity.
Qed.
Lemma gen_ok {A} junk (x : A) rest : sv_vector junk (gen_list x rest) = Ok (x :: rest).
Proof.
  unfold sv_vector, gen_list. rewrite sv_push_ok by (rewrite length_alloc; auto).
  rewrite sv_list_fold. rewrite skipn_all2 by (rewrite length_alloc; auto). rewrite app_nil_r. reflexivity.
Qed.

(* Sparse matrices from coordinates, transposition. *)
From Verif Require Import Base Spec S_Fold S_Reduce S_Sparse M_Tensor M_Arith M_Fold M_Sparse
  L_Lin L_Tensor L_Arith L_Fold L_Kron L_Scale L_Trace L_Reduce L_Sparse L_Sparse2 L_Sparse3.
From Coq Require Import Sorted.

Section Coo.
Context {A : Type}.
Notation trip := (nat * nat * A)%type.
Definition trow (t : trip) := fst (fst t).
Definition tcol (t : trip) := snd (fst t).
Definition tdrop (t : trip) : nat * A := (tcol t, snd t).
Definition tlt (s t : trip) : Prop := trow s < trow t \/ (trow s = trow t /\ tcol s < tcol t).
Definition cnt (T : list trip) (k : nat) : nat := length (filter (fun t => trow t <? k) T).
Definition trows (T : list trip) (n : nat) : list (list (nat * A)) :=
  map (fun i => map tdrop (filter (fun t => trow t =? i) T)) (seq 0 n).

Lemma triplet_lt_spec (s t : trip) : triplet_lt s t = true <-> tlt s t.
Proof.
  destruct s as [[r1 c1] x1], t as [[r2 c2] x2]. unfold triplet_lt, tlt, trow, tcol. simpl.
  destruct (Nat.ltb_spec r1 r2); [intuition lia|]. destruct (Nat.eqb_spec r1 r2); [rewrite Nat.ltb_lt; intuition lia|]. intuition (try lia; try discriminate).
Qed.
Lemma triplet_lt_false (s t : trip) : triplet_lt s t = false <-> ~ tlt s t.
Proof. rewrite <- triplet_lt_spec. destruct (triplet_lt s t); intuition (try congruence). Qed.
Lemma triplet_weak (l : list trip) : strict_weak triplet_lt l.
Proof.
  split; [|split].
  - intros x _. apply triplet_lt_false. unfold tlt. lia.
  - intros x y t _ _ _. rewrite !triplet_lt_spec. unfold tlt. lia.
  - intros x y t _ _ _. rewrite !triplet_lt_false. unfold tlt. lia.
Qed.

Lemma filter_split (T : list trip) k : StronglySorted tlt T ->
  filter (fun t => trow t <? S k) T = filter (fun t => trow t <? k) T ++ filter (fun t => trow t =? k) T.
Proof.
  intros H. induction H as [|t T H IH Ha]; [reflexivity|]. simpl. rewrite IH. rewrite Forall_forall in Ha.
  destruct (Nat.ltb_spec (trow t) (S k)), (Nat.ltb_spec (trow t) k), (Nat.eqb_spec (trow t) k); try lia; auto.
  replace (filter (fun t0 => trow t0 <? k) T) with (@nil trip); [reflexivity|].
  symmetry. clear IH H. induction T as [|u T IH]; [reflexivity|]. simpl.
  assert (Hu := Ha u (or_introl eq_refl)). unfold tlt in Hu. replace (trow u <? k) with false by lia. apply IH. intros v Hv. apply Ha. right; auto.
Qed.

Lemma trows_concat T n : StronglySorted tlt T -> concat (trows T n) = map tdrop (filter (fun t => trow t <? n) T).
Proof.
  intros H. induction n as [|n IH].
  - simpl. replace (filter (fun t => trow t <? 0) T) with (@nil trip); [reflexivity|]. clear. induction T as [|t T IH]; [reflexivity|]. simpl. exact IH.
  - unfold trows. rewrite seq_S, map_app, concat_app. fold (trows T n). rewrite IH, filter_split, map_app by auto. simpl. rewrite app_nil_r. reflexivity.
Qed.
Lemma trows_offs T n k : StronglySorted tlt T -> k <= n -> offs (trows T n) k = cnt T k.
Proof.
  intros H Hk. unfold offs, trows. rewrite firstn_map_seq by auto. fold (trows T k). rewrite trows_concat, map_length by auto. reflexivity.
Qed.
Lemma filter_all {B} (f : B -> bool) l : (forall x, In x l -> f x = true) -> filter f l = l.
Proof. induction l as [|x l IH]; intros H; [reflexivity|]. simpl. rewrite (H x (or_introl eq_refl)), IH; auto. intros y Hy. apply H. right; auto. Qed.

Lemma ss_firstn (T : list trip) : StronglySorted tlt T -> forall i t k, nth_error T i = Some t -> k <= trow t ->
  (forall s, In s (firstn i T) -> trow s < k) -> cnt T k = i.
Proof.
  unfold cnt. intros H. induction H as [|a T H IH Ha]; intros i t k Hi Hk Hs; [destruct i; discriminate|].
  rewrite Forall_forall in Ha. destruct i as [|i].
  - simpl in Hi. inversion Hi; subst a. simpl. replace (trow t <? k) with false by lia.
    replace (filter (fun t0 => trow t0 <? k) T) with (@nil trip); [reflexivity|]. symmetry.
    clear -Ha Hk. induction T as [|u T IH]; [reflexivity|]. simpl. assert (Hu := Ha u (or_introl eq_refl)). unfold tlt in Hu.
    replace (trow u <? k) with false by lia. apply IH. intros v Hv. apply Ha. right; auto.
  - simpl in Hi. rewrite firstn_cons in Hs. assert (Hak := Hs a (or_introl eq_refl)). simpl. replace (trow a <? k) with true by lia. simpl. f_equal.
    apply (IH i t k); auto. intros s Hs'. apply Hs. right; auto.
Qed.
Lemma cnt_all T k : (forall s, In s T -> trow s < k) -> cnt T k = length T.
Proof. intros H. unfold cnt. rewrite filter_all; auto. intros x Hx. specialize (H x Hx). lia. Qed.

(* mark_rows *)
Lemma mark_ok upto j rs lr1 n (f : nat -> nat) : length rs = n -> lr1 <= S upto -> upto < n ->
  (forall k, k < lr1 -> nth_error rs k = Some (f k)) -> (forall k, lr1 <= k <= upto -> f k = j) ->
  exists rs', mark_rows upto j (rs, lr1) = Ok (rs', S upto) /\ length rs' = n /\ forall k, k <= upto -> nth_error rs' k = Some (f k).
Proof.
  intros Hl H1 H2 Hlow Hf. unfold mark_rows. cbn [snd].
  match goal with |- context [for_ ?m ?b ?s] => destruct (for_inv (fun t (st : list nat * nat) =>
     snd st = lr1 + t /\ length (fst st) = n /\ forall k, k < lr1 + t -> nth_error (fst st) k = Some (f k)) m b s) as ((rs' & l') & E & P1 & P2 & P3) end.
  - cbn [fst snd]. rewrite Nat.add_0_r. auto.
  - intros t (rs0 & l0) Ht (P1 & P2 & P3). cbn [fst snd] in *. subst l0. rewrite wr_ok by lia. cbn [bind]. eexists; split; [reflexivity|]. cbn [fst snd].
    split; [lia|]. split; [rewrite length_upd; auto|]. intros k Hk. destruct (Nat.eq_dec k (lr1 + t)) as [->|Hne].
    + rewrite nth_error_upd_eq by lia. rewrite (Hf (lr1 + t)) by lia. reflexivity.
    + rewrite nth_error_upd_ne by lia. apply P3. lia.
  - cbn [fst snd] in *. exists rs'. rewrite E. subst l'. replace (lr1 + (S upto - lr1)) with (S upto) in * by lia. split; [reflexivity|]. split; [auto|]. intros k Hk. apply P3. lia.
Qed.

Lemma ss_nth (T : list trip) : StronglySorted tlt T -> forall i j s t, i < j -> nth_error T i = Some s -> nth_error T j = Some t -> tlt s t.
Proof.
  intros H. induction H as [|a T H IH Ha]; intros i j s t Hij Hi Hj; [destruct i; discriminate|].
  rewrite Forall_forall in Ha. destruct j as [|j]; [lia|]. destruct i as [|i].
  - simpl in Hi, Hj. inversion Hi; subst. apply Ha. eapply nth_error_In; eauto.
  - simpl in Hi, Hj. apply (IH i j); auto; lia.
Qed.

Lemma fill_coo_ok T jcol jdata nrows : StronglySorted tlt T -> (forall t, In t T -> trow t < nrows) ->
  exists rs lr1, coo_fill T ((repeat 0 (nrows + 1), 0), alloc jcol (length T), alloc jdata (length T), 0) =
     Ok ((rs, lr1), map tcol T, map snd T, length T) /\ length rs = nrows + 1 /\ lr1 <= nrows /\ (forall t, In t T -> trow t < lr1) /\
     (forall k, k < lr1 -> nth_error rs k = Some (cnt T k)).
Proof.
  intros Hs Hr. unfold coo_fill. set (l := length T).
  match goal with |- context [for_ l ?b ?s] => destruct (for_inv (fun i (st : (list nat * nat) * list nat * list A * nat) =>
     exists rs lr1 col d, st = ((rs, lr1), col, d, i) /\ length rs = nrows + 1 /\ lr1 <= nrows /\ (i = 0 -> lr1 = 0) /\
       (forall i' t, i = S i' -> nth_error T i' = Some t -> lr1 = S (trow t)) /\ (forall t, In t (firstn i T) -> trow t < lr1) /\
       (forall k, k < lr1 -> nth_error rs k = Some (cnt T k)) /\
       buf l col (map tcol (firstn i T)) /\ buf l d (map snd (firstn i T))) l b s) as (st & E & rs & lr1 & col & d & -> & H1 & H2 & _ & _ & H3 & H4 & H5 & H6) end.
  - exists (repeat 0 (nrows + 1)), 0, (alloc jcol l), (alloc jdata l). rewrite repeat_length. repeat split; auto; try lia; try (unfold alloc; rewrite map_length, seq_length; auto).
    + intros t [].
  - intros i st Hi (rs & lr1 & col & d & -> & H1 & H2 & H20 & H21 & H3 & H4 & H5 & H6).
    destruct (nth_error_lt T i Hi) as [t Ht]. rewrite (rd_ok _ _ _ Ht). cbn [bind]. destruct t as [[r c] x]. cbn [snd].
    assert (Hrn : r < nrows) by (apply (Hr (r, c, x)); eapply nth_error_In; eauto).
    destruct (buf_push l col _ c H5) as [Ec Bc]; [rewrite map_length, firstn_length; lia|].
    destruct (buf_push l d _ x H6) as [Ed Bd]; [rewrite map_length, firstn_length; lia|].
    rewrite map_length, firstn_length, Nat.min_l in Ec, Bc by lia. rewrite map_length, firstn_length, Nat.min_l in Ed, Bd by lia.
    assert (Bc' : buf l (upd col i c) (map tcol (firstn (S i) T))) by (rewrite (firstn_S_snoc _ _ _ Ht), map_app; exact Bc).
    assert (Bd' : buf l (upd d i x) (map snd (firstn (S i) T))) by (rewrite (firstn_S_snoc _ _ _ Ht), map_app; exact Bd).
    assert (Hprev : forall i' t', i = S i' -> nth_error T i' = Some t' -> tlt t' (r, c, x)) by (intros i' t' -> Ht'; apply (ss_nth T Hs i' (S i')); auto).
    assert (Hlr : lr1 <= S r).
    { destruct i as [|i']; [rewrite H20 by auto; lia|]. destruct (nth_error_lt T i' ltac:(lia)) as [t' Ht']. rewrite (H21 i' t') by auto.
      specialize (Hprev i' t' eq_refl Ht'). unfold tlt, trow in *. simpl in *. lia. }
    assert (Hin : forall t, In t (firstn (S i) T) -> In t (firstn i T) \/ t = (r, c, x)).
    { intros t Hin. rewrite (firstn_S_snoc _ _ _ Ht) in Hin. apply in_app_or in Hin. destruct Hin as [Hin|[Hin|[]]]; auto. }
    destruct (Nat.eqb_spec (S r) lr1) as [El|El].
    + assert (Hc0 : (c =? 0) = false).
      { destruct i as [|i']; [rewrite H20 in El by auto; lia|]. destruct (nth_error_lt T i' ltac:(lia)) as [t' Ht']. rewrite (H21 i' t') in El by auto.
        specialize (Hprev i' t' eq_refl Ht'). unfold tlt, trow, tcol in *. simpl in *. lia. }
      rewrite Hc0, Ec. cbn [bind]. rewrite Ed. cbn [bind]. eexists; split; [reflexivity|].
      exists rs, lr1, (upd col i c), (upd d i x). split; [reflexivity|]. split; [auto|]. split; [auto|]. split; [lia|]. split.
      { intros i' t E Ht2. inversion E; subst i'. rewrite Ht in Ht2. inversion Ht2. unfold trow. simpl. lia. }
      split; [|auto]. intros t Hin'. destruct (Hin t Hin') as [Hin2| ->]; auto. unfold trow; simpl; lia.
    + destruct (mark_ok r i rs lr1 (nrows + 1) (cnt T)) as (rs' & Em & Hl' & Hn'); auto; [lia| |].
      { intros k Hk. apply (ss_firstn T Hs i (r, c, x)); auto; [unfold trow; simpl; lia|]. intros s Hs'. specialize (H3 s Hs'). lia. }
      rewrite Em. cbn [bind]. rewrite Ec. cbn [bind]. rewrite Ed. cbn [bind]. eexists; split; [reflexivity|].
      exists rs', (S r), (upd col i c), (upd d i x). split; [reflexivity|]. split; [auto|]. split; [lia|]. split; [lia|]. split.
      { intros i' t E Ht2. inversion E; subst i'. rewrite Ht in Ht2. inversion Ht2. unfold trow. simpl. lia. }
      split; [|split; [intros k Hk; apply Hn'; lia|auto]].
      intros t Hin'. destruct (Hin t Hin') as [Hin2| ->]; [specialize (H3 t Hin2); lia|unfold trow; simpl; lia].
  - rewrite E. unfold l in *. rewrite firstn_all in H3, H5, H6. apply buf_full in H5; [|rewrite map_length; auto]. apply buf_full in H6; [|rewrite map_length; auto].
    subst. exists rs, lr1. auto.
Qed.

Lemma collect_ok isz (rows cols : list nat) (d : list A) nrows ncols : length cols = length rows -> length d = length rows ->
  (forall r, In r rows -> r <= nrows) -> (forall c, In c cols -> c <= ncols) ->
  coo_collect isz rows cols d (length rows) nrows ncols = Ok (nrows, ncols, filter (fun t => negb (isz (snd t))) (combine (combine rows cols) d)).
Proof.
  intros Hc Hd Hr Hcc. unfold coo_collect. set (Z0 := combine (combine rows cols) d).
  assert (HZ : length Z0 = length rows) by (unfold Z0; rewrite !combine_length; lia).
  match goal with |- context [for_ ?m ?b ?s] => destruct (for_inv (fun i (st : nat * nat * list trip) =>
     st = (nrows, ncols, filter (fun t => negb (isz (snd t))) (firstn i Z0))) m b s) as (st & E & P) end.
  - reflexivity.
  - intros i st Hi ->. destruct (nth_error_lt rows i Hi) as [r Er], (nth_error_lt cols i ltac:(lia)) as [c Ec], (nth_error_lt d i ltac:(lia)) as [x Ex].
    rewrite (rd_ok _ _ _ Er), (rd_ok _ _ _ Ec), (rd_ok _ _ _ Ex). cbn [bind].
    rewrite !Nat.max_l by (try apply Hr; try apply Hcc; eapply nth_error_In; eauto).
    assert (Ez : nth_error Z0 i = Some (r, c, x)).
    { unfold Z0. clear -Er Ec Ex. revert cols d i Er Ec Ex. induction rows as [|a rows IH]; intros [|b cols] [|e d] [|i] Er Ec Ex; simpl in *; try discriminate; auto. congruence. }
    rewrite (firstn_S_snoc _ _ _ Ez), filter_app. simpl. destruct (isz x); simpl; [rewrite app_nil_r|]; eexists; split; reflexivity.
  - rewrite E, P. rewrite <- HZ, firstn_all. reflexivity.
Qed.

Lemma filter_nodup {B C} (f : B -> C) (p : B -> bool) l : NoDup (map f l) -> NoDup (map f (filter p l)).
Proof.
  induction l as [|x l IH]; intros H; [constructor|]. simpl in H. inversion H; subst. simpl. destruct (p x); auto. simpl. constructor; auto.
  intros Hin. apply H2. apply in_map_iff in Hin. destruct Hin as (y & <- & Hy). apply filter_In in Hy. apply in_map. apply Hy.
Qed.

Lemma map_fst_combine {B C} (l : list B) (l' : list C) : length l <= length l' -> map fst (combine l l') = l.
Proof. revert l'. induction l as [|x l IH]; intros [|y l'] H; simpl in *; try lia; auto. rewrite IH by lia. reflexivity. Qed.

Lemma ordered_ss (T : list trip) : NoDup (map fst T) -> ordered triplet_lt T -> StronglySorted tlt T.
Proof.
  induction T as [|t T IH]; intros Hn Ho; [constructor|]. simpl in Hn. inversion Hn; subst. constructor.
  - apply IH; auto. intros i j x y Hij Hx Hy. apply (Ho (S i) (S j)); auto; lia.
  - rewrite Forall_forall. intros u Hu. destruct (In_nth_error _ _ Hu) as [k Hk].
    assert (Hlt := Ho 0 (S k) t u ltac:(lia) eq_refl Hk). apply triplet_lt_false in Hlt.
    assert (Hne : fst u <> fst t) by (intros E; apply H1; rewrite <- E; apply in_map; auto).
    destruct t as [[r1 c1] x1], u as [[r2 c2] x2]. unfold tlt, trow, tcol in *. simpl in *.
    destruct (Nat.eq_dec r1 r2); [|lia]. destruct (Nat.eq_dec c1 c2); [|lia]. subst. congruence.
Qed.

Lemma of_coo_ok isz sorter jcol jdata (rows cols : list nat) (d : list A) nrows ncols :
  is_std_sort sorter -> length cols = length rows -> length d = length rows -> NoDup (combine rows cols) ->
  (forall r, In r rows -> r < nrows) -> (forall c, In c cols -> c < ncols) ->
  exists T, StronglySorted tlt T /\ (forall t, In t T <-> In t (combine (combine rows cols) d) /\ isz (snd t) = false) /\
    of_coo isz sorter jcol jdata rows cols d nrows ncols = Ok (pack ncols (trows T nrows)).
Proof.
  intros Hsort Hc Hd Hnd Hr Hcc. unfold of_coo. rewrite Hc, Hd, Nat.eqb_refl. cbn [assert_ bind].
  rewrite collect_ok; auto; [|intros r H; specialize (Hr r H); lia|intros c H; specialize (Hcc c H); lia]. cbn [bind].
  set (F := filter (fun t => negb (isz (snd t))) (combine (combine rows cols) d)).
  destruct (Hsort triplet_lt F (triplet_weak F)) as [Hp Ho]. set (T := sorter triplet_lt F) in *.
  assert (HnF : NoDup (map fst F)) by (apply filter_nodup; rewrite map_fst_combine; auto; rewrite combine_length; lia).
  assert (HnT : NoDup (map fst T)) by (eapply Permutation_NoDup; [apply Permutation_map; exact Hp|auto]).
  assert (HT : StronglySorted tlt T) by (apply ordered_ss; auto).
  assert (HinT : forall t, In t T <-> In t (combine (combine rows cols) d) /\ isz (snd t) = false).
  { intros t. split.
    - intros H. apply (Permutation_in _ (Permutation_sym Hp)) in H. apply filter_In in H. destruct H. split; auto. destruct (isz (snd t)); auto; discriminate.
    - intros [H1 H2]. apply (Permutation_in _ Hp). apply filter_In. rewrite H2. auto. }
  exists T. split; [auto|]. split; [auto|].
  assert (HrT : forall t, In t T -> trow t < nrows).
  { intros t H. apply HinT in H. destruct H as [H _]. destruct t as [[r c] x]. apply in_combine_l in H. apply in_combine_l in H. apply Hr; auto. }
  destruct (fill_coo_ok T jcol jdata nrows HT HrT) as (rs & lr1 & E & Hl & Hlr & Hrl & Hrs). rewrite E. cbn [bind].
  destruct (mark_ok nrows (length T) rs lr1 (nrows + 1) (cnt T)) as (rs' & Em & Hl' & Hn'); auto; try lia.
  { intros k Hk. apply cnt_all. intros t Ht. specialize (Hrl t Ht). lia. }
  rewrite Em. cbn [bind]. unfold pack.
  rewrite (trows_concat T nrows HT), (filter_all (fun t => trow t <? nrows) T) by (intros t Ht; specialize (HrT t Ht); lia).
  rewrite !map_map. f_equal. f_equal.
  - unfold trows. rewrite map_length, seq_length. reflexivity.
  - unfold trows at 2. rewrite map_length, seq_length.
    apply list_eq_nth_len; [rewrite map_length, seq_length; lia|]. intros k Hk. rewrite nth_error_map_seq by lia. rewrite trows_offs by (auto; lia). apply Hn'. lia.
Qed.

Lemma ss_filter (T : list trip) i : StronglySorted tlt T -> StronglySorted lt (map fst (map tdrop (filter (fun t => trow t =? i) T))).
Proof.
  intros H. induction H as [|t T H IH Ha]; [constructor|]. simpl. destruct (Nat.eqb_spec (trow t) i) as [E|E]; auto. simpl. constructor; auto.
  rewrite Forall_forall in *. intros k Hk. apply in_map_iff in Hk. destruct Hk as (p & <- & Hp). apply in_map_iff in Hp. destruct Hp as (u & <- & Hu).
  apply filter_In in Hu. destruct Hu as [Hu Eu]. specialize (Ha u Hu). unfold tlt in Ha. unfold tdrop, tcol. simpl. apply Nat.eqb_eq in Eu. unfold tcol in Ha. lia.
Qed.

Lemma trows_good T n c : StronglySorted tlt T -> (forall t, In t T -> tcol t < c) -> good c (trows T n).
Proof.
  intros H Hc. unfold good, trows. rewrite Forall_forall. intros r Hr. apply in_map_iff in Hr. destruct Hr as (i & <- & Hi). split; [apply ss_filter; auto|].
  intros p Hp. apply in_map_iff in Hp. destruct Hp as (t & <- & Ht). apply filter_In in Ht. apply Hc, Ht.
Qed.

Lemma trows_entry z T n c i j : StronglySorted tlt T -> (forall t, In t T -> tcol t < c) -> i < n ->
  (forall x, In (i, j, x) T -> entry z (pack c (trows T n)) i j = x) /\
  ((forall x, ~ In (i, j, x) T) -> entry z (pack c (trows T n)) i j = z).
Proof.
  intros H Hc Hi. set (r := map tdrop (filter (fun t => trow t =? i) T)).
  assert (Hr : nth_error (trows T n) i = Some r) by (unfold trows; rewrite nth_error_map_seq by auto; reflexivity).
  rewrite (entry_pack z c (trows T n) i j r Hr).
  assert (Hg : good_row c r) by (assert (Hg := trows_good T n c H Hc); unfold good in Hg; rewrite Forall_forall in Hg; apply Hg; eapply nth_error_In; eauto).
  split.
  - intros x Hx. apply (lookup_in c); auto. unfold r. apply in_map_iff. exists (i, j, x). split; [reflexivity|]. apply filter_In. split; auto. unfold trow. simpl. apply Nat.eqb_refl.
  - intros Hx. apply lookup_out. intros p Hp E. unfold r in Hp. apply in_map_iff in Hp. destruct Hp as ([[r' c'] x'] & <- & Ht).
    apply filter_In in Ht. destruct Ht as [Ht Et]. unfold trow, tdrop, tcol in *. simpl in *. apply Nat.eqb_eq in Et. subst. apply (Hx x'); auto.
Qed.
End Coo.

(* a matrix from coordinates, with its entries *)
Section Coo2.
Context {A : Type} (N : numops A) (isz : A -> bool).

Lemma in_combine3 (rows cols : list nat) (d : list A) r c x : In (r, c, x) (combine (combine rows cols) d) <->
  exists k, nth_error rows k = Some r /\ nth_error cols k = Some c /\ nth_error d k = Some x.
Proof.
  revert cols d. induction rows as [|a rows IH]; intros cols d.
  - simpl. split; [intros []|]. intros ([|k] & H & _); discriminate.
  - destruct cols as [|b cols]; [simpl; split; [intros []|intros ([|k] & _ & H & _); discriminate]|].
    destruct d as [|e d]; [simpl; split; [intros []|intros ([|k] & _ & _ & H); discriminate]|].
    simpl combine. split.
    + intros [E|H]; [inversion E; subst; exists 0; auto|]. apply IH in H. destruct H as (k & H). exists (S k). auto.
    + intros ([|k] & H1 & H2 & H3); [simpl in *; left; congruence|]. right. apply IH. exists k. auto.
Qed.

Lemma coo_full (Hisz : forall x, isz x = true <-> x = nzero N) sorter jcol jdata (rows cols : list nat) (d : list A) nrows ncols :
  is_std_sort sorter -> length cols = length rows -> length d = length rows -> NoDup (combine rows cols) ->
  (forall r, In r rows -> r < nrows) -> (forall c, In c cols -> c < ncols) ->
  exists s, of_coo isz sorter jcol jdata rows cols d nrows ncols = Ok s /\ wf_sparse s /\ srows s = nrows /\ scols s = ncols /\ no_zeros (nzero N) s /\
    (forall k r c x, nth_error rows k = Some r -> nth_error cols k = Some c -> nth_error d k = Some x -> entry (nzero N) s r c = x) /\
    (forall i j, i < nrows -> ~ In (i, j) (combine rows cols) -> entry (nzero N) s i j = nzero N).
Proof.
  intros Hsort Hc Hd Hnd Hr Hcc.
  destruct (of_coo_ok isz sorter jcol jdata rows cols d nrows ncols) as (T & HT & HinT & E); auto.
  assert (HcT : forall t, In t T -> tcol t < ncols).
  { intros t H. apply HinT in H. destruct H as [H _]. destruct t as [[r c] x]. apply in_combine_l in H. apply in_combine_r in H. apply Hcc; auto. }
  exists (pack ncols (trows T nrows)). split; [exact E|]. split; [apply pack_wf, trows_good; auto|]. split; [unfold pack; simpl; unfold trows; rewrite map_length, seq_length; reflexivity|].
  split; [reflexivity|]. split.
  { unfold no_zeros. unfold pack. cbn [sdata]. intros Hz. apply in_map_iff in Hz. destruct Hz as (p & Ep & Hp). rewrite trows_concat in Hp by auto.
    apply in_map_iff in Hp. destruct Hp as (t & <- & Ht). apply filter_In in Ht. destruct Ht as [Ht _]. apply HinT in Ht. destruct Ht as [_ Ht].
    unfold tdrop in Ep. simpl in Ep. apply Hisz in Ep. congruence. }
  split.
  - intros k r c x Hk1 Hk2 Hk3. assert (Hrn : r < nrows) by (apply Hr; eapply nth_error_In; eauto).
    destruct (trows_entry (nzero N) T nrows ncols r c HT HcT Hrn) as [He1 He2].
    assert (Hin : In (r, c, x) (combine (combine rows cols) d)) by (apply in_combine3; exists k; auto).
    destruct (isz x) eqn:Ex.
    + rewrite He2; [symmetry; apply Hisz; auto|]. intros y Hy. apply HinT in Hy. destruct Hy as [Hy Ey]. simpl in Ey.
      assert (y = x); [|congruence]. apply in_combine3 in Hy. destruct Hy as (k' & Q1 & Q2 & Q3).
      assert (k' = k); [|congruence]. 
      assert (G : forall k0, nth_error rows k0 = Some r -> nth_error cols k0 = Some c -> nth_error (combine rows cols) k0 = Some (r, c)).
      { clear. revert cols. induction rows as [|a rows IH]; intros [|b cols] [|k0] H1 H2; simpl in *; try discriminate; auto. congruence. }
      apply (proj1 (NoDup_nth_error _) Hnd); [apply nth_error_Some; rewrite G by auto; discriminate|]. rewrite !G by auto. reflexivity.
    + apply He1. apply HinT. auto.
  - intros i j Hi Hn. destruct (trows_entry (nzero N) T nrows ncols i j HT HcT Hi) as [_ He2]. apply He2.
    intros x Hx. apply HinT in Hx. destruct Hx as [Hx _]. apply in_combine_l in Hx. contradiction.
Qed.

(* sparse_rows *)
Definition row_ids (n : nat) (rws : list (list (nat * A))) : list nat := concat (map (fun i => repeat i (length (nth i rws []))) (seq 0 n)).

Lemma row_ids_S n rws : row_ids (S n) rws = row_ids n rws ++ repeat n (length (nth n rws [])).
Proof. unfold row_ids. rewrite seq_S, map_app, concat_app. simpl. rewrite app_nil_r. reflexivity. Qed.
Lemma row_ids_len n rws : n <= length rws -> length (row_ids n rws) = offs rws n.
Proof.
  induction n as [|n IH]; intros H; [reflexivity|]. rewrite row_ids_S, app_length, repeat_length, IH by lia.
  destruct (nth_error_lt rws n H) as [r Hr]. rewrite (offs_S _ _ _ Hr), (nth_error_nth _ _ _ Hr). reflexivity.
Qed.

Lemma sparse_rows_ok junk c (rws : list (list (nat * A))) :
  sparse_rows junk (row_start (pack c rws)) (column (pack c rws)) = Ok (row_ids (length rws) rws).
Proof.
  unfold sparse_rows. destruct (pack_nnz c rws) as [En _]. rewrite En. set (M := length (concat rws)).
  assert (Hl : length (row_start (pack c rws)) - 1 = length rws) by (unfold pack; cbn [row_start]; rewrite map_length, seq_length; lia). rewrite Hl.
  match goal with |- context [for_ ?m ?b ?s] => destruct (for_inv (fun i (st : list nat * nat) =>
     buf M (fst st) (row_ids i rws) /\ snd st = length (row_ids i rws)) m b s) as ((o & n) & E & P1 & P2) end.
  - cbn [fst snd]. split; [apply buf_nil; unfold alloc; rewrite map_length, seq_length; auto|reflexivity].
  - intros i (o & n) Hi (P1 & P2). cbn [fst snd] in *. rewrite !rd_rs by lia. cbn [bind].
    destruct (nth_error_lt rws i Hi) as [r Hr]. assert (Ho := offs_le _ _ _ Hr). rewrite (offs_S _ _ _ Hr). replace (offs rws i + length r - offs rws i) with (length r) by lia.
    match goal with |- exists s'', for_ ?m ?b ?s = _ /\ _ => destruct (for_inv (fun k (st : list nat * nat) =>
      buf M (fst st) (row_ids i rws ++ repeat i k) /\ snd st = length (row_ids i rws) + k) m b s) as ((o' & n') & E & Q1 & Q2) end.
    + cbn [fst snd]. simpl repeat. rewrite app_nil_r. split; auto. lia.
    + intros k (o' & n') Hk (Q1 & Q2). cbn [fst snd] in *.
      destruct (buf_push M o' _ i Q1) as [Ew Bw]; [rewrite app_length, repeat_length, row_ids_len by lia; lia|].
      rewrite app_length, repeat_length in Ew, Bw. rewrite Q2, Ew. cbn [bind]. eexists; split; [reflexivity|]. cbn [fst snd].
      split; [|lia]. apply (buf_eq _ _ _ _ Bw). rewrite <- app_assoc. f_equal. clear. induction k as [|k IH]; simpl; [reflexivity|]. rewrite IH. reflexivity.
    + rewrite E. eexists; split; [reflexivity|]. rewrite row_ids_S, (nth_error_nth _ _ _ Hr), app_length, repeat_length. auto.
  - rewrite E. cbn [bind fst snd] in *. f_equal. apply (buf_full M); auto. rewrite row_ids_len by lia. apply offs_all.
Qed.

Lemma combine_app' {B C} (l1 l2 : list B) (m1 m2 : list C) : length l1 = length m1 -> combine (l1 ++ l2) (m1 ++ m2) = combine l1 m1 ++ combine l2 m2.
Proof. revert m1. induction l1 as [|x l1 IH]; intros [|y m1] H; simpl in *; try lia; auto. rewrite IH by lia. reflexivity. Qed.
Lemma combine_repeat_r {B C} (l : list B) (y : C) : combine l (repeat y (length l)) = map (fun x => (x, y)) l.
Proof. induction l; simpl; congruence. Qed.
Lemma nodup_app {B} (l1 l2 : list B) : NoDup l1 -> NoDup l2 -> (forall x, In x l1 -> ~ In x l2) -> NoDup (l1 ++ l2).
Proof.
  induction l1 as [|x l1 IH]; intros H1 H2 H; [auto|]. inversion H1; subst. simpl. constructor.
  - rewrite in_app_iff. intros [Hx|Hx]; [auto|]. apply (H x); simpl; auto.
  - apply IH; auto. intros y Hy. apply H. right; auto.
Qed.
Lemma ss_nodup (l : list nat) : StronglySorted lt l -> NoDup l.
Proof. intros H. induction H as [|a l H IH Ha]; constructor; auto. intros Hin. rewrite Forall_forall in Ha. specialize (Ha a Hin). lia. Qed.

(* the coordinates of a packed matrix are distinct; position k is in row row_ids *)
Lemma pack_coords c rws : good c rws -> 
  NoDup (combine (map fst (concat rws)) (row_ids (length rws) rws)) /\
  forall i j x, In (j, i, x) (combine (combine (map fst (concat rws)) (row_ids (length rws) rws)) (map snd (concat rws))) <->
    exists r, nth_error rws i = Some r /\ In (j, x) r.
Proof.
  intros Hg.
  assert (G : forall n, n <= length rws -> NoDup (combine (map fst (concat (firstn n rws))) (row_ids n rws)) /\
    (forall j i, In (j, i) (combine (map fst (concat (firstn n rws))) (row_ids n rws)) -> i < n) /\
    forall i j x, In (j, i, x) (combine (combine (map fst (concat (firstn n rws))) (row_ids n rws)) (map snd (concat (firstn n rws)))) <->
      exists r, i < n /\ nth_error rws i = Some r /\ In (j, x) r).
  { induction n as [|n IH]; intros Hn.
    - simpl. split; [constructor|]. split; [intros j i []|]. intros i j x. split; [intros []|]. intros (r & H & _). lia.
    - destruct (IH ltac:(lia)) as (I1 & I2 & I3). destruct (nth_error_lt rws n Hn) as [r Hr].
      assert (Hgr : good_row c r) by (unfold good in Hg; rewrite Forall_forall in Hg; apply Hg; eapply nth_error_In; eauto).
      rewrite (firstn_S_snoc _ _ _ Hr), concat_app, !map_app. simpl concat. rewrite app_nil_r. rewrite row_ids_S, (nth_error_nth _ _ _ Hr).
      assert (Hlen : length (map fst (concat (firstn n rws))) = length (row_ids n rws)) by (rewrite map_length, row_ids_len by lia; reflexivity).
      rewrite combine_app' by auto.
      rewrite combine_app' by (rewrite combine_length, <- Hlen, !map_length; lia).
      replace (repeat n (length r)) with (repeat n (length (map fst r))) by (rewrite map_length; reflexivity). rewrite combine_repeat_r.
      split; [|split].
      + apply nodup_app; auto.
        * apply FinFun.Injective_map_NoDup; [intros a b E; congruence|]. apply ss_nodup, Hgr.
        * intros [j i] H1 H2. apply I2 in H1. apply in_map_iff in H2. destruct H2 as (? & E & _). inversion E. lia.
      + intros j i H. apply in_app_or in H. destruct H as [H|H]; [apply I2 in H; lia|]. apply in_map_iff in H. destruct H as (? & E & _). inversion E. lia.
      + intros i j x. rewrite in_app_iff, I3.
        assert (Hlast : In (j, i, x) (combine (map (fun x0 : nat => (x0, n)) (map fst r)) (map snd r)) <-> i = n /\ In (j, x) r).
        { clear. induction r as [|[j0 x0] r IH]; simpl; [intuition|]. rewrite IH. split.
          - intros [E|[-> H]]; [inversion E; auto|auto].
          - intros [-> [E|H]]; [inversion E; auto|auto]. }
        rewrite Hlast. split.
        * intros [(r0 & H1 & H2 & H3)|[-> H]]; [exists r0; split; [lia|auto]|exists r; split; [lia|auto]].
        * intros (r0 & H1 & H2 & H3). destruct (Nat.eq_dec i n) as [->|Hne]; [right; split; auto; congruence|left; exists r0; split; [lia|auto]]. }
  destruct (G (length rws) (le_n _)) as (G1 & _ & G3). rewrite firstn_all in G1, G3. split; [exact G1|]. intros i j x. rewrite G3. split.
  - intros (r & _ & H). exists r. auto.
  - intros (r & H1 & H2). exists r. split; [eapply nth_error_lt_inv; eauto|auto].
Qed.

Lemma row_ids_lt n rws i : In i (row_ids n rws) -> i < n.
Proof.
  intros H. unfold row_ids in H. apply in_concat in H. destruct H as (l & Hl & Hi). apply in_map_iff in Hl. destruct Hl as (k & <- & Hk).
  apply in_seq in Hk. apply repeat_spec in Hi. lia.
Qed.

Lemma trans_gen (Hisz : forall x, isz x = true <-> x = nzero N) f (Hf : f (nzero N) = nzero N) sorter jrows jcol jdata c (rws : list (list (nat * A))) :
  is_std_sort sorter -> good c rws ->
  exists s, (rows <- sparse_rows jrows (row_start (pack c rws)) (column (pack c rws)) ;;
     of_coo isz sorter jcol jdata (column (pack c rws)) rows (map f (sdata (pack c rws))) (scols (pack c rws)) (srows (pack c rws))) = Ok s /\
    wf_sparse s /\ srows s = c /\ scols s = length rws /\ no_zeros (nzero N) s /\
    forall i j r, nth_error rws i = Some r -> j < c -> entry (nzero N) s j i = f (lookup (nzero N) j r).
Proof.
  intros Hsort Hg. rewrite sparse_rows_ok. cbn [bind]. replace (srows (pack c rws)) with (length rws) by reflexivity. replace (scols (pack c rws)) with c by reflexivity.
  destruct (pack_coords c rws Hg) as [Hnd Hin]. unfold pack. cbn [column sdata].
  destruct (coo_full Hisz sorter jcol jdata (map fst (concat rws)) (row_ids (length rws) rws) (map f (map snd (concat rws))) c (length rws)) as (s & E & W & S1 & S2 & S3 & S4 & S5); auto.
  { rewrite row_ids_len, offs_all, map_length by lia. reflexivity. }
  { rewrite !map_length. reflexivity. }
  { intros r Hr. apply in_map_iff in Hr. destruct Hr as (p & <- & Hp). apply in_concat in Hp. destruct Hp as (row & Hrow & Hp).
    unfold good in Hg. rewrite Forall_forall in Hg. apply (Hg row Hrow); auto. }
  { intros i Hi. eapply row_ids_lt; eauto. }
  exists s. split; [exact E|]. split; [auto|]. split; [auto|]. split; [auto|]. split; [auto|].
  intros i j r Hr Hj. assert (Hgr : good_row c r) by (unfold good in Hg; rewrite Forall_forall in Hg; apply Hg; eapply nth_error_In; eauto).
  destruct (find (fun p => fst p =? j) r) as [[j' x]|] eqn:Ef.
  - apply find_some in Ef. destruct Ef as [Hp Ej]. simpl in Ej. apply Nat.eqb_eq in Ej. subst j'. rewrite (lookup_in c (nzero N) r j x) by auto.
    assert (H3 : In (j, i, x) (combine (combine (map fst (concat rws)) (row_ids (length rws) rws)) (map snd (concat rws)))) by (apply Hin; exists r; auto).
    apply in_combine3 in H3. destruct H3 as (k & K1 & K2 & K3). apply (S4 k j i); auto. rewrite nth_error_map, K3. reflexivity.
  - assert (Ho : lookup (nzero N) j r = nzero N) by (unfold lookup; rewrite Ef; reflexivity). rewrite Ho, Hf. apply S5; auto.
    intros H. apply In_nth_error in H. destruct H as [k Hk].
    assert (Hk3 : exists x, nth_error (map snd (concat rws)) k = Some x).
    { assert (Hl := nth_error_lt_inv _ _ _ Hk). rewrite combine_length, map_length in Hl. destruct (nth_error_lt (map snd (concat rws)) k) as [x Hx]; [rewrite map_length; lia|eauto]. }
    destruct Hk3 as [x Hx].
    assert (H3 : In (j, i, x) (combine (combine (map fst (concat rws)) (row_ids (length rws) rws)) (map snd (concat rws)))).
    { clear -Hk Hx. revert k Hk Hx. generalize (combine (map fst (concat rws)) (row_ids (length rws) rws)) as l. generalize (map snd (concat rws)) as m.
      induction m as [|a m IH]; intros l k Hk Hx; [destruct k; discriminate|]. destruct l as [|b l]; [destruct k; discriminate|].
      destruct k as [|k]; simpl in *; [left; congruence|right; eauto]. }
    apply Hin in H3. destruct H3 as (r' & Hr' & Hx'). assert (r' = r) by congruence. subst r'.
    apply find_none with (x := (j, x)) in Ef; auto. simpl in Ef. rewrite Nat.eqb_refl in Ef. discriminate.
Qed.
End Coo2.

(* Products of sparse matrices and tensors; comparison. *)
From Verif Require Import Base Spec S_Fold S_Reduce S_Sparse M_Tensor M_Arith M_Fold M_Sparse
  L_Lin L_Tensor L_Arith L_Fold L_Kron L_Scale L_Trace L_Reduce L_Sparse L_Sparse2 L_Sparse3.
From Coq Require Import Sorted.

Lemma nth_error_firstn' {B} (l : list B) n i : i < n -> nth_error (firstn n l) i = nth_error l i.
Proof. revert n i. induction l as [|x l IH]; intros [|n] [|i] H; simpl; try lia; auto. apply IH. lia. Qed.
Lemma StronglySorted_nth_lt (R : nat -> nat -> Prop) l : StronglySorted R l ->
  forall i j x y, i < j -> nth_error l i = Some x -> nth_error l j = Some y -> R x y.
Proof.
  intros H. induction H as [|a l H IH Ha]; intros i j x y Hij Hx Hy; [destruct i; discriminate|].
  rewrite Forall_forall in Ha. destruct j as [|j]; [lia|]. destruct i as [|i]; simpl in *.
  - inversion Hx; subst. apply Ha. eapply nth_error_In; eauto.
  - apply (IH i j); auto; lia.
Qed.

Section Prod.
Context {A : Type} (N : numops A) (L : numlaws N).
Notation z := (nzero N).
Notation row := (list (nat * A)).
Notation dat := (L_Fold.dat N).

Lemma sum_pick c k (g h : nat -> A) : k < c -> (forall j, j < c -> j <> k -> g j = h j) -> h k = z ->
  sum_n N c g = nadd N (g k) (sum_n N c h).
Proof.
  induction c as [|c IH]; intros Hk He Hz; [lia|]. cbn [sum_n]. destruct (Nat.eq_dec k c) as [->|Hne].
  - rewrite Hz. rewrite (sum_ext N c g h) by (intros; apply He; lia). rewrite (add_comm _ L (sum_n N c h) z), (add_0_l _ L). apply (add_comm _ L).
  - rewrite IH by (auto; lia). rewrite (He c) by lia. rewrite (add_assoc _ L). reflexivity.
Qed.
Lemma add_z_r x : nadd N x z = x.
Proof. rewrite (add_comm _ L). apply (add_0_l _ L). Qed.
Lemma mul_z_r x : nmul N x z = z.
Proof. rewrite (mul_comm _ L). apply (mul_0_l _ L). Qed.
Lemma sum_z n f : (forall i, i < n -> f i = z) -> sum_n N n f = z.
Proof. induction n as [|n IH]; intros H; [reflexivity|]. cbn [sum_n]. rewrite IH, H by (auto; lia). apply add_z_r. Qed.

Lemma rowdot c (r : row) (f : nat -> A) acc : good_row c r ->
  fold_left (fun acc p => nadd N acc (nmul N (snd p) (f (fst p)))) r acc =
  nadd N acc (sum_n N c (fun j => nmul N (lookup z j r) (f j))).
Proof.
  revert acc. induction r as [|p r IH]; intros acc Hg.
  - simpl. rewrite sum_z; [symmetry; apply add_z_r|]. intros j _. unfold lookup. simpl. apply (mul_0_l _ L).
  - destruct (sorted_in _ _ _ Hg) as (Hr & Hb & Hlt). cbn [fold_left]. rewrite IH by auto. rewrite <- (add_assoc _ L). f_equal.
    rewrite (sum_pick c (fst p) (fun j => nmul N (lookup z j (p :: r)) (f j)) (fun j => nmul N (lookup z j r) (f j))); auto.
    + cbv beta. rewrite lookup_cons, Nat.eqb_refl. reflexivity.
    + intros j _ Hj. rewrite lookup_cons. replace (fst p =? j) with false by lia. reflexivity.
    + rewrite lookup_out; [apply (mul_0_l _ L)|]. intros q Hq. specialize (Hlt q Hq). lia.
Qed.

(* the sum a row computes, in its order *)
Definition rowsum (r : row) (f : nat -> A) : A := fold_left (fun acc p => nadd N acc (nmul N (snd p) (f (fst p)))) r z.
Lemma rowsum_ext c (r : row) f g : good_row c r -> (forall j, j < c -> f j = g j) -> rowsum r f = rowsum r g.
Proof.
  intros Hg H. unfold rowsum. generalize z as acc. induction r as [|p r IH]; intros acc; [reflexivity|]. destruct (sorted_in _ _ _ Hg) as (Hr & Hb & _).
  cbn [fold_left]. rewrite (H (fst p)) by auto. apply IH, Hr.
Qed.
Lemma rowsum_sum c (r : row) f : good_row c r -> rowsum r f = sum_n N c (fun j => nmul N (lookup z j r) (f j)).
Proof using L. intros Hg. unfold rowsum. rewrite (rowdot c r f z Hg), (add_0_l _ L). reflexivity. Qed.

Lemma mult_sp_t_raw c (rws : list row) (v : list A) Ln : good c rws -> length v = c * Ln ->
  exists out, mult_sp_t N (repeat z (length rws * Ln)) (pack c rws) v (length rws) c Ln = Ok out /\ length out = length rws * Ln /\
    forall l i r, l < Ln -> nth_error rws i = Some r -> dat out (l * length rws + i) = rowsum r (fun j => dat v (l * c + j)).
Proof.
  intros Hg Hv. set (I := length rws). unfold mult_sp_t.
  match goal with |- context [for_ Ln ?b ?s] => destruct (for_inv (fun l (st : list A * nat) =>
     snd st = l * I /\ length (fst st) = I * Ln /\
     (forall l' i r, l' < l -> nth_error rws i = Some r -> dat (fst st) (l' * I + i) = rowsum r (fun j => dat v (l' * c + j))) /\
     (forall q, l * I <= q -> dat (fst st) q = z)) Ln b s) as ((o & d) & E & P1 & P2 & P3 & P4) end.
  - cbn [fst snd]. rewrite repeat_length. split; [reflexivity|]. split; [reflexivity|]. split; [intros; lia|]. intros q _. apply repeat_dat. reflexivity.
  - intros l (o & d) Hl (P1 & P2 & P3 & P4). cbn [fst snd] in *. subst d.
    match goal with |- context [for_ I ?b ?s] => destruct (for_inv (fun i (st : list A * nat * nat) =>
      snd (fst st) = l * I + i /\ snd st = offs rws i /\ length (fst (fst st)) = I * Ln /\
      (forall l' i' r, l' < l \/ (l' = l /\ i' < i) -> nth_error rws i' = Some r -> dat (fst (fst st)) (l' * I + i') = rowsum r (fun j => dat v (l' * c + j))) /\
      (forall q, l * I + i <= q -> dat (fst (fst st)) q = z)) I b s) as (((o' & d') & m') & E & Q1 & Q2 & Q3 & Q4 & Q5) end.
    + cbn [fst snd]. rewrite Nat.add_0_r. split; [reflexivity|]. split; [reflexivity|]. split; [auto|]. split; [|auto]. intros l' i' r [H|H] Hr; [auto|lia].
    + intros i ((o' & d') & m') Hi (Q1 & Q2 & Q3 & Q4 & Q5). cbn [fst snd] in *. subst d' m'.
      destruct (nth_error_lt rws i Hi) as [r Hr]. assert (Hgr : good_row c r) by (unfold good in Hg; rewrite Forall_forall in Hg; apply Hg; eapply nth_error_In; eauto).
      assert (Hpos : l * I + i < length o') by (rewrite Q3; nia). rewrite (rd_dat N) by auto. cbn [bind]. rewrite (Q5 (l * I + i)) by lia.
      rewrite (span_pack c rws i r Hr). cbn [bind].
      match goal with |- context [for_ (length r) ?b ?s] => destruct (for_inv (fun k (st : A * nat) =>
        st = (fold_left (fun acc p => nadd N acc (nmul N (snd p) (dat v (l * c + fst p)))) (firstn k r) z, offs rws i + k)) (length r) b s) as (st3 & E3 & P5) end.
      * rewrite Nat.add_0_r. reflexivity.
      * intros k st Hk ->. destruct (nth_error_lt r k Hk) as [[j x] Hx].
        assert (Hc : nth_error (concat rws) (offs rws i + k) = Some (j, x)) by (rewrite (nth_concat _ _ _ _ Hr) by auto; auto).
        rewrite (rd_dt c rws _ _ _ Hc), (rd_col c rws _ _ _ Hc). cbn [bind].
        assert (Hj : j < c) by (apply (proj2 Hgr (j, x)); eapply nth_error_In; eauto).
        rewrite (rd_dat N v) by (rewrite Hv; nia). cbn [bind]. eexists; split; [reflexivity|]. rewrite (firstn_S_snoc _ _ _ Hx), fold_left_app. cbn [fold_left fst snd].
        rewrite Nat.add_succ_r. reflexivity.
      * rewrite E3, P5. cbn [bind]. rewrite firstn_all. fold (rowsum r (fun j => dat v (l * c + j))). rewrite wr_ok by auto. cbn [bind].
        eexists; split; [reflexivity|]. cbn [fst snd]. split; [lia|]. split; [symmetry; apply (offs_S _ _ _ Hr)|]. split; [rewrite length_upd; auto|]. split.
        -- intros l' i' r' Hor Hr'. rewrite (dat_upd N) by auto. assert (Hi' := nth_error_lt_inv _ _ _ Hr'). fold I in Hi'.
           destruct (Nat.eqb_spec (l' * I + i') (l * I + i)) as [Eq|Nq].
           ++ assert (i' = i /\ l' = l) as [-> ->]; [|rewrite Hr in Hr'; inversion Hr'; reflexivity].
              destruct (Nat.lt_trichotomy l' l) as [H|[->|H]]; [exfalso; nia|split; lia|exfalso; nia].
           ++ apply Q4; auto. destruct Hor as [H|[-> H]]; [auto|]. right. split; auto. destruct (Nat.eq_dec i' i); [subst; lia|lia].
        -- intros q Hq. rewrite (dat_upd N) by auto. replace (q =? l * I + i) with false by lia. apply Q5. lia.
    + rewrite E. cbn [bind]. eexists; split; [reflexivity|]. cbn [fst snd] in *. split; [lia|]. split; [auto|]. split.
      * intros l' i r Hl' Hr. apply Q4; auto. assert (Hi := nth_error_lt_inv _ _ _ Hr). fold I in Hi. lia.
      * intros q Hq. apply Q5. lia.
  - rewrite E. cbn [bind fst snd] in *. exists o. split; [reflexivity|]. split; [auto|]. intros l i r Hl Hr. apply P3; auto.
Qed.

Lemma mult_sp_t_ok c (rws : list row) (v : list A) Ln : good c rws -> length v = c * Ln ->
  exists out, mult_sp_t N (repeat z (length rws * Ln)) (pack c rws) v (length rws) c Ln = Ok out /\ length out = length rws * Ln /\
    forall l i r, l < Ln -> nth_error rws i = Some r -> dat out (l * length rws + i) = sum_n N c (fun j => nmul N (lookup z j r) (dat v (l * c + j))).
Proof using L.
  intros Hg Hv. destruct (mult_sp_t_raw c rws v Ln Hg Hv) as (out & E & Lo & H). exists out. split; [exact E|]. split; [exact Lo|].
  intros l i r Hl Hr. rewrite (H l i r Hl Hr). apply rowsum_sum. unfold good in Hg. rewrite Forall_forall in Hg. apply Hg. eapply nth_error_In; eauto.
Qed.

Lemma mmult_sp_t_raw jd junk c (rws : list row) (t : tensor A) s2 : good c rws -> wf t -> dims t = c :: s2 ->
  exists p, mmult_sp_t N jd junk (pack c rws) t = Ok p /\ wf p /\ dims p = length rws :: s2 /\
    forall i r v2, nth_error rws i = Some r -> valid s2 v2 -> elt p (i :: v2) = Some (rowsum r (fun x => val N t (x :: v2))).
Proof.
  intros Hg Hw Hd. unfold mmult_sp_t. rewrite Hd. cbn [length]. rewrite Nat.sub_succ, Nat.sub_0_r.
  match goal with |- context [for_ ?m ?b ?s] => destruct (for_inv (fun k (st : list nat * nat) =>
    length (fst st) = S (length s2) /\ (forall i, i < k -> nth_error (fst st) (S i) = nth_error s2 i) /\ snd st = prod (firstn k s2)) m b s) as ((ds & ln) & E & P1 & P2 & P3) end.
  - cbn [fst snd]. rewrite length_alloc. split; [reflexivity|]. split; [intros; lia|reflexivity].
  - intros k (ds & ln) Hk (P1 & P2 & P3). cbn [fst snd] in *. destruct (nth_error_lt s2 k Hk) as [d Hdk].
    destruct (nth_error_split _ _ Hdk) as (q1 & q2 & Eq & Hq1). rewrite (dimension_ok t (c :: q1) d q2) by (try (rewrite Hd, Eq; reflexivity); simpl; lia).
    cbn [bind]. rewrite wr_ok by lia. cbn [bind]. eexists; split; [reflexivity|]. cbn [fst snd]. split; [rewrite length_upd; auto|]. split.
    + intros i Hi. destruct (Nat.eq_dec i k) as [->|Hne]; [rewrite nth_error_upd_eq by lia; auto|rewrite nth_error_upd_ne by lia; apply P2; lia].
    + rewrite (firstn_S_snoc _ _ _ Hdk), P3, prod_app, prod_cons. replace (prod []) with 1 by reflexivity. lia.
  - rewrite E. cbn [bind fst snd] in *. rewrite firstn_all in P3. subst ln.
    rewrite (dimension_ok t [] c s2 0 Hd eq_refl : dimension t 0 = Ok c). cbn [bind]. rewrite wr_ok by lia. cbn [bind].
    replace (scols (pack c rws)) with c by reflexivity. replace (srows (pack c rws)) with (length rws) by reflexivity. rewrite Nat.eqb_refl. cbn [negb].
    assert (Hds : upd ds 0 (length rws) = length rws :: s2).
    { apply list_eq_nth_len; [rewrite length_upd; auto|]. rewrite length_upd, P1. intros [|i] Hi; [rewrite nth_error_upd_eq by lia; reflexivity|].
      rewrite nth_error_upd_ne by lia. simpl. apply P2. lia. }
    rewrite Hds. unfold zeros. rewrite fill_ok. cbn [bind]. rewrite new_tensor_len. cbn [new_tensor data].
    assert (En : nelem (length rws :: s2) = length rws * prod s2) by (unfold nelem; rewrite prod_cons; reflexivity). rewrite En.
    destruct (mult_sp_t_raw c rws (data t) (prod s2) Hg) as (o & Eo & Lo & Ho).
    { rewrite Hw, Hd. unfold nelem. rewrite prod_cons. reflexivity. }
    rewrite Eo. cbn [bind]. eexists; split; [reflexivity|]. split; [unfold wf; cbn [dims data]; rewrite En; auto|]. split; [reflexivity|].
    intros i r v2 Hr Hv. assert (Hi := nth_error_lt_inv _ _ _ Hr).
    rewrite elt_valid by (cbn [dims]; constructor; auto). cbn [dims data]. rewrite lin_cons.
    assert (Hlv := lin_lt _ _ Hv). rewrite (nth_dat N) by (rewrite Lo; nia).
    replace (i + length rws * lin s2 v2) with (lin s2 v2 * length rws + i) by lia. rewrite (Ho (lin s2 v2) i r) by auto. f_equal.
    apply (rowsum_ext c); [unfold good in Hg; rewrite Forall_forall in Hg; apply Hg; eapply nth_error_In; eauto|]. intros x Hx.
    unfold val. rewrite (wf_dat_elt N); [|rewrite Hd; constructor; auto|auto|rewrite Hd; discriminate]. rewrite Hd, lin_cons. f_equal. lia.
Qed.

Lemma mmult_sp_t_elts jd junk c (rws : list row) (t : tensor A) s2 : good c rws -> wf t -> dims t = c :: s2 ->
  exists p, mmult_sp_t N jd junk (pack c rws) t = Ok p /\ wf p /\ dims p = length rws :: s2 /\
    forall i r v2, nth_error rws i = Some r -> valid s2 v2 -> elt p (i :: v2) = Some (sum_n N c (fun x => nmul N (lookup z x r) (val N t (x :: v2)))).
Proof using L.
  intros Hg Hw Hd. destruct (mmult_sp_t_raw jd junk c rws t s2 Hg Hw Hd) as (p & E & W & D & H). exists p. do 3 (split; [assumption|]).
  intros i r v2 Hr Hv. rewrite (H i r v2 Hr Hv). f_equal. apply rowsum_sum. unfold good in Hg. rewrite Forall_forall in Hg. apply Hg. eapply nth_error_In; eauto.
Qed.

Lemma mmult_sp_t_reject jd junk (s : sparse A) (t : tensor A) l s2 : dims t = l :: s2 -> l <> scols s -> mmult_sp_t N jd junk s t = Abort.
Proof.
  intros Hd Hne. unfold mmult_sp_t. rewrite Hd. cbn [length]. rewrite Nat.sub_succ, Nat.sub_0_r.
  match goal with |- context [for_ ?m ?b ?s] => destruct (for_inv (fun k (st : list nat * nat) => length (fst st) = S (length s2)) m b s) as ((ds & ln) & E & P1) end.
  - cbn [fst snd]. apply length_alloc.
  - intros k (ds & ln) Hk P1. cbn [fst snd] in *. destruct (nth_error_lt s2 k Hk) as [d Hdk].
    destruct (nth_error_split _ _ Hdk) as (q1 & q2 & Eq & Hq1). rewrite (dimension_ok t (l :: q1) d q2) by (try (rewrite Hd, Eq; reflexivity); simpl; lia).
    cbn [bind]. rewrite wr_ok by lia. cbn [bind]. eexists; split; [reflexivity|]. cbn [fst]. rewrite length_upd. auto.
  - rewrite E. cbn [bind fst] in *. rewrite (dimension_ok t [] l s2 0 Hd eq_refl : dimension t 0 = Ok l). cbn [bind]. rewrite wr_ok by lia. cbn [bind].
    replace (l =? scols s) with false by lia. reflexivity.
Qed.

(* tensor times sparse *)
Lemma mult_t_sp_ok c (rws : list row) (v : list A) I : good c rws -> length v = I * length rws ->
  exists out, mult_t_sp N (repeat z (I * c)) v (pack c rws) I (length rws) = Ok out /\ length out = I * c /\
    forall l i, l < c -> i < I -> dat out (l * I + i) = sum_n N (length rws) (fun j => nmul N (dat v (j * I + i)) (lookup z l (nth j rws []))).
Proof.
  intros Hg Hv. unfold mult_t_sp. set (J := length rws) in *.
  match goal with |- context [for_ J ?b ?s] => destruct (for_inv (fun j (o : list A) => length o = I * c /\
    forall l i, l < c -> i < I -> dat o (l * I + i) = sum_n N j (fun j => nmul N (dat v (j * I + i)) (lookup z l (nth j rws [])))) J b s) as (o & E & P1 & P2) end.
  - rewrite repeat_length. split; [reflexivity|]. intros. simpl. apply repeat_dat. reflexivity.
  - intros j o Hj (P1 & P2). destruct (nth_error_lt rws j Hj) as [r Hr]. rewrite !rd_rs by (fold J; lia). cbn [bind]. rewrite (offs_S _ _ _ Hr).
    replace (offs rws j + length r - offs rws j) with (length r) by lia.
    assert (Hgr : good_row c r) by (unfold good in Hg; rewrite Forall_forall in Hg; apply Hg; eapply nth_error_In; eauto).
    match goal with |- exists s'', for_ _ ?b ?s = _ /\ _ => destruct (for_inv (fun k (o' : list A) => length o' = I * c /\
      forall l i, l < c -> i < I -> dat o' (l * I + i) = nadd N (dat o (l * I + i)) (nmul N (dat v (j * I + i)) (lookup z l (firstn k r)))) (length r) b s) as (o' & E & Q1 & Q2) end.
    + split; [auto|]. intros l i _ _. simpl. unfold lookup. simpl. rewrite mul_z_r, add_z_r. reflexivity.
    + intros k o' Hk (Q1 & Q2). destruct (nth_error_lt r k Hk) as [[l0 m] Hx].
      assert (Hc : nth_error (concat rws) (offs rws j + k) = Some (l0, m)) by (rewrite (nth_concat _ _ _ _ Hr) by auto; auto).
      rewrite (rd_col c rws _ _ _ Hc), (rd_dt c rws _ _ _ Hc). cbn [bind]. assert (Hl0 : l0 < c) by (apply (proj2 Hgr (l0, m)); eapply nth_error_In; eauto).
      match goal with |- exists s'', for_ _ ?b ?s = _ /\ _ => destruct (for_inv (fun e (o2 : list A) => length o2 = I * c /\
        forall l i, l < c -> i < I -> dat o2 (l * I + i) = if (l =? l0) && (i <? e) then nadd N (dat o' (l * I + i)) (nmul N (dat v (j * I + i)) m) else dat o' (l * I + i)) I b s)
        as (o2 & E2 & S1 & S2) end.
      * split; [auto|]. intros l i _ _. rewrite andb_comm. reflexivity.
      * intros e o2 He (S1 & S2). assert (Hpos : l0 * I + e < length o2) by (rewrite S1; nia). rewrite (rd_dat N o2) by auto. cbn [bind].
        rewrite (rd_dat N v) by (rewrite Hv; nia). cbn [bind]. rewrite wr_ok by auto. eexists; split; [reflexivity|]. split; [rewrite length_upd; auto|].
        intros l i Hl Hi. rewrite (dat_upd N) by auto. rewrite (S2 l0 e) by auto. rewrite (S2 l i) by auto. rewrite (Nat.ltb_irrefl e), andb_false_r.
        destruct (Nat.eqb_spec (l * I + i) (l0 * I + e)) as [Eq|Nq].
        -- assert (l = l0 /\ i = e) as [-> ->]; [destruct (Nat.lt_trichotomy l l0) as [H|[->|H]]; [exfalso; nia|split; lia|exfalso; nia]|].
           rewrite Nat.eqb_refl. replace (e <? S e) with true by lia. reflexivity.
        -- destruct (Nat.eqb_spec l l0) as [->|]; [|reflexivity]. replace (i <? S e) with (i <? e); [reflexivity|].
           destruct (Nat.ltb_spec i e), (Nat.ltb_spec i (S e)); auto; [lia|]. assert (i = e) by lia. subst. lia.
      * rewrite E2. eexists; split; [reflexivity|]. split; [auto|]. intros l i Hl Hi. rewrite S2 by auto. rewrite (Q2 l i Hl Hi).
        rewrite (lookup_snoc N c r k l l0 m Hgr Hx). replace (i <? I) with true by lia. rewrite andb_true_r, Nat.eqb_sym.
        destruct (Nat.eqb_spec l0 l) as [->|Hne]; [|reflexivity].
        rewrite (lookup_out z l (firstn k r)); [rewrite mul_z_r, add_z_r; reflexivity|].
        intros q Hq Ef. apply In_nth_error in Hq. destruct Hq as [k' Hk'].
        assert (Hkk : k' < k) by (apply nth_error_lt_inv in Hk'; rewrite firstn_length in Hk'; lia).
        rewrite nth_error_firstn' in Hk' by auto.
        destruct Hgr as [Hss _]. assert (Hnd := StronglySorted_nth_lt _ _ Hss k' k (fst q) l Hkk). 
        rewrite !nth_error_map, Hk', Hx in Hnd. simpl in Hnd. specialize (Hnd eq_refl eq_refl). lia.
    + rewrite E. eexists; split; [reflexivity|]. split; [auto|]. intros l i Hl Hi. rewrite Q2 by auto. rewrite P2 by auto. cbn [sum_n].
      rewrite firstn_all, (nth_error_nth _ _ _ Hr). reflexivity.
  - rewrite E. eauto.
Qed.

Lemma mmult_t_sp_elts jd junk c (rws : list row) (t : tensor A) p1 : good c rws -> wf t -> dims t = p1 ++ [length rws] ->
  exists p, mmult_t_sp_from N (Ok (length rws)) jd junk t (pack c rws) = Ok p /\ wf p /\ dims p = p1 ++ [c] /\
    forall u j, valid p1 u -> j < c -> elt p (u ++ [j]) = Some (sum_n N (length rws) (fun x => nmul N (val N t (u ++ [x])) (lookup z j (nth x rws [])))).
Proof.
  intros Hg Hw Hd. set (J := length rws) in *. unfold mmult_t_sp_from.
  assert (Hlen : length (dims t) = S (length p1)) by (rewrite Hd, app_length; simpl; lia). rewrite Hlen. rewrite Nat.sub_succ, Nat.sub_0_r.
  match goal with |- context [for_ ?m ?b ?s] => destruct (for_inv (fun k (st : list nat * nat) =>
    length (fst st) = S (length p1) /\ (forall i, i < k -> nth_error (fst st) i = nth_error p1 i) /\ snd st = prod (firstn k p1)) m b s) as ((ds & ln) & E & P1 & P2 & P3) end.
  - cbn [fst snd]. rewrite length_alloc. split; [reflexivity|]. split; [intros; lia|reflexivity].
  - intros k (ds & ln) Hk (P1 & P2 & P3). cbn [fst snd] in *. destruct (nth_error_lt p1 k Hk) as [d Hdk].
    destruct (nth_error_split _ _ Hdk) as (q1 & q2 & Eq & Hq1). rewrite (dimension_ok t q1 d (q2 ++ [J])) by (try (rewrite Hd, Eq, <- app_assoc; reflexivity); simpl; lia).
    cbn [bind]. rewrite wr_ok by lia. cbn [bind]. eexists; split; [reflexivity|]. cbn [fst snd]. split; [rewrite length_upd; auto|]. split.
    + intros i Hi. destruct (Nat.eq_dec i k) as [->|Hne]; [rewrite nth_error_upd_eq by lia; auto|rewrite nth_error_upd_ne by lia; apply P2; lia].
    + rewrite (firstn_S_snoc _ _ _ Hdk), P3, prod_app, prod_cons. replace (prod []) with 1 by reflexivity. lia.
  - rewrite E. cbn [bind fst snd] in *. rewrite firstn_all in P3. subst ln. rewrite wr_ok by lia. cbn [bind].
    replace (scols (pack c rws)) with c by reflexivity. replace (srows (pack c rws)) with J by reflexivity. rewrite Nat.eqb_refl. cbn [negb].
    assert (Hds : upd ds (length p1) c = p1 ++ [c]).
    { apply list_eq_nth_len; [rewrite length_upd, app_length; simpl; lia|]. rewrite length_upd, P1. intros i Hi. destruct (Nat.eq_dec i (length p1)) as [->|Hne].
      - rewrite nth_error_upd_eq by lia. rewrite nth_error_app2, Nat.sub_diag by lia. reflexivity.
      - rewrite nth_error_upd_ne by lia. rewrite nth_error_app1 by lia. apply P2. lia. }
    rewrite Hds. unfold zeros. rewrite fill_ok. cbn [bind]. rewrite new_tensor_len. cbn [new_tensor data].
    assert (En : nelem (p1 ++ [c]) = prod p1 * c) by (rewrite nelem_prod by (destruct p1; discriminate); rewrite prod_app, prod_cons; replace (prod []) with 1 by reflexivity; lia). rewrite En.
    destruct (mult_t_sp_ok c rws (data t) (prod p1) Hg) as (o & Eo & Lo & Ho).
    { rewrite Hw, Hd. rewrite nelem_prod by (destruct p1; discriminate). rewrite prod_app, prod_cons. replace (prod []) with 1 by reflexivity. fold J. lia. }
    fold J in Eo. rewrite Eo. cbn [bind]. eexists; split; [reflexivity|]. split; [unfold wf; cbn [dims data]; rewrite En; auto|]. split; [reflexivity|].
    intros u j Hu Hj. assert (Hlu := lin_lt _ _ Hu).
    rewrite elt_valid. 2:{ cbn [dims]. apply valid_app; [apply valid_length; auto|]. split; [auto|repeat constructor; auto]. }
    cbn [dims data]. rewrite lin_app by (apply valid_length; auto). rewrite lin_cons, lin_nil, Nat.mul_0_r, Nat.add_0_r.
    rewrite (nth_dat N) by (rewrite Lo; nia). replace (lin p1 u + prod p1 * j) with (j * prod p1 + lin p1 u) by lia. rewrite (Ho j (lin p1 u)) by auto.
    f_equal. apply sum_ext. intros x Hx. unfold val. rewrite (wf_dat_elt N).
    + rewrite Hd, lin_app by (apply valid_length; auto). rewrite lin_cons, lin_nil. do 2 f_equal. lia.
    + rewrite Hd. apply valid_app; [apply valid_length; auto|]. split; [auto|repeat constructor; auto].
    + auto.
    + rewrite Hd. destruct p1; discriminate.
Qed.
End Prod.

(* all_equal *)
Section Eq.
Context {A : Type} (eqb : A -> A -> bool) (Heqb : forall x y, eqb x y = true <-> x = y).

Lemma all_eq_iff {B} (e : B -> B -> bool) (He : forall x y, e x y = true <-> x = y) (x y : list B) :
  (length x =? length y) && forallb (fun p => e (fst p) (snd p)) (combine x y) = true <-> x = y.
Proof.
  revert y. induction x as [|a x IH]; intros [|b y]; simpl; try (split; [discriminate|discriminate]); [split; auto|].
  rewrite andb_true_iff in *. specialize (IH y). rewrite andb_true_iff in IH. rewrite andb_true_iff, He. split.
  - intros (H1 & H2 & H3). f_equal; auto. apply IH. auto.
  - intros E. inversion E; subst. destruct (proj2 IH eq_refl). auto.
Qed.

Lemma sall_equal_iff (s1 s2 : sparse A) : sall_equal eqb s1 s2 = true <-> s1 = s2.
Proof.
  unfold sall_equal. rewrite !andb_true_iff.
  assert (Hn := @all_eq_iff nat Nat.eqb Nat.eqb_eq). assert (Ha := @all_eq_iff A eqb Heqb).
  setoid_rewrite andb_true_iff in Hn. setoid_rewrite andb_true_iff in Ha. rewrite !Hn, Ha.
  destruct s1, s2; simpl. split.
  - intros (((H1 & H2) & H3) & H4). inversion H1; subst. reflexivity.
  - intros E. inversion E; subst. auto.
Qed.

(* a matrix without stored zeros has a single representation *)
Lemma row_unique (zero : A) c (r1 : list (nat * A)) : forall r2, good_row c r1 -> good_row c r2 ->
  (forall p, In p r1 -> snd p <> zero) -> (forall p, In p r2 -> snd p <> zero) ->
  (forall j, j < c -> lookup zero j r1 = lookup zero j r2) -> r1 = r2.
Proof.
  clear eqb Heqb.
  induction r1 as [|[j1 x1] r1 IH]; intros [|[j2 x2] r2] G1 G2 N1 N2 H; auto.
  - exfalso. destruct (sorted_in _ _ _ G2) as (_ & Hb & _). simpl in Hb. specialize (H j2 Hb). rewrite lookup_cons in H. simpl in H. rewrite Nat.eqb_refl in H.
    apply (N2 (j2, x2)); simpl; auto. 
  - exfalso. destruct (sorted_in _ _ _ G1) as (_ & Hb & _). simpl in Hb. specialize (H j1 Hb). rewrite lookup_cons in H. simpl in H. rewrite Nat.eqb_refl in H.
    apply (N1 (j1, x1)); simpl; auto.
  - destruct (sorted_in _ _ _ G1) as (Hg1 & Hb1 & Hl1), (sorted_in _ _ _ G2) as (Hg2 & Hb2 & Hl2). simpl in Hb1, Hb2.
    assert (Ej : j1 = j2).
    { destruct (Nat.lt_trichotomy j1 j2) as [Hlt|[E|Hlt]]; auto; exfalso.
      - assert (H1 := H j1 Hb1). rewrite lookup_cons in H1. cbn [fst snd] in H1. rewrite Nat.eqb_refl in H1. apply (N1 (j1, x1)); [simpl; auto|]. cbn [snd]. rewrite H1.
        apply lookup_out. intros p [<-|Hp]; simpl; [lia|]. specialize (Hl2 p Hp). simpl in Hl2. lia.
      - assert (H1 := H j2 Hb2). rewrite (lookup_cons zero j2 (j2, x2)) in H1. cbn [fst snd] in H1. rewrite Nat.eqb_refl in H1. apply (N2 (j2, x2)); [simpl; auto|]. cbn [snd]. rewrite <- H1.
        apply lookup_out. intros p [<-|Hp]; simpl; [lia|]. specialize (Hl1 p Hp). simpl in Hl1. lia. }
    subst j2. assert (H1 := H j1 Hb1). rewrite !lookup_cons in H1. simpl in H1. rewrite Nat.eqb_refl in H1. subst x2. f_equal.
    apply IH; auto; [intros p Hp; apply N1; right; auto|intros p Hp; apply N2; right; auto|].
    intros j Hj. specialize (H j Hj). rewrite !lookup_cons in H. simpl in H. destruct (Nat.eqb_spec j1 j) as [->|]; auto.
    rewrite !lookup_out; auto; intros p Hp; [specialize (Hl2 p Hp)|specialize (Hl1 p Hp)]; simpl in *; lia.
Qed.

Lemma sparse_unique (zero : A) (s1 s2 : sparse A) : wf_sparse s1 -> wf_sparse s2 -> no_zeros zero s1 -> no_zeros zero s2 ->
  srows s1 = srows s2 -> scols s1 = scols s2 ->
  (forall i j, i < srows s1 -> j < scols s1 -> entry zero s1 i j = entry zero s2 i j) -> s1 = s2.
Proof.
  clear eqb Heqb.
  intros W1 W2 N1 N2 Hr Hc He. destruct (wf_pack s1 W1) as [E1 G1], (wf_pack s2 W2) as [E2 G2].
  rewrite E1, E2, <- Hc. f_equal. unfold rows_of. rewrite <- Hr. apply map_ext_in. intros i Hi. apply in_seq in Hi.
  unfold good in G1, G2. rewrite Forall_forall in G1, G2.
  assert (Hin : forall s : sparse A, srows s = srows s1 -> In (row_entries s i) (rows_of s)) by (intros s Es; unfold rows_of; apply in_map_iff; exists i; rewrite Es; split; auto; apply in_seq; lia).
  assert (Hnz : forall s : sparse A, s = pack (scols s) (rows_of s) -> srows s = srows s1 -> no_zeros zero s -> forall p, In p (row_entries s i) -> snd p <> zero).
  { intros s Es Er Nz p Hp Ez. apply Nz. rewrite Es. unfold pack. cbn [sdata]. apply in_map_iff. exists p. split; auto. apply in_concat. exists (row_entries s i). split; auto. }
  apply (row_unique zero (scols s1)).
  - apply G1. apply Hin. auto.
  - rewrite Hc. apply G2. apply Hin. auto.
  - apply Hnz; auto.
  - apply Hnz; auto.
  - intros j Hj. apply He; auto; lia.
Qed.
End Eq.

From Verif Require Import Base Spec L_Lin M_Tensor.

Lemma normalize_cases i d :
  (exists p, coord d i p /\ normalize_index i d = Ok p) \/
  ((forall p, ~ coord d i p) /\ normalize_index i d = Abort).
Proof.
  unfold normalize_index, assert_.
  set (j := if (i <? 0)%Z then (i + Z.of_nat d)%Z else i).
  destruct ((j <? Z.of_nat d) && (0 <=? j))%Z eqn:E; simpl.
  - left. exists (Z.to_nat j). split; auto. unfold coord, j in *.
    destruct (Z.ltb_spec i 0); lia.
  - right. split; auto. intros p [Hp Hc]. unfold j in *. destruct (Z.ltb_spec i 0); lia.
Qed.

Lemma coord_fun d i p q : coord d i p -> coord d i q -> p = q.
Proof. unfold coord; lia. Qed.

Lemma normalize_ok i d p : coord d i p -> normalize_index i d = Ok p.
Proof.
  intros H. destruct (normalize_cases i d) as [(q & Hq & E)|(Hn & _)].
  - rewrite E. f_equal. eapply coord_fun; eauto.
  - exfalso; eapply Hn; eauto.
Qed.

Lemma normalize_nonneg p d : p < d -> normalize_index (Z.of_nat p) d = Ok p.
Proof. intros H. apply normalize_ok. split; auto. Qed.

Lemma normalize_inv i d p : normalize_index i d = Ok p -> coord d i p.
Proof.
  intros H. destruct (normalize_cases i d) as [(q & Hq & E)|(Hn & E)]; [|congruence].
  assert (q = p) by congruence. subst; auto.
Qed.

(* generic form of the six overloads *)
Fixpoint norms (ds : list nat) (ix : list Z) : outcome (list nat) :=
  match ds, ix with
  | d :: ds', i :: ix' => p <- normalize_index i d ;; ps <- norms ds' ix' ;; Ok (p :: ps)
  | [], [] => Ok []
  | _, _ => Abort
  end.

Lemma norms_cases ds : forall ix,
  (exists ps, coords ds ix ps /\ norms ds ix = Ok ps) \/
  ((forall ps, ~ coords ds ix ps) /\ norms ds ix = Abort).
Proof.
  induction ds as [|d ds IH]; intros [|i ix]; simpl.
  - left. exists []. simpl; auto.
  - right. split; auto.
  - right. split; auto. 
  - destruct (normalize_cases i d) as [(p & Hp & ->)|(Hn & ->)]; simpl.
    + destruct (IH ix) as [(ps & Hps & ->)|(Hn & ->)]; simpl.
      * left. exists (p :: ps). simpl; auto.
      * right. split; auto. intros [|q ps]; [tauto|]. intros [_ H]. eapply Hn; eauto.
    + right. split; auto. intros [|q ps]; [tauto|]. intros [H _]. eapply Hn; eauto.
Qed.

Lemma coords_valid ds : forall ix ps, coords ds ix ps -> valid ds ps.
Proof.
  induction ds as [|d ds IH]; intros [|i ix] [|p ps]; simpl; try tauto.
  - intros _. constructor.
  - intros [[H _] H']. constructor; auto. eapply IH; eauto.
Qed.

Lemma coords_length ds : forall ix ps, coords ds ix ps -> length ix = length ds.
Proof.
  induction ds as [|d ds IH]; intros [|i ix] [|p ps]; simpl; try tauto.
  intros [_ H]. f_equal. eauto.
Qed.

Lemma coords_fun ds : forall ix ps qs, coords ds ix ps -> coords ds ix qs -> ps = qs.
Proof.
  induction ds as [|d ds IH]; intros [|i ix] [|p ps] [|q qs]; simpl; try tauto.
  intros [H1 H2] [H3 H4]. f_equal; [eapply coord_fun; eauto|eapply IH; eauto].
Qed.

Section Access.
Context {A : Type}.
Implicit Types t : tensor A.

Lemma bind_norm_abort {B} i d (f : nat -> outcome B) :
  normalize_index i d = Abort \/ exists p, normalize_index i d = Ok p.
Proof. destruct (normalize_cases i d) as [(p & _ & ->)|(_ & ->)]; eauto. Qed.

Ltac norm1 :=
  match goal with
  | |- context [normalize_index ?i ?d] =>
    let E := fresh "E" in
    destruct (normalize_cases i d) as [(? & _ & E)|(_ & E)]; rewrite E; cbn [bind]; try reflexivity
  end.

Lemma get_gen t ix : 1 <= length ix <= 6 ->
  get t ix = (ps <- norms (dims t) ix ;; rd (data t) (lin (dims t) ps)).
Proof.
  intros H.
  assert (Hx : forall (x y : nat), x = y -> rd (data t) x = rd (data t) y) by (intros; congruence).
  destruct ix as [|i1 [|i2 [|i3 [|i4 [|i5 [|i6 [|i7 ix]]]]]]]; simpl in H; try lia;
  unfold get, get1, get2, get3, get4, get5, get6,
    get_dimensions1, get_dimensions2, get_dimensions3, get_dimensions4, get_dimensions5, get_dimensions6;
  destruct (dims t) as [|d1 [|d2 [|d3 [|d4 [|d5 [|d6 [|d7 ds]]]]]]]; cbn [bind norms];
  repeat norm1; try reflexivity; apply Hx; cbn [lin]; ring.
Qed.

Lemma set_gen t ix v : 1 <= length ix <= 6 -> (length ix = 1 -> length (dims t) = 1) -> wf t ->
  set t ix v = (ps <- norms (dims t) ix ;; set_at t (lin (dims t) ps) v).
Proof.
  intros H H1 Hwf.
  assert (Hx : forall (x y : nat), x = y -> set_at t x v = set_at t y v) by (intros; congruence).
  destruct ix as [|i1 [|i2 [|i3 [|i4 [|i5 [|i6 [|i7 ix]]]]]]]; simpl in H; try lia.
  1:{ specialize (H1 eq_refl). unfold wf in Hwf. unfold set, set1.
      destruct (dims t) as [|d1 [|d2 ds]]; simpl in H1; try lia.
      rewrite Hwf. simpl nelem. replace (d1 * 1) with d1 by lia.
      cbn [norms]. norm1. apply Hx. cbn [lin]; ring. }
  all: clear H1;
  unfold set, set1, set2, set3, set4, set5, set6,
    get_dimensions1, get_dimensions2, get_dimensions3, get_dimensions4, get_dimensions5, get_dimensions6;
  destruct (dims t) as [|d1 [|d2 [|d3 [|d4 [|d5 [|d6 [|d7 ds]]]]]]]; cbn [bind norms];
  repeat norm1; try reflexivity; apply Hx; cbn [lin]; ring.
Qed.

Lemma c05_get t ix : wf t -> 1 <= length ix <= 6 ->
  (forall ps, coords (dims t) ix ps -> exists v, elt t ps = Some v /\ get t ix = Ok v) /\
  ((forall ps, ~ coords (dims t) ix ps) -> get t ix = Abort).
Proof.
  intros Hwf Hlen. rewrite get_gen by auto.
  destruct (norms_cases (dims t) ix) as [(qs & Hqs & E)|(Hn & E)]; rewrite E; simpl.
  - split; [|intros H; exfalso; eapply H; eauto].
    intros ps Hps. assert (qs = ps) by (eapply coords_fun; eauto). subst qs.
    assert (Hv := coords_valid _ _ _ Hps).
    destruct (elt_some t ps Hwf) as [v Ev]; auto.
    { intros E0. rewrite E0 in Hps. apply coords_length in Hps. simpl in Hps. lia. }
    exists v. split; auto. rewrite elt_valid in Ev by auto. apply rd_ok; auto.
  - split; [|auto]. intros ps Hps. exfalso; eapply Hn; eauto.
Qed.

Lemma c06_set t ix v ps : wf t -> 1 <= length ix <= 6 -> coords (dims t) ix ps ->
  exists t', set t ix v = Ok t' /\ dims t' = dims t /\ wf t' /\ elt t' ps = Some v /\
    forall qs, qs <> ps -> elt t' qs = elt t qs.
Proof.
  intros Hwf Hlen Hps. assert (Hl := coords_length _ _ _ Hps).
  rewrite set_gen by (auto; lia).
  destruct (norms_cases (dims t) ix) as [(qs & Hqs & E)|(Hn & E)]; [|exfalso; eapply Hn; eauto].
  rewrite E; simpl. assert (qs = ps) by (eapply coords_fun; eauto). subst qs. clear Hqs E.
  assert (Hv := coords_valid _ _ _ Hps).
  assert (Hd : dims t <> []) by (intros E0; rewrite E0 in Hl; simpl in Hl; lia).
  assert (Hlt : lin (dims t) ps < length (data t)).
  { rewrite Hwf, nelem_prod by auto. apply lin_lt; auto. }
  unfold set_at. rewrite wr_ok by auto. simpl.
  eexists; split; [reflexivity|]. split; [auto|]. split.
  { unfold wf; simpl. rewrite length_upd. auto. }
  split.
  - unfold elt; simpl. apply validb_iff in Hv. rewrite Hv. apply nth_error_upd_eq; auto.
  - intros qs Hq. unfold elt; simpl. destruct (validb (dims t) qs) eqn:Eq; auto.
    apply nth_error_upd_ne. intros El. apply Hq. apply validb_iff in Eq. eapply lin_inj; eauto.
Qed.

Lemma c06_reject t ix v : wf t -> 1 <= length ix <= 6 -> length (dims t) = length ix \/ length ix <> 1 ->
  (forall ps, ~ coords (dims t) ix ps) -> set t ix v = Abort.
Proof.
  intros Hwf Hlen Hr Hn. rewrite set_gen by (auto; lia).
  destruct (norms_cases (dims t) ix) as [(qs & Hqs & E)|(_ & E)]; [exfalso; eapply Hn; eauto|].
  rewrite E. reflexivity.
Qed.

Lemma total_size_loop_prod l : forall a,
  total_size_loop a (map Z.of_nat l) = (a * Z.of_nat (prod l))%Z.
Proof.
  induction l as [|d l IH]; intros a; cbn [map total_size_loop].
  - change (prod []) with 1. lia.
  - destruct (Z.ltb_spec (Z.of_nat d) 0); [lia|]. rewrite IH. rewrite prod_cons, Nat2Z.inj_mul. ring.
Qed.

Lemma total_size_nelem l : total_size l = nelem l.
Proof.
  unfold total_size, total_sizeZ. destruct l as [|d l]; [reflexivity|].
  change (Z.to_nat (total_size_loop 1 (map Z.of_nat (d :: l))) = nelem (d :: l)).
  rewrite total_size_loop_prod, Z.mul_1_l, Nat2Z.id. reflexivity.
Qed.

Lemma new_tensor_wf junk ds : wf (new_tensor (A := A) junk ds).
Proof. unfold wf, new_tensor; simpl. rewrite length_alloc, total_size_nelem. reflexivity. Qed.

Lemma reshape_spec t ds : wf t ->
  (nelem ds = nelem (dims t) -> reshape t ds = Ok (mkT ds (data t))) /\
  (nelem ds <> nelem (dims t) -> reshape t ds = Abort).
Proof.
  intros Hwf. unfold reshape, assert_. rewrite total_size_nelem, Hwf.
  destruct (Nat.eqb_spec (nelem ds) (nelem (dims t))); simpl; split; intros; auto; congruence.
Qed.

End Access.

Lemma total_size64_ok l : forall aux,
  (0 <= aux)%Z -> Forall (fun d => 0 <= d)%Z l ->
  (forall k, k <= length l -> (aux * fold_right Z.mul 1 (firstn k l) < 2 ^ 63)%Z) ->
  total_size64_loop aux l = Ok (aux * fold_right Z.mul 1 l)%Z.
Proof.
  induction l as [|d l IH]; intros aux Ha HF HP; simpl.
  - f_equal; ring.
  - inversion HF; subst. destruct (Z.ltb_spec d 0); [lia|].
    unfold mul64. assert (H0 := HP 1 ltac:(simpl; lia)). simpl in H0.
    destruct ((- 2 ^ 63 <=? aux * d) && (aux * d <? 2 ^ 63))%Z eqn:E; [|nia].
    simpl. rewrite IH; auto.
    + f_equal. ring.
    + nia.
    + intros k Hk. specialize (HP (S k) ltac:(simpl; lia)). simpl firstn in HP. simpl fold_right in HP.
      replace (aux * d * fold_right Z.mul 1 (firstn k l))%Z with (aux * (d * fold_right Z.mul 1 (firstn k l)))%Z by ring. exact HP.
Qed.

Lemma c08_partial (l : list Z) :
  l <> [] -> Forall (fun d => 0 <= d)%Z l ->
  (forall k, k <= length l -> (fold_right Z.mul 1 (firstn k l) < 2 ^ 63)%Z) ->
  total_size64 l = Ok (fold_right Z.mul 1%Z l).
Proof.
  intros Hne HF HP. unfold total_size64. destruct l as [|d l]; [congruence|].
  rewrite total_size64_ok; auto; try lia.
  - f_equal. ring.
  - intros k Hk. rewrite Z.mul_1_l. auto.
Qed.

Lemma c08_refuted :
  exists l, Forall (fun d => 0 <= d < 2 ^ 63)%Z l /\ fold_right Z.mul 1%Z l = 0%Z /\ total_size64 l = UB.
Proof.
  exists [(2 ^ 32)%Z; (2 ^ 32)%Z; 0%Z]. split; [|split; [reflexivity|vm_compute; reflexivity]].
  repeat constructor; lia.
Qed.

Lemma c07_reshape A (t : tensor A) ds : wf t ->
  (nelem ds = nelem (dims t) ->
     exists u, reshape t ds = Ok u /\ dims u = ds /\ data u = data t /\ wf u /\
       reshape u (dims t) = Ok t /\ reshape_method t ds = Ok u) /\
  (nelem ds <> nelem (dims t) -> reshape t ds = Abort /\ reshape_method t ds = Abort).
Proof.
  intros Hwf. destruct (reshape_spec t ds Hwf) as [H1 H2]. split.
  - intros E. exists (mkT ds (data t)).
    assert (Hu : wf (mkT ds (data t))) by (unfold wf in *; simpl; congruence).
    split; [auto|]. split; [auto|]. split; [auto|]. split; [auto|]. split.
    + destruct (reshape_spec (mkT ds (data t)) (dims t) Hu) as [H3 _].
      rewrite H3 by (simpl; auto). simpl. destruct t; reflexivity.
    + exact (H1 E).
  - intros E. split; [auto|exact (H2 E)].
Qed.

Lemma c07_flatten A (t : tensor A) : wf t ->
  flatten t = Ok (mkT [length (data t)] (data t)).
Proof.
  intros Hwf. unfold flatten. apply reshape_spec; auto. rewrite <- Hwf. simpl. lia.
Qed.

Lemma c06_bijection ds : ds <> [] ->
  (forall ps qs, valid ds ps -> valid ds qs -> lin ds ps = lin ds qs -> ps = qs) /\
  (forall q, q < nelem ds <-> exists ps, valid ds ps /\ lin ds ps = q).
Proof.
  intros Hne. split.
  - intros; eapply lin_inj; eauto.
  - intros q. rewrite nelem_prod by auto. split.
    + apply lin_surj.
    + intros (ps & Hv & <-). apply lin_lt; auto.
Qed.

Lemma c55_refuted : exists ds, Exists (fun d => d < 0)%Z ds /\ new_tensorZ ds = Ok (ds, 0%Z).
Proof. exists [3; -2]%Z. split; [|reflexivity]. right. left. lia. Qed.

Lemma prefix_cons (P : Z -> Prop) a d l :
  (forall k, k <= length (d :: l) -> P (a * fold_right Z.mul 1 (firstn k (d :: l)))%Z) ->
  forall k, k <= length l -> P ((a * d) * fold_right Z.mul 1 (firstn k l))%Z.
Proof. intros H k Hk. specialize (H (S k)). cbn [length firstn fold_right] in H. rewrite <- Z.mul_assoc. apply H. lia. Qed.

(* the loop of total_size64 ends in UB as soon as a product does not fit *)
Lemma total_size64_ub l : forall a, (0 <= a)%Z -> Forall (fun d => 0 <= d)%Z l ->
  (exists k, k <= length l /\ (2 ^ 63 <= a * fold_right Z.mul 1 (firstn k l))%Z) -> (a < 2 ^ 63)%Z ->
  total_size64_loop a l = UB.
Proof.
  induction l as [|d l IH]; intros a Ha HF (k & Hk & HP) Hlt.
  - cbn in Hk. replace k with 0 in HP by lia. cbn [firstn fold_right] in HP. lia.
  - inversion HF; subst. cbn [total_size64_loop]. destruct (Z.ltb_spec d 0); [lia|]. unfold mul64.
    destruct (Z.ltb_spec (a * d) (2 ^ 63)) as [L|L].
    + replace ((- 2 ^ 63 <=? a * d)%Z) with true by (symmetry; apply Z.leb_le; nia). cbn [andb bind].
      apply IH; [nia|auto| |auto]. destruct k as [|k]; [cbn [firstn fold_right] in HP; lia|].
      exists k. cbn [length] in Hk. split; [lia|]. cbn [firstn fold_right] in HP. rewrite <- Z.mul_assoc. auto.
    + rewrite Bool.andb_false_r. reflexivity.
Qed.
Lemma c08_overflow (l : list Z) : Forall (fun d => 0 <= d)%Z l ->
  (exists k, k <= length l /\ (2 ^ 63 <= fold_right Z.mul 1 (firstn k l))%Z) -> total_size64 l = UB /\ new_tensorZ l = UB.
Proof.
  intros HF (k & Hk & HP). assert (E : total_size64 l = UB).
  { unfold total_size64. destruct l as [|d l]; [cbn in Hk; replace k with 0 in HP by lia; cbn [firstn fold_right] in HP; lia|].
    apply total_size64_ub; auto; try lia. exists k. rewrite Z.mul_1_l. auto. }
  split; [auto|]. unfold new_tensorZ. rewrite E. reflexivity.
Qed.

Lemma product64_ok l : forall a,
  (forall k, k <= length l -> (- 2 ^ 63 <= a * fold_right Z.mul 1 (firstn k l) < 2 ^ 63)%Z) ->
  product64 a l = Ok (a * fold_right Z.mul 1 l)%Z.
Proof.
  induction l as [|d l IH]; intros a HP; cbn [product64 fold_right]; [f_equal; ring|].
  assert (H1 := HP 1). cbn [length firstn fold_right] in H1. specialize (H1 ltac:(lia)).
  unfold mul64. replace ((- 2 ^ 63 <=? a * d) && (a * d <? 2 ^ 63))%Z with true by (symmetry; apply andb_true_intro; split; [apply Z.leb_le|apply Z.ltb_lt]; nia).
  cbn [bind]. rewrite IH; [f_equal; ring|]. apply (prefix_cons (fun x => - 2 ^ 63 <= x < 2 ^ 63)%Z); auto.
Qed.
Lemma ints_spec (l : list Z) : l <> [] ->
  (forall k, k <= length l -> (- 2 ^ 63 <= fold_right Z.mul 1 (firstn k l) < 2 ^ 63)%Z) ->
  new_tensor_ints l = if (fold_right Z.mul 1 l <? 0)%Z then Abort else Ok (l, fold_right Z.mul 1%Z l).
Proof.
  intros Hne HP. destruct l as [|d l]; [congruence|]. cbn [new_tensor_ints]. rewrite product64_ok; [reflexivity|].
  intros k Hk. specialize (HP (S k)). cbn [length firstn fold_right] in HP. apply HP. lia.
Qed.
Lemma c08_ints (l : list Z) : l <> [] -> Forall (fun d => 0 <= d)%Z l ->
  (forall k, k <= length l -> (fold_right Z.mul 1 (firstn k l) < 2 ^ 63)%Z) ->
  new_tensorZ l = Ok (l, fold_right Z.mul 1%Z l) /\ new_tensor_ints l = Ok (l, fold_right Z.mul 1%Z l).
Proof.
  intros Hne HF HP. split; [unfold new_tensorZ; rewrite c08_partial; auto|].
  assert (P0 : forall l, Forall (fun d => 0 <= d)%Z l -> (0 <= fold_right Z.mul 1 l)%Z) by (clear; induction 1; cbn [fold_right]; lia).
  rewrite ints_spec; auto.
  - pose proof (P0 _ HF). destruct (Z.ltb_spec (fold_right Z.mul 1%Z l) 0); [lia|auto].
  - intros k Hk. split; [|auto]. assert (0 <= fold_right Z.mul 1 (firstn k l))%Z; [|lia].
    apply P0, Forall_forall. intros x Hx. rewrite Forall_forall in HF. apply HF. rewrite <- (firstn_skipn k). apply in_or_app. auto.
Qed.
Lemma c55_ints_refuted : exists ds, Forall (fun d => d < 0)%Z ds /\ new_tensor_ints ds = Ok (ds, 6%Z).
Proof. exists [-2; -3]%Z. split; [repeat constructor; lia|reflexivity]. Qed.
Lemma c55_ints_odd l : (fold_right Z.mul 1 l < 0)%Z ->
  (forall k, k <= length l -> (- 2 ^ 63 <= fold_right Z.mul 1 (firstn k l) < 2 ^ 63)%Z) -> new_tensor_ints l = Abort.
Proof.
  intros Hn HP. rewrite ints_spec; auto.
  - destruct (Z.ltb_spec (fold_right Z.mul 1%Z l) 0); [auto|lia].
  - intros ->. cbn in Hn. lia.
Qed.

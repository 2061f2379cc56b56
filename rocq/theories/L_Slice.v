From Verif Require Import Base Spec L_Lin M_Tensor L_Tensor M_Range S_Range L_Range.
Local Open Scope Z_scope.

Lemma ordinary_cases d s : ordinary d s ->
  (exists sel, selects d s sel) \/ set_limit (make_range s) (Z.of_nat d) = Abort.
Proof.
  destruct s as [|i|a b st|l]; simpl; intros H.
  - left. eexists; constructor.
  - destruct (Z.ltb_spec i (Z.of_nat d)); [left|right; reflexivity].
    exists [Z.to_nat i]. rewrite <- (Z2Nat.id i) at 1 by lia. constructor. lia.
  - destruct H as [Hab Hst]. destruct (Z.ltb_spec b (Z.of_nat d)); [left|right; reflexivity].
    exists (arith (Z.to_nat a) (Z.to_nat st) ((Z.to_nat b - Z.to_nat a) / Z.to_nat st + 1)).
    assert (HC := sel_step d (Z.to_nat a) (Z.to_nat b) (Z.to_nat st) ltac:(lia) ltac:(lia) ltac:(lia)).
    rewrite !Z2Nat.id in HC by lia. exact HC.
  - destruct (forallb (fun i => i <=? Z.of_nat d) l) eqn:E; [left|right; reflexivity].
    rewrite forallb_forall in E. rewrite Forall_forall in H.
    exists (map Z.to_nat l).
    assert (El : l = map Z.of_nat (map Z.to_nat l)).
    { rewrite map_map. rewrite <- (map_id l) at 1. apply map_ext_in. intros x Hx. specialize (H x Hx). lia. }
    rewrite El at 1. constructor. apply Forall_forall. intros p Hp. apply in_map_iff in Hp.
    destruct Hp as (x & <- & Hx). specialize (H x Hx). specialize (E x Hx). lia.
Qed.

Lemma ordinary_all ds : forall ss, Forall2 ordinary ds ss ->
  (exists sels, selections ds ss sels) \/ set_limits (map make_range ss) ds = Abort.
Proof.
  induction ds as [|d ds IH]; intros ss H; inversion H as [|? s ? ss' H1 H2]; subst.
  - left. exists []. simpl; auto.
  - destruct (IH _ H2) as [(sels & HS)|E].
    + destruct (ordinary_cases _ _ H1) as [(sel & HSel)|E].
      * left. exists (sel :: sels). simpl. auto.
      * right. simpl. rewrite E. reflexivity.
    + destruct (ordinary_cases _ _ H1) as [(sel & HSel)|E'].
      * destruct (Nat.eq_dec d 0) as [->|Hd].
        { right. simpl map. cbn [set_limits].
          destruct (set_limit (make_range s) (Z.of_nat 0)) eqn:Es; simpl; auto.
          - rewrite E. auto.
          - destruct s; simpl in Es; unfold assert_ in Es;
            repeat match type of Es with context [if ?b then _ else _] => destruct b; simpl in Es end; discriminate.
          - destruct s; simpl in Es; unfold assert_ in Es;
            repeat match type of Es with context [if ?b then _ else _] => destruct b; simpl in Es end; discriminate. }
        destruct (make_base d s sel ltac:(lia) HSel) as (r & Er & _).
        right. simpl. rewrite Er. simpl. rewrite E. reflexivity.
      * right. simpl. rewrite E'. reflexivity.
Qed.

Lemma c12_rejects A (t : tensor A) ss junk : wf t ->
  Forall2 ordinary (dims t) ss -> (forall sels, ~ selections (dims t) ss sels) ->
  forall fuel, slice fuel junk t ss = Abort /\
    (forall v, assign_scalar fuel t ss v = Abort) /\ (forall u, assign_tensor fuel t ss u = Abort) /\
    (forall u su, assign_view fuel t ss u su = Abort).
Proof.
  intros Hwf HO HN fuel.
  assert (E : make_view t ss = Abort).
  { destruct ss as [|s [|s2 ss]]; [reflexivity| |].
    - inversion HO as [|d ? ds ? H1 H2 Ed]; subst. inversion H2; subst.
      unfold make_view. unfold wf in Hwf. rewrite <- Ed in Hwf. simpl in Hwf.
      rewrite Hwf, Nat.mul_1_r.
      destruct (ordinary_cases _ _ H1) as [(sel & HSel)|E]; [|rewrite E; reflexivity].
      exfalso. apply (HN [sel]). rewrite <- Ed. simpl. auto.
    - cbn [make_view].
      destruct (length (dims t) =? length (s :: s2 :: ss))%nat; [|reflexivity].
      cbn [assert_ bind].
      destruct (ordinary_all _ _ HO) as [(sels & HS)|E]; [exfalso; eapply HN; eauto|].
      rewrite E. reflexivity. }
  unfold slice, assign_scalar, assign_tensor, assign_view. rewrite E. repeat split.
Qed.

(* wrong number of ranges *)
Lemma c12_rank A (t : tensor A) ss junk : length ss <> length (dims t) -> (length ss <> 1)%nat ->
  forall fuel, slice fuel junk t ss = Abort.
Proof.
  intros H1 H2 fuel. unfold slice. destruct ss as [|s [|s2 ss]]; [reflexivity|simpl in H2; lia|].
  cbn [make_view]. destruct (Nat.eqb_spec (length (dims t)) (length (s :: s2 :: ss))); [lia|]. reflexivity.
Qed.

Lemma hang_pop k : pop k (RProd (RFull 0 1 0 0) (RStep 3 0 0 0 0 0) 0) = Hang.
Proof.
  assert (H : forall k, (k <= S k)%nat) by lia. clear H.
  induction k as [|k IH]; [reflexivity|].
  destruct k as [|k]; [reflexivity|].
  transitivity (pop (S k) (RProd (RFull 0 1 0 0) (RStep 3 0 0 0 0 0) 0)); [reflexivity|exact IH].
Qed.

Lemma c13_hang A (junk : nat -> A) fuel : slice fuel junk (mkT [0;3]%nat []) [SFull; SStep 0 2 1] = Hang.
Proof.
  destruct fuel as [|k]; [reflexivity|].
  transitivity (out' <- read_loop (S k) (S k) [] (RProd (RFull 0 1 0 0) (RStep 3 0 0 0 0 0) 0) (alloc junk 0, O) ;; Ok ([0;3], out')).
  - reflexivity.
  - cbn [read_loop]. rewrite hang_pop. reflexivity.
Qed.

Lemma c13_hangs : exists t : tensor nat, wf t /\ dims t = [0;3]%nat /\
    forall junk fuel, slice fuel junk t [SFull; SStep 0 2 1]%Z = Hang.
Proof. exists (mkT [0;3]%nat []). split; [reflexivity|]. split; [reflexivity|]. intros. apply c13_hang. Qed.

Lemma c13_traps : exists t : tensor nat, wf t /\ dims t = [2;0;2]%nat /\
    forall junk fuel, slice fuel junk t [SFull; SFull; SSingle 0]%Z = UB.
Proof. exists (mkT [2;0;2]%nat []). split; [reflexivity|]. split; [reflexivity|]. intros. reflexivity. Qed.

Lemma c13_negstep : exists t : tensor nat, wf t /\ dims t = [3]%nat /\
    forall junk fuel, (2 <= fuel)%nat -> slice fuel junk t [SStep 2 0 (-1)]%Z = Ok ([3]%Z, [junk 0; junk 1; junk 2]%nat).
Proof.
  exists (mkT [3]%nat [1;2;3]%nat). split; [reflexivity|]. split; [reflexivity|]. intros junk [|[|fuel]] H; try lia.
  reflexivity.
Qed.

Lemma c12_refuted : exists t : tensor nat, wf t /\ dims t = [3]%nat /\
    forall junk fuel, (2 <= fuel)%nat -> slice fuel junk t [SIndex [3]]%Z = UB.
Proof.
  exists (mkT [3]%nat [1;2;3]%nat). split; [reflexivity|]. split; [reflexivity|]. intros junk [|[|fuel]] H; try lia.
  reflexivity.
Qed.

Lemma c11_vector : exists t : tensor nat, wf t /\ coord 3 (-1) 2 /\ dims t = [3]%nat /\
    forall junk fuel, (2 <= fuel)%nat -> slice fuel junk t [SSingle (-1)]%Z = Ok ([1]%Z, [junk 0%nat]).
Proof.
  exists (mkT [3]%nat [1;2;3]%nat). split; [reflexivity|]. split; [split; [lia|right; reflexivity]|].
  split; [reflexivity|]. intros junk [|[|fuel]] H; try lia. reflexivity.
Qed.

Lemma c11_matrix : exists t : tensor nat, wf t /\ dims t = [2;2]%nat /\
    forall junk fuel, (4 <= fuel)%nat -> slice fuel junk t [SFull; SSingle (-1)]%Z = UB.
Proof.
  exists (mkT [2;2]%nat [1;2;3;4]%nat). split; [reflexivity|]. split; [reflexivity|]. intros junk [|[|[|[|fuel]]]] H; try lia.
  reflexivity.
Qed.

Lemma c56_refuted : exists (t : tensor nat) (ss : list rspec),
    wf t /\ selections (dims t) ss [[1;0]]%nat /\ data t = [5;7]%nat /\
    forall fuel, (4 <= fuel)%nat -> assign_self fuel t ss = Ok (mkT [2] [5;5])%nat.
Proof.
  exists (mkT [2] [5;7])%nat, [SIndex [1;0]]. split; [reflexivity|]. split.
  { split; [|exact I]. apply (sel_index 2 [1;0]%nat). repeat constructor. }
  split; [reflexivity|]. intros [|[|[|[|fuel]]]] H; try lia. reflexivity.
Qed.

Lemma c10_number A (t : tensor A) (ss : list rspec) (sels : list (list nat)) :
    wf t -> dims t <> [] -> Forall (fun d => 0 < d)%nat (dims t) -> selections (dims t) ss sels ->
    Forall (@NoDup nat) sels ->
    forall v : A, exists t',
      (wf t' /\ dims t' = dims t /\
       (forall ks ps, picks sels ks ps -> elt t' ps = Some v) /\
       (forall ps, (forall ks, ~ picks sels ks ps) -> elt t' ps = elt t ps)) /\
      exists F, forall fuel, (F <= fuel)%nat -> assign_scalar fuel t ss v = Ok t'.
Proof.
  intros Hwf HN HD HS HU v. destruct (c10_scalar t ss sels Hwf HN HD HS HU v) as (t' & (W1 & W2 & W3 & W4) & HF).
  exists t'. split; auto. split; [auto|]. split; [auto|]. split; [|auto].
  intros ks ps HP. rewrite (W3 ks ps HP). apply nth_repeat. apply lin_lt. eapply picks_valid_ks; eauto.
Qed.

(* ---- full slices of any shape ---- *)
Fixpoint fullp (ds : list Z) (f : Z) (r : rng) {struct ds} : Prop :=
  match ds, r with
  | [d], RFull l f' _ e => l = d /\ f' = f /\ e = d * f
  | d :: ds', RProd (RFull l f' _ e) r2 _ => l = d /\ f' = f /\ e = d * f /\ fullp ds' (f * d) r2
  | _, _ => False
  end.

Lemma fullp_set_factor ds : forall r f g, fullp ds f r -> exists r', set_factor r g = Ok r' /\ fullp ds g r'.
Proof.
  induction ds as [|d ds IH]; intros r f g H; [destruct r; destruct H|].
  destruct ds as [|d2 ds].
  - destruct r; simpl in H; try tauto. 2:{ destruct r1; tauto. }
    destruct H as (-> & -> & ->). simpl. eexists; split; [reflexivity|]. simpl. auto.
  - destruct r as [| | | |r1 r2 b]; try (simpl in H; tauto).
    destruct r1 as [l f' c e| | | |]; try (simpl in H; tauto).
    change (l = d /\ f' = f /\ e = d * f /\ fullp (d2 :: ds) (f * d) r2) in H.
    destruct H as (-> & -> & -> & H).
    destruct (IH _ _ (g * d) H) as (r2' & E & H').
    cbn [set_factor bind get_limit]. rewrite E. cbn [bind]. eexists; split; [reflexivity|].
    cbn [fullp]. auto.
Qed.

Lemma fullp_empty ds : forall f r, fullp ds f r -> f = 0 \/ In 0 ds ->
  exists F, forall fuel, (F <= fuel)%nat -> exists r', reset fuel r = Ok r' /\ pop fuel r' = Ok (nomore, r').
Proof.
  induction ds as [|d ds IH]; intros f r H H0; [destruct r; destruct H|].
  destruct ds as [|d2 ds].
  - destruct r as [l f' c e| | | |r1 r2 b]; simpl in H; try tauto. 2:{ destruct r1; tauto. }
    destruct H as (-> & -> & ->). exists 1%nat. intros [|fuel] HF; [lia|].
    eexists; split; [reflexivity|]. simpl.
    replace (d * f) with 0; [reflexivity|]. simpl in H0. destruct H0 as [->|[->|[]]]; lia.
  - destruct r as [| | | |r1 r2 b]; try (simpl in H; tauto).
    destruct r1 as [l f' c e| | | |]; try (simpl in H; tauto).
    change (l = d /\ f' = f /\ e = d * f /\ fullp (d2 :: ds) (f * d) r2) in H.
    destruct H as (-> & -> & -> & H).
    destruct (IH _ _ H) as [F HF].
    { destruct H0 as [->|[->|H0]]; [left; lia|left; lia|right; exact H0]. }
    exists (S F). intros fuel Hf. destruct (HF fuel ltac:(lia)) as (r2' & Er & Ep).
    unfold reset in *. cbn [reset_with bind]. rewrite Er. cbn [bind]. rewrite Ep. cbn [bind].
    eexists; split; [reflexivity|]. destruct fuel as [|fuel]; [lia|]. reflexivity.
Qed.

Lemma full_limits ds : set_limits (map make_range (map (fun _ : nat => SFull) ds)) ds =
  Ok (map (fun d => RFull (Z.of_nat d) 1 0 (Z.of_nat d * 1)) ds).
Proof.
  induction ds as [|d ds IH]; [reflexivity|]. cbn [map make_range set_limits set_limit].
  destruct (Z.leb_spec 0 (Z.of_nat d)); [|lia]. cbn [assert_ bind]. rewrite IH. reflexivity.
Qed.

Lemma full_product ds : ds <> [] ->
  exists r, product_all (map (fun d => RFull (Z.of_nat d) 1 0 (Z.of_nat d * 1)) ds) = Ok r /\ fullp (map Z.of_nat ds) 1 r.
Proof.
  induction ds as [|d ds IH]; [congruence|]. intros _. destruct ds as [|d2 ds].
  - eexists; split; [reflexivity|]. simpl. auto.
  - destruct IH as (p & Ep & Hp); [congruence|].
    cbn [map]. cbn [map] in Ep.
    match goal with |- context [product_all (?a :: ?b)] => change (product_all (a :: b)) with (p <- product_all b ;; product a p) end.
    rewrite Ep. cbn [bind]. unfold product. cbn [get_factor get_limit].
    destruct (fullp_set_factor _ _ _ (1 * Z.of_nat d) Hp) as (p' & Ep' & Hp').
    rewrite Ep'. cbn [bind]. eexists; split; [reflexivity|]. cbn [map fullp] in *. auto.
Qed.

Lemma full_selections ds : selections ds (map (fun _ => SFull) ds) (map (fun d => seq 0 d) ds).
Proof. induction ds; simpl; auto. split; auto. constructor. Qed.

Lemma full_sizes ds : sizes (map (fun d => seq 0 d) ds) = ds.
Proof. unfold sizes. rewrite map_map. rewrite <- (map_id ds) at 2. apply map_ext. intros; apply seq_length. Qed.

Lemma full_picks ds : forall ks, valid ds ks -> picks (map (fun d => seq 0 d) ds) ks ks.
Proof.
  induction ds as [|d ds IH]; intros ks H; inversion H; subst; simpl; auto.
  split; auto. apply nth_error_seq0; auto.
Qed.

Lemma zero_or_pos (ds : list nat) : In 0%nat ds \/ Forall (fun d => 0 < d)%nat ds.
Proof.
  induction ds as [|d ds [IH|IH]]; [right; constructor|left; right; auto|].
  destruct d; [left; left; auto|right; constructor; auto; lia].
Qed.

Lemma prod_zero ds : In 0%nat ds -> prod ds = 0%nat.
Proof. induction ds as [|d ds IH]; simpl; [tauto|]. intros [->|H]; auto. rewrite IH; auto; lia. Qed.

Lemma c13_full A (t : tensor A) (junk : nat -> A) : wf t -> dims t <> [] ->
  exists F, forall fuel, (F <= fuel)%nat ->
      slice fuel junk t (map (fun _ => SFull) (dims t)) = Ok (map Z.of_nat (dims t), data t).
Proof.
  intros Hwf HN. destruct (zero_or_pos (dims t)) as [HZ|HP].
  - assert (Hd : data t = []).
    { unfold wf in Hwf. rewrite nelem_prod, prod_zero in Hwf by auto. destruct (data t); simpl in Hwf; auto; lia. }
    destruct (full_product (dims t) HN) as (r & Er & Hr).
    destruct (fullp_empty _ _ _ Hr) as [F HF].
    { right. change 0 with (Z.of_nat 0). apply in_map; auto. }
    assert (Ev : make_view t (map (fun _ => SFull) (dims t)) = Ok (map Z.of_nat (dims t), r)).
    { destruct (dims t) as [|d [|d2 ds]] eqn:Ed; [congruence| |].
      - simpl in HZ. destruct HZ as [->|[]]. simpl. rewrite Hd. simpl in Er. inversion Er; subst. reflexivity.
      - cbn [map make_view]. rewrite Ed. cbn [length]. rewrite map_length, Nat.eqb_refl. cbn [assert_ bind].
        assert (El := full_limits (d :: d2 :: ds)). cbn [map make_range] in El. rewrite map_map in El.
        cbn [map make_range]. rewrite map_map. rewrite El. cbn [bind].
        cbn [map] in Er.
        assert (Es : mapM rsize (map (fun d : nat => RFull (Z.of_nat d) 1 0 (Z.of_nat d * 1)) (d :: d2 :: ds)) = Ok (map Z.of_nat (d :: d2 :: ds))).
        { clear. induction (d :: d2 :: ds) as [|x l IH]; [reflexivity|]. cbn [map mapM rsize bind]. rewrite IH. reflexivity. }
        cbn [map] in Es. rewrite Es. cbn [bind]. rewrite Er. reflexivity. }
    exists (S F). intros fuel Hf. unfold slice. rewrite Ev. cbn [bind view_to_tensor].
    destruct (HF fuel ltac:(lia)) as (r' & E1 & E2). rewrite E1. cbn [bind].
    destruct fuel as [|fuel]; [lia|]. cbn [read_loop]. rewrite E2. cbn [bind]. rewrite Z.eqb_refl. cbn [fst bind].
    rewrite total_sizeZ_nat, Nat2Z.id, nelem_prod, prod_zero by auto. rewrite Hd. reflexivity.
  - destruct (c09_slice t _ _ junk Hwf HN HP (full_selections (dims t))) as (u & Hu & Du & Hel & F & HF).
    rewrite full_sizes in Du.
    assert (u = t).
    { apply tensor_ext; auto. split; auto. intros ix Hix. apply Hel. apply full_picks. rewrite <- Du. auto. }
    exists F. intros fuel Hf. rewrite (HF fuel Hf). subst u. reflexivity.
Qed.

(* Proofs about the Fourier transforms. *)
From Verif Require Import Base Spec S_Fold S_Fftw M_Tensor M_Fftw L_Lin L_Tensor L_Fold L_Kron L_BlockSvd.

Section Sums.
Context {A : Type} (N : numops A) (L : numlaws N).

Lemma sum_swap_l m p (f : nat -> nat -> A) : sum_n N m (fun i => sum_n N p (fun j => f i j)) = sum_n N p (fun j => sum_n N m (fun i => f i j)).
Proof.
  induction m as [|m IH]; cbn [sum_n].
  - symmetry. apply (sum_0 N L). reflexivity.
  - rewrite IH, <- (sum_add N L). reflexivity.
Qed.

(* sum over all tuples of indices *)
Fixpoint nsum (ns : list nat) (g : list nat -> A) : A :=
  match ns with [] => g [] | n :: ns => sum_n N n (fun i => nsum ns (fun ix => g (i :: ix))) end.

Lemma nsum_ext ns g h : (forall ix, valid ns ix -> g ix = h ix) -> nsum ns g = nsum ns h.
Proof.
  revert g h. induction ns as [|n ns IH]; intros g h H; cbn [nsum].
  - apply H. constructor.
  - apply sum_ext. intros i Hi. apply IH. intros ix V. apply H. apply valid_cons; auto.
Qed.
Lemma nsum_scal_r ns g x : nmul N (nsum ns g) x = nsum ns (fun ix => nmul N (g ix) x).
Proof.
  revert g. induction ns as [|n ns IH]; intros g; cbn [nsum]; auto.
  rewrite (sum_scal_r N L). apply sum_ext. auto.
Qed.
Lemma nsum_sum ns m (g : list nat -> nat -> A) : nsum ns (fun ix => sum_n N m (g ix)) = sum_n N m (fun i => nsum ns (fun ix => g ix i)).
Proof.
  revert g. induction ns as [|n ns IH]; intros g; cbn [nsum]; auto.
  rewrite <- sum_swap_l. apply sum_ext. intros i _. apply (IH (fun ix => g (i :: ix))).
Qed.
Lemma nsum_app ns ms g : nsum (ns ++ ms) g = nsum ns (fun i => nsum ms (fun j => g (i ++ j))).
Proof. revert g. induction ns as [|n ns IH]; intros g; cbn [nsum app]; auto. apply sum_ext. intros i _. apply (IH (fun ix => g (i :: ix))). Qed.
Lemma nsum_rev ns g : nsum (rev ns) g = nsum ns (fun ix => g (rev ix)).
Proof.
  revert g. induction ns as [|n ns IH]; intros g; cbn [nsum rev]; auto.
  rewrite nsum_app. rewrite IH. cbn [nsum]. rewrite nsum_sum. apply sum_ext. intros i _. reflexivity.
Qed.
Lemma unlin_mix d ds i t : i < d -> unlin (d :: ds) (t * d + i) = i :: unlin ds t.
Proof.
  intros H. cbn [unlin]. rewrite (Nat.add_comm (t * d)), (Nat.mul_comm t).
  rewrite mix_mod, mix_div; auto.
Qed.
Lemma sum_unlin ns g : sum_n N (prod ns) (fun q => g (unlin ns q)) = nsum ns g.
Proof.
  revert g. induction ns as [|d ds IH]; intros g.
  - cbn. rewrite (add_0_l N L). reflexivity.
  - rewrite prod_cons, Nat.mul_comm, (sum_prod N L). rewrite sum_swap_l. cbn [nsum].
    apply sum_ext. intros i Hi. rewrite <- (IH (fun ix => g (i :: ix))). apply sum_ext. intros t _.
    rewrite unlin_mix by auto. reflexivity.
Qed.
End Sums.

Section Guru.
Context {A : Type} (N : numops A) (root : Z -> nat -> A) (L : numlaws N).

Lemma io_count_prod ds : io_count ds = prod (map io_n ds).
Proof. induction ds; cbn; auto. Qed.
Lemma io_index_unlin ds q : io_index ds q = unlin (map io_n ds) q.
Proof. revert q; induction ds; cbn; intros; f_equal; auto. Qed.

(* the phases, from the sizes *)
Fixpoint phase (s : Z) (ns : list nat) (j k : list nat) : A :=
  match ns, j, k with
  | n :: ns, j0 :: j, k0 :: k => nmul N (npow N (root s n) (j0 * k0)) (phase s ns j k)
  | _, _, _ => none_ N
  end.
Lemma io_phase_phase s ds j k : io_phase N root s ds j k = phase s (map io_n ds) j k.
Proof. revert j k; induction ds; intros [|j0 j] [|k0 k]; cbn; f_equal; auto. Qed.
Lemma phase_app s a b j j' k k' : length j = length a -> length k = length a ->
  phase s (a ++ b) (j ++ j') (k ++ k') = nmul N (phase s a j k) (phase s b j' k').
Proof.
  revert j k. induction a as [|x a IH]; intros [|j0 j] [|k0 k]; cbn; intros H1 H2; try discriminate.
  - rewrite (mul_1_l N L). auto.
  - rewrite IH by congruence. rewrite (mul_assoc N L). auto.
Qed.
Lemma phase_rev s ns j k : length j = length ns -> length k = length ns -> phase s (rev ns) (rev j) (rev k) = phase s ns j k.
Proof.
  revert j k. induction ns as [|x a IH]; intros [|j0 j] [|k0 k]; cbn; intros H1 H2; try discriminate; auto.
  rewrite phase_app by (rewrite ?rev_length; congruence). rewrite IH by congruence. cbn.
  rewrite (mul_1_r N L). apply (mul_comm N L).
Qed.

(* writing each place of an array once *)
Lemma scatter n (v : nat -> A) (pos : nat -> nat) (body : nat -> list A -> outcome (list A)) out :
  (forall q out, q < n -> body q out = wr out (pos q) (v q)) ->
  (forall q, q < n -> pos q < length out) ->
  (forall q q', q < n -> q' < n -> pos q = pos q' -> q = q') ->
  exists out', for_ n body out = Ok out' /\ length out' = length out /\
    forall q, q < n -> nth_error out' (pos q) = Some (v q).
Proof.
  intros Hb Hp Hi.
  destruct (for_inv (fun m o => length o = length out /\ forall q, q < m -> nth_error o (pos q) = Some (v q)) n body out) as (o & E & H1 & H2).
  - split; auto. intros; lia.
  - intros i s Hi' (E & H). rewrite Hb by auto. rewrite wr_ok by (rewrite E; auto).
    eexists. split; [reflexivity|]. split; [rewrite length_upd; auto|]. intros q Hq.
    destruct (Nat.eq_dec q i) as [->|Hne].
    + apply nth_error_upd_eq. rewrite E; auto.
    + rewrite nth_error_upd_ne; [apply H; lia|]. intros Ep. apply Hne. apply Hi; auto; lia.
  - exists o. auto.
Qed.

Lemma sum_loop n (f : nat -> A) (body : nat -> A -> outcome A) :
  (forall p s, p < n -> body p s = Ok (nadd N s (f p))) -> for_ n body (nzero N) = Ok (sum_n N n f).
Proof.
  induction n; intros H; [reflexivity|]. rewrite for_S, IHn by (intros; apply H; lia). cbn. apply H. lia.
Qed.

Definition same_strides := Forall (fun d => io_is d = io_os d).
Lemma io_pos_same ds ix : same_strides ds -> io_pos io_is ds ix = io_pos io_os ds ix.
Proof. intros H. revert ix. induction H; intros [|i ix]; cbn; auto; try (rewrite H; auto; rewrite IHForall; auto). Qed.

(* the transform, for a set of dimensions that address each place once *)
Lemma guru_ok ds hs s pin pout : same_strides ds -> same_strides hs -> Forall (fun d => 0 < io_n d) ds ->
  length pout = length pin ->
  let P l k := io_pos io_os hs l + io_pos io_os ds k in
  let nh := map io_n hs in let nd := map io_n ds in
  (forall l k, valid nh l -> valid nd k -> P l k < length pin) ->
  (forall l k l' k', valid nh l -> valid nd k -> valid nh l' -> valid nd k' -> P l k = P l' k' -> l = l' /\ k = k') ->
  exists out, fftw_guru N root ds hs s pin pout = Ok out /\ length out = length pin /\
    forall l k, valid nh l -> valid nd k ->
      nth_error out (P l k) = Some (nsum N nd (fun j => nmul N (dat N pin (P l j)) (phase s nd j k))).
Proof.
  intros Sd Sh Hpos Hlen P nh nd Hlt Hinj.
  unfold fftw_guru.
  replace (existsb (fun d => io_n d =? 0) ds) with false.
  2:{ symmetry. clear -Hpos. induction Hpos; cbn; auto. rewrite IHHpos. replace (io_n x =? 0) with false; auto. symmetry. apply Nat.eqb_neq. lia. }
  rewrite !io_count_prod. fold nh nd.
  set (V := fun l k => nsum N nd (fun j => nmul N (dat N pin (P l j)) (phase s nd j k))).
  rewrite for_nest.
  set (pos := fun q => P (unlin nh (q / prod nd)) (unlin nd (q mod prod nd))).
  set (v := fun q => V (unlin nh (q / prod nd)) (unlin nd (q mod prod nd))).
  assert (Hsp : forall q, q < prod nh * prod nd -> q / prod nd < prod nh /\ q mod prod nd < prod nd).
  { intros q Hq. assert (prod nd <> 0) by (intros E; rewrite E in Hq; lia). split.
    - apply Nat.div_lt_upper_bound; lia.
    - apply Nat.mod_upper_bound; auto. }
  destruct (scatter (prod nh * prod nd) v pos
    (fun q out => (fun h q out => v0 <- for_ (prod nd) (fun p s0 =>
        x <- rd pin (io_pos io_is hs (io_index hs h) + io_pos io_is ds (io_index ds p)) ;;
        Ok (nadd N s0 (nmul N x (io_phase N root s ds (io_index ds p) (io_index ds q))))) (nzero N) ;;
        wr out (io_pos io_os hs (io_index hs h) + io_pos io_os ds (io_index ds q)) v0) (q / prod nd) (q mod prod nd) out) pout)
    as (out & E & El & H).
  - intros q o Hq. apply Hsp in Hq as (H1 & H2). cbv beta.
    rewrite !io_index_unlin. fold nh nd.
    rewrite (sum_loop (prod nd) (fun p => nmul N (dat N pin (P (unlin nh (q / prod nd)) (unlin nd p))) (phase s nd (unlin nd p) (unlin nd (q mod prod nd))))).
    + cbn [bind]. unfold pos. unfold P at 2. f_equal. unfold v, V.
      rewrite <- (sum_unlin N L). reflexivity.
    + intros p a Hp. rewrite !io_index_unlin. fold nd. rewrite io_phase_phase. fold nd.
      rewrite !io_pos_same by auto.
      change (io_pos io_os hs (unlin nh (q / prod nd)) + io_pos io_os ds (unlin nd p)) with (P (unlin nh (q / prod nd)) (unlin nd p)).
      destruct (nth_error_lt pin (P (unlin nh (q / prod nd)) (unlin nd p))) as (x & Ex).
      { apply Hlt; apply unlin_valid; auto. }
      rewrite (rd_ok _ _ _ Ex). cbn. unfold dat. rewrite Ex. reflexivity.
  - intros q Hq. apply Hsp in Hq as (H1 & H2). rewrite Hlen. apply Hlt; apply unlin_valid; auto.
  - intros q q' Hq Hq' Eq. pose proof (Hsp q Hq) as (H1 & H2). pose proof (Hsp q' Hq') as (H3 & H4).
    apply Hinj in Eq as (Ea & Eb); try (apply unlin_valid; auto).
    assert (Ea' : q / prod nd = q' / prod nd) by (rewrite <- (lin_unlin nh (q / prod nd)), <- (lin_unlin nh (q' / prod nd)) by auto; congruence).
    assert (Eb' : q mod prod nd = q' mod prod nd) by (rewrite <- (lin_unlin nd (q mod prod nd)), <- (lin_unlin nd (q' mod prod nd)) by auto; congruence).
    assert (Hz : prod nd <> 0) by lia.
    rewrite (mix_split (prod nd) q Hz), (mix_split (prod nd) q' Hz). congruence.
  - exists out. split; [|split; [congruence|]].
    + exact E.
    + intros l k Vl Vk. set (q := lin nd k + prod nd * lin nh l).
      assert (Hk : lin nd k < prod nd) by (apply lin_lt; auto).
      assert (Hl : lin nh l < prod nh) by (apply lin_lt; auto).
      assert (Hq : q < prod nh * prod nd) by (unfold q; rewrite (Nat.mul_comm (prod nh)); apply mix_lt; auto).
      specialize (H q Hq). unfold pos, v in H. unfold q in H. rewrite mix_div, mix_mod in H by auto.
      rewrite !unlin_lin in H by auto. exact H.
Qed.
End Guru.

(* ---- marked and unmarked dimensions ---- *)
Fixpoint sel {B} (b : bool) (C : list bool) (l : list B) : list B :=
  match C, l with
  | c :: C, x :: l => if Bool.eqb c b then x :: sel b C l else sel b C l
  | _, _ => []
  end.
Fixpoint merge (C : list bool) (l k : list nat) : list nat :=
  match C with
  | [] => []
  | true :: C => match k with x :: k => x :: merge C l k | [] => [] end
  | false :: C => match l with x :: l => x :: merge C l k | [] => [] end
  end.
Fixpoint coll (b : bool) (C : list bool) (D : list nat) (s : nat) : list iodim :=
  match C, D with
  | c :: C, d :: D => if Bool.eqb c b then mkIO d s s :: coll b C D (s * d) else coll b C D (s * d)
  | _, _ => []
  end.
Lemma coll_n b C D s : map io_n (coll b C D s) = sel b C D.
Proof. revert D s; induction C as [|c C IH]; intros [|d D] s; cbn; auto. destruct (Bool.eqb c b); cbn; rewrite IH; auto. Qed.
Lemma coll_same b C D s : same_strides (coll b C D s).
Proof. revert D s; induction C as [|c C IH]; intros [|d D] s; cbn; try constructor. destruct (Bool.eqb c b); [constructor; cbn; auto|]; apply IH. Qed.
Lemma valid_nil_inv ix : valid [] ix -> ix = [].
Proof. intros H. apply valid_length in H. destruct ix; auto; discriminate. Qed.
Lemma valid_cons_inv' d ds ix : valid (d :: ds) ix -> exists i ix', ix = i :: ix' /\ i < d /\ valid ds ix'.
Proof. intros H. destruct ix as [|i ix]; [apply valid_length in H; discriminate|]. exists i, ix. apply valid_cons in H. intuition. Qed.
Lemma merge_valid C D l k : length C = length D -> valid (sel false C D) l -> valid (sel true C D) k -> valid D (merge C l k).
Proof.
  revert D l k. induction C as [|c C IH]; intros [|d D] l k E; cbn; try discriminate; [constructor|].
  destruct c; cbn; intros Hl Hk.
  - apply valid_cons_inv' in Hk as (i & k' & -> & Hi & Hk). apply valid_cons. split; auto.
  - apply valid_cons_inv' in Hl as (i & k' & -> & Hi & Hl). apply valid_cons. split; auto.
Qed.
Lemma sel_merge C D l k : length C = length D -> valid (sel false C D) l -> valid (sel true C D) k ->
  sel false C (merge C l k) = l /\ sel true C (merge C l k) = k.
Proof.
  revert D l k. induction C as [|c C IH]; intros [|d D] l k E; cbn; try discriminate.
  { intros H1%valid_nil_inv H2%valid_nil_inv. auto. }
  destruct c; cbn; intros Hl Hk.
  - apply valid_cons_inv' in Hk as (i & k' & -> & Hi & Hk). cbn. destruct (IH D l k') as (E1 & E2); auto. rewrite E2. auto.
  - apply valid_cons_inv' in Hl as (i & k' & -> & Hi & Hl). cbn. destruct (IH D k' k) as (E1 & E2); auto. rewrite E1. auto.
Qed.
Lemma sel_valid b C D ix : valid D ix -> valid (sel b C D) (sel b C ix).
Proof.
  revert D ix. induction C as [|c C IH]; intros [|d D] ix; cbn; try constructor.
  - intros H%valid_nil_inv. subst. constructor.
  - intros H. apply valid_cons_inv' in H as (i & k' & -> & Hi & Hk). destruct (Bool.eqb c b); auto. apply valid_cons; auto.
Qed.
Lemma merge_sel C (ix : list nat) : length C = length ix -> merge C (sel false C ix) (sel true C ix) = ix.
Proof. revert ix. induction C as [|c C IH]; intros [|i ix] E; cbn; try discriminate; auto. destruct c; cbn; rewrite IH by (cbn in E; congruence); auto. Qed.
Lemma coll_pos C D s l k : length C = length D -> valid (sel false C D) l -> valid (sel true C D) k ->
  io_pos io_os (coll false C D s) l + io_pos io_os (coll true C D s) k = s * lin D (merge C l k).
Proof.
  revert D s l k. induction C as [|c C IH]; intros [|d D] s l k E; cbn; try discriminate; [lia|].
  destruct c; cbn; intros Hl Hk.
  - apply valid_cons_inv' in Hk as (i & k' & -> & Hi & Hk). cbn. specialize (IH D (s * d) l k').
    assert (length C = length D) by (cbn in E; congruence). specialize (IH H Hl Hk). nia.
  - apply valid_cons_inv' in Hl as (i & k' & -> & Hi & Hl). cbn. specialize (IH D (s * d) k' k).
    assert (length C = length D) by (cbn in E; congruence). specialize (IH H Hl Hk). nia.
Qed.
Lemma coll_snoc b C D s c d : length C = length D ->
  coll b (C ++ [c]) (D ++ [d]) s = coll b C D s ++ (if Bool.eqb c b then [mkIO d (s * prod D) (s * prod D)] else []).
Proof.
  revert D s. induction C as [|x C IH]; intros [|y D] s E; cbn [coll app]; try discriminate.
  - cbn. rewrite Nat.mul_1_r. destruct (Bool.eqb c b); auto.
  - rewrite IH by (cbn in E; congruence). rewrite prod_cons, Nat.mul_assoc. destruct (Bool.eqb x b); auto.
Qed.
Lemma sel_pos C D : (forall i, nth_error C i = Some true -> nth_error D i <> Some 0) -> Forall (fun n => 0 < n) (sel true C D).
Proof.
  revert D. induction C as [|c C IH]; intros [|d D] H; cbn; try constructor.
  destruct c; cbn.
  - constructor; [specialize (H 0 eq_refl); cbn in H; destruct d; [congruence|lia]|]. apply IH. intros i Hi. apply (H (S i)). auto.
  - apply IH. intros i Hi. apply (H (S i)). auto.
Qed.

Section Dft.
Context {A : Type} (N : numops A) (root : Z -> nat -> A) (L : numlaws N).

Lemma dft_nsum s C D f ix : length C = length D -> valid D ix ->
  dft N (root s) D C f ix = nsum N (sel true C D) (fun j => nmul N (f (merge C (sel false C ix) j)) (phase N root s (sel true C D) j (sel true C ix))).
Proof.
  revert D f ix. induction C as [|c C IH]; intros [|d D] f ix E V; try discriminate.
  - apply valid_nil_inv in V. subst. cbn. rewrite (mul_1_r N L). auto.
  - apply valid_cons_inv' in V as (i & k & -> & Hi & V). cbn in E. destruct c; cbn [dft sel Bool.eqb merge nsum].
    + apply sum_ext. intros j Hj. rewrite IH by (auto; congruence). rewrite (nsum_scal_r N L). apply nsum_ext. intros jx Vj.
      cbn [phase]. rewrite <- (mul_assoc N L). f_equal. apply (mul_comm N L).
    + rewrite IH by (auto; congruence). reflexivity.
Qed.

Lemma guru_marked C D s pin pout : length C = length D -> length pin = prod D -> length pout = length pin ->
  (forall i, nth_error C i = Some true -> nth_error D i <> Some 0) ->
  exists out, fftw_guru N root (coll true C D 1) (coll false C D 1) s pin pout = Ok out /\ length out = prod D /\
    forall ix, valid D ix -> nth_error out (lin D ix) = Some (dft N (root s) D C (fun jx => dat N pin (lin D jx)) ix).
Proof.
  intros EC Ep Eo Hz.
  destruct (guru_ok N root L (coll true C D 1) (coll false C D 1) s pin pout) as (out & E & El & H);
    rewrite ?coll_n; auto using coll_same.
  - apply Forall_map with (f := io_n) (P := fun n => 0 < n). rewrite coll_n. apply sel_pos. auto.
  - intros l k Vl Vk. rewrite coll_pos, Nat.mul_1_l, Ep by auto. apply lin_lt. apply merge_valid; auto.
  - intros l k l' k' Vl Vk Vl' Vk'. rewrite !coll_pos, !Nat.mul_1_l by auto. intros Eq.
    apply lin_inj in Eq; try (apply merge_valid; auto).
    destruct (sel_merge C D l k) as (E1 & E2); auto. destruct (sel_merge C D l' k') as (E3 & E4); auto.
    rewrite Eq in E1, E2. split; congruence.
  - exists out. split; auto. split; [congruence|]. intros ix V. rewrite !coll_n in H.
    specialize (H (sel false C ix) (sel true C ix) (sel_valid _ _ _ _ V) (sel_valid _ _ _ _ V)).
    rewrite coll_pos, Nat.mul_1_l, merge_sel in H by (auto using sel_valid; rewrite EC; symmetry; apply (valid_length _ _ V)).
    rewrite H. f_equal. rewrite dft_nsum by auto. apply nsum_ext. intros j Vj. f_equal.
    rewrite coll_pos, Nat.mul_1_l by auto using sel_valid. reflexivity.
Qed.

(* ---- the three sets of dimensions ---- *)
Context (jdims : nat -> nat) (jio : nat -> iodim).

Lemma firstn_S_nth {B} (l : list B) i x : nth_error l i = Some x -> firstn (S i) l = firstn i l ++ [x].
Proof.
  revert i. induction l as [|y l IH]; intros [|i]; cbn; try discriminate.
  - intros [= ->]. auto.
  - intros H. f_equal. rewrite <- IH; auto.
Qed.
Lemma firstn_upd_snoc {B} (l : list B) n x : n < length l -> firstn (S n) (upd l n x) = firstn n l ++ [x].
Proof.
  revert n. induction l as [|y l IH]; intros [|n] H; cbn in *; try lia; auto. f_equal. rewrite <- IH by lia. reflexivity.
Qed.
Lemma coll_length b C D s : length (coll b C D s) <= length D.
Proof. revert D s. induction C as [|c C IH]; intros [|d D] s; cbn; try lia. specialize (IH D (s * d)). destruct (Bool.eqb c b); cbn; lia. Qed.

Lemma do_fftw_some_guru C D s pin pout : length C = length D ->
  do_fftw_some N root jio pin pout C D s = fftw_guru N root (coll true C D 1) (coll false C D 1) s pin pout.
Proof.
  intros EC. unfold do_fftw_some.
  match goal with |- context [for_ ?n ?f ?s0] =>
    destruct (for_inv (fun i '(fd, fs, ld, ls, st) => length fd = length D /\ length ld = length D /\ st = prod (firstn i D) /\
      fs = length (coll true (firstn i C) (firstn i D) 1) /\ ls = length (coll false (firstn i C) (firstn i D) 1) /\
      firstn fs fd = coll true (firstn i C) (firstn i D) 1 /\ firstn ls ld = coll false (firstn i C) (firstn i D) 1) n f s0) as ((((( fd & fs) & ld) & ls) & st) & E & H) end.
  - unfold alloc. rewrite !map_length, !seq_length. cbn. auto 10.
  - intros i ((((fd & fs) & ld) & ls) & st) Hi (H1 & H2 & -> & H4 & H5 & H6 & H7).
    destruct (nth_error_lt C i) as (c & Ec); [lia|]. destruct (nth_error_lt D i) as (d & Ed); [lia|].
    rewrite (rd_ok _ _ _ Ec), (rd_ok _ _ _ Ed). cbn [bind].
    assert (Lf : length (firstn i C) = length (firstn i D)) by (rewrite !firstn_length; lia).
    pose proof (coll_length true (firstn i C) (firstn i D) 1) as B1. pose proof (coll_length false (firstn i C) (firstn i D) 1) as B2.
    rewrite (firstn_length_le D) in B1, B2 by lia.
    assert (Pd : prod (firstn (S i) D) = prod (firstn i D) * d) by (rewrite (firstn_S_nth _ _ _ Ed), prod_app; cbn; lia).
    assert (C1 := coll_snoc true _ _ 1 c d Lf). assert (C2 := coll_snoc false _ _ 1 c d Lf).
    rewrite <- (firstn_S_nth _ _ _ Ec), <- (firstn_S_nth _ _ _ Ed), Nat.mul_1_l in C1, C2.
    destruct c; cbn [Bool.eqb] in C1, C2.
    + rewrite wr_ok by lia. cbn [bind]. eexists. split; [reflexivity|]. cbv beta iota.
      rewrite length_upd, Pd, C1, C2, !app_nil_r, app_length, <- H4. cbn [length]. repeat split; auto; try lia.
      rewrite firstn_upd_snoc by lia. congruence.
    + rewrite wr_ok by lia. cbn [bind]. eexists. split; [reflexivity|]. cbv beta iota.
      rewrite length_upd, Pd, C1, C2, !app_nil_r, app_length, <- H5. cbn [length]. repeat split; auto; try lia.
      rewrite firstn_upd_snoc by lia. congruence.
  - rewrite E. cbn [bind]. destruct H as (_ & _ & _ & _ & _ & -> & ->).
    rewrite !firstn_all2 by lia. reflexivity.
Qed.

(* all the places of a list of dimensions *)
Definition marks (dim n : nat) : list bool := map (Nat.eqb dim) (seq 0 n).
Lemma marks_length dim n : length (marks dim n) = n. Proof. unfold marks. rewrite map_length, seq_length. auto. Qed.
Lemma marks_nth dim n i : i < n -> nth_error (marks dim n) i = Some (dim =? i).
Proof. intros H. unfold marks. rewrite nth_error_map_seq by auto. auto. Qed.
Lemma coll_false_length C D s i : (forall j, j < i -> nth_error C j = Some false) -> i <= length D ->
  length (coll false (firstn i C) (firstn i D) s) = i.
Proof.
  revert D s i. induction C as [|c C IH]; intros D s [|i] H Hi; cbn; auto.
  - specialize (H 0 ltac:(lia)). discriminate.
  - destruct D as [|d D]; cbn in *; [lia|]. assert (c = false) as -> by (specialize (H 0 ltac:(lia)); cbn in H; congruence).
    cbn. f_equal. apply IH; [|lia]. intros j Hj. apply (H (S j)). lia.
Qed.

Lemma do_fftw_dim_guru dim D s pin pout : dim < length D ->
  do_fftw_dim N root jio pin pout dim D s =
  fftw_guru N root (coll true (marks dim (length D)) D 1) (coll false (marks dim (length D)) D 1) s pin pout.
Proof.
  intros Hd. unfold do_fftw_dim. set (C := marks dim (length D)).
  assert (EC : length C = length D) by apply marks_length.
  assert (HC : forall i, i < length D -> nth_error C i = Some (dim =? i)) by (intros; apply marks_nth; auto).
  set (I := fun i '((ld, st) : list iodim * nat) => length ld = length D - 1 /\ st = prod (firstn i D) /\
     firstn (if i <=? dim then i else i - 1) ld = coll false (firstn i C) (firstn i D) 1).
  assert (T : forall i, i <= length D -> coll true (firstn i C) (firstn i D) 1 = if i <=? dim then [] else
              [mkIO (nth dim D 0) (prod (firstn dim D)) (prod (firstn dim D))]).
  { induction i as [|i IH]; intros Hi; [destruct dim; reflexivity|].
    destruct (nth_error_lt D i) as (d & Ed); [lia|].
    rewrite (firstn_S_nth _ _ _ (HC i ltac:(lia))), (firstn_S_nth _ _ _ Ed).
    rewrite coll_snoc by (rewrite !firstn_length; lia). rewrite IH by lia. rewrite Nat.mul_1_l.
    destruct (Nat.eqb_spec dim i) as [->|Hne]; cbn [Bool.eqb].
    - replace (i <=? i) with true by lia. replace (S i <=? i) with false by lia. cbn.
      rewrite (nth_error_nth D i 0 Ed). reflexivity.
    - rewrite app_nil_r. destruct (i <=? dim) eqn:E1; destruct (S i <=? dim) eqn:E2; auto; lia. }
  assert (F : forall i d, i < length D -> nth_error D i = Some d -> coll false (firstn (S i) C) (firstn (S i) D) 1 =
              coll false (firstn i C) (firstn i D) 1 ++ if dim =? i then [] else [mkIO d (prod (firstn i D)) (prod (firstn i D))]).
  { intros i d Hi Ed. rewrite (firstn_S_nth _ _ _ (HC i ltac:(lia))), (firstn_S_nth _ _ _ Ed).
    rewrite coll_snoc by (rewrite !firstn_length; lia). rewrite Nat.mul_1_l. destruct (dim =? i); reflexivity. }
  assert (Pd : forall i d, nth_error D i = Some d -> prod (firstn (S i) D) = prod (firstn i D) * d).
  { intros i d Ed. rewrite (firstn_S_nth _ _ _ Ed), prod_app; cbn; lia. }
  match goal with |- context [for_ dim ?f ?s0] => destruct (for_inv I dim f s0) as ((ld & st) & E & H) end.
  - unfold I, alloc. rewrite map_length, seq_length. cbn. destruct (0 <=? dim); auto.
  - intros i (ld & st) Hi (H1 & -> & H3). destruct (nth_error_lt D i) as (d & Ed); [lia|].
    rewrite (rd_ok _ _ _ Ed). cbn [bind]. rewrite wr_ok by lia. cbn [bind]. eexists. split; [reflexivity|].
    unfold I. rewrite length_upd, (Pd _ _ Ed), (F i d) by (auto; lia). repeat split; auto.
    replace (S i <=? dim) with true by lia. replace (i <=? dim) with true in H3 by lia. replace (dim =? i) with false by lia.
    rewrite firstn_upd_snoc by lia. congruence.
  - rewrite E. cbn [bind]. destruct H as (H1 & -> & H3). replace (dim <=? dim) with true in H3 by lia.
    destruct (nth_error_lt D dim) as (d & Ed); [lia|]. rewrite (rd_ok _ _ _ Ed). cbn [bind].
    match goal with |- context [for_ ?n ?f ?s0] => destruct (for_inv (fun i => I (dim + 1 + i)) n f s0) as ((ld2 & st2) & E2 & H2) end.
    + unfold I. replace (dim + 1 + 0) with (S dim) by lia. rewrite (Pd _ _ Ed), (F dim d) by auto.
      replace (S dim <=? dim) with false by lia. replace (S dim - 1) with dim by lia. rewrite Nat.eqb_refl, app_nil_r. auto.
    + intros i (l2 & st2) Hi (G1 & -> & G3). destruct (nth_error_lt D (dim + 1 + i)) as (d2 & Ed2); [lia|].
      rewrite (rd_ok _ _ _ Ed2). cbn [bind]. rewrite wr_ok by lia. cbn [bind]. eexists. split; [reflexivity|].
      unfold I. replace (dim + 1 + S i) with (S (dim + 1 + i)) by lia. rewrite length_upd, (Pd _ _ Ed2), (F _ d2) by (auto; lia).
      repeat split; auto.
      replace (S (dim + 1 + i) <=? dim) with false by lia. replace (dim + 1 + i <=? dim) with false in G3 by lia.
      replace (dim =? dim + 1 + i) with false by lia.
      replace (S (dim + 1 + i) - 1) with (S (dim + 1 + i - 1)) by lia. rewrite firstn_upd_snoc by lia. congruence.
    + rewrite E2. cbn [bind]. destruct H2 as (G1 & _ & G3). replace (dim + 1 + (length D - (dim + 1))) with (length D) in G3 by lia.
      replace (length D <=? dim) with false in G3 by lia. rewrite !firstn_all2 in G3 by lia. subst ld2.
      specialize (T (length D) ltac:(lia)). rewrite !firstn_all2 in T by lia. replace (length D <=? dim) with false in T by lia.
      rewrite T. rewrite (nth_error_nth D dim 0 Ed). reflexivity.
Qed.

Lemma row_major_n n : map io_n (row_major n) = n.
Proof. induction n; cbn; f_equal; auto. Qed.
Lemma row_major_same n : same_strides (row_major n).
Proof. induction n; cbn; constructor; auto. Qed.
Lemma row_major_pos n k : valid n k -> io_pos io_os (row_major n) k = lin (rev n) (rev k).
Proof.
  revert k. induction n as [|d n IH]; intros k V.
  - apply valid_nil_inv in V. subst. reflexivity.
  - apply valid_cons_inv' in V as (i & k' & -> & Hi & V). cbn [row_major io_pos rev io_os]. rewrite IH by auto.
    rewrite lin_app by (rewrite !rev_length; apply (valid_length _ _ V)).
    assert (prod (rev n) = prod n) as ->.
    { clear. induction n; cbn [rev]; auto. rewrite prod_app, IHn, !prod_cons. change (prod []) with 1. lia. }
    cbn [lin]. nia.
Qed.
Lemma valid_rev D k : valid D k -> valid (rev D) (rev k).
Proof.
  revert k. induction D as [|d n IH]; intros k V.
  - apply valid_nil_inv in V. subst. constructor.
  - apply valid_cons_inv' in V as (i & k' & -> & Hi & V). cbn [rev]. apply valid_app; [rewrite !rev_length; apply (valid_length _ _ V)|].
    split; auto. apply valid_cons. split; auto. constructor.
Qed.
Lemma sel_all {B} (C : list bool) (l : list B) : length C = length l -> Forall (eq true) C -> sel true C l = l /\ sel false C l = [].
Proof. intros E H. revert l E. induction H; intros [|y l0] E; try discriminate; cbn; auto. subst. cbn. destruct (IHForall l0) as (-> & ->); auto. Qed.
Lemma merge_all C k : length C = length k -> Forall (eq true) C -> merge C [] k = k.
Proof. intros E H. revert k E. induction H; intros [|y l0] E; try discriminate; cbn; auto. subst. rewrite IHForall; auto. Qed.

Lemma fftw_dft_rev D s pin pout : length pin = prod D -> length pout = length pin -> Forall (fun d => 0 < d) D ->
  exists out, fftw_dft N root (rev D) s pin pout = Ok out /\ length out = prod D /\
    forall ix, valid D ix -> nth_error out (lin D ix) = Some (dft N (root s) D (repeat true (length D)) (fun jx => dat N pin (lin D jx)) ix).
Proof.
  intros Ep Eo Hz. unfold fftw_dft.
  assert (Hp : forall k, valid (rev D) k -> io_pos io_os [] [] + io_pos io_os (row_major (rev D)) k = lin D (rev k)).
  { intros k V. rewrite row_major_pos, rev_involutive by auto. reflexivity. }
  destruct (guru_ok N root L (row_major (rev D)) [] s pin pout) as (out & E & El & H);
    rewrite ?row_major_n; auto using row_major_same; try constructor.
  - apply Forall_map with (f := io_n) (P := fun n => 0 < n). rewrite row_major_n. apply Forall_rev. auto.
  - intros l k Vl%valid_nil_inv Vk. subst. rewrite Hp, Ep by auto. apply lin_lt. apply valid_rev in Vk. rewrite rev_involutive in Vk. auto.
  - apply valid_nil_inv in H, H1. congruence.
  - apply valid_nil_inv in H, H1. subst. rewrite !Hp in H3 by auto. apply valid_rev in H0, H2. rewrite rev_involutive in *.
    apply lin_inj in H3; auto. rewrite <- (rev_involutive k), <- (rev_involutive k'). congruence.
  - exists out. split; auto. split; [congruence|]. intros ix V.
    assert (V' := valid_rev _ _ V). specialize (H [] (rev ix) ltac:(constructor)). rewrite row_major_n in H. specialize (H V').
    rewrite Hp, rev_involutive in H by auto. rewrite H. f_equal.
    set (C := repeat true (length D)).
    assert (HC : Forall (eq true) C). { apply Forall_forall. intros x Hx. apply repeat_spec in Hx. auto. }
    assert (EC : length C = length D) by apply repeat_length.
    rewrite dft_nsum by auto.
    destruct (sel_all C D) as (-> & _); auto. destruct (sel_all C ix) as (-> & ->); auto; [rewrite EC; symmetry; apply (valid_length _ _ V)|].
    rewrite nsum_rev by auto. apply nsum_ext. intros j Vj. rewrite merge_all by (auto; rewrite EC; symmetry; apply (valid_length _ _ Vj)).
    rewrite Hp, rev_involutive by (apply valid_rev; auto). f_equal. apply phase_rev; auto; [apply (valid_length _ _ Vj)|apply (valid_length _ _ V)].
Qed.

Lemma do_fftw_all_dft D s pin pout : do_fftw_all N root jdims pin pout D s = fftw_dft N root (rev D) s pin pout.
Proof.
  unfold do_fftw_all. destruct (Nat.eqb_spec (length D) 1) as [H|H].
  - destruct D as [|d [|]]; try discriminate. reflexivity.
  - match goal with |- context [for_ ?n ?f ?s0] =>
      destruct (for_inv (fun i l => length l = length D /\ forall j, j < i -> nth_error l (length D - j - 1) = nth_error D j) n f s0) as (l & E & H1 & H2) end.
    + unfold alloc. rewrite map_length, seq_length. split; auto. intros; lia.
    + intros i l Hi (H1 & H2). destruct (nth_error_lt D i) as (d & Ed); auto. rewrite (rd_ok _ _ _ Ed). cbn [bind].
      rewrite wr_ok by lia. eexists. split; [reflexivity|]. rewrite length_upd. split; auto. intros j Hj.
      destruct (Nat.eq_dec j i) as [->|Hne].
      * rewrite nth_error_upd_eq by lia. congruence.
      * rewrite nth_error_upd_ne by lia. apply H2. lia.
    + rewrite E. cbn [bind]. f_equal. apply list_eq_nth_len; [rewrite rev_length; auto|].
      intros q Hq. specialize (H2 (length D - q - 1) ltac:(lia)). replace (length D - (length D - q - 1) - 1) with q in H2 by lia.
      rewrite H2. rewrite H1 in Hq. clear -Hq. 
      destruct (nth_error_lt D (length D - q - 1)) as (d & Ed); [lia|]. rewrite Ed. symmetry.
      rewrite nth_error_nth' with (d := 0) by (rewrite rev_length; lia). rewrite rev_nth by lia.
      replace (length D - S q) with (length D - q - 1) by lia. rewrite (nth_error_nth _ _ _ Ed). reflexivity.
Qed.
End Dft.

(* ---- tensors ---- *)
Section Tensors.
Context {A : Type} (N : numops A) (root : Z -> nat -> A) (L : numlaws N) (jdims : nat -> nat) (jio : nat -> iodim) (junk : nat -> A).

Definition is_dft (s : Z) (C : list bool) (t r : tensor A) : Prop := transform_of N (root s) C t r.

Lemma dft_ext w D C f g k : (forall ix, valid D ix -> f ix = g ix) -> length C = length D -> valid D k ->
  dft N w D C f k = dft N w D C g k.
Proof.
  revert C f g k. induction D as [|d D IH]; intros [|c C] f g k H E V; try discriminate.
  - cbn. apply H. constructor.
  - apply valid_cons_inv' in V as (i & k' & -> & Hi & V). destruct c; cbn [dft].
    + apply sum_ext. intros j Hj. f_equal. apply IH; auto. intros ix Vx. apply H. apply valid_cons; auto.
    + apply IH; auto. intros ix Vx. apply H. apply valid_cons; auto.
Qed.
Lemma dat_val t jx : dims t <> [] -> valid (dims t) jx -> dat N (data t) (lin (dims t) jx) = val N t jx.
Proof. intros _ V. unfold dat, val. rewrite elt_valid by auto. reflexivity. Qed.
Lemma wrap_ok s C t out : wf t -> dims t <> [] -> length C = length (dims t) -> length out = prod (dims t) ->
  (forall ix, valid (dims t) ix -> nth_error out (lin (dims t) ix) = Some (dft N (root s) (dims t) C (fun jx => dat N (data t) (lin (dims t) jx)) ix)) ->
  is_dft s C t (mkT (dims t) out).
Proof.
  intros W Hd EC El H. repeat split; cbn [dims].
  - unfold wf in *. cbn [data dims]. rewrite El. symmetry. apply nelem_prod; auto.
  - intros ix V. rewrite elt_valid by auto. cbn [data dims]. rewrite H by auto. f_equal. apply dft_ext; auto.
    intros jx Vj. apply dat_val; auto.
Qed.
Lemma wf_prod (t : tensor A) : wf t -> dims t <> [] -> length (data t) = prod (dims t).
Proof. intros W H. rewrite <- nelem_prod by auto. exact W. Qed.
Lemma new_prod D : D <> [] -> length (data (new_tensor junk D)) = prod D.
Proof. intros H. assert (W := new_tensor_wf junk D). change D with (dims (new_tensor junk D)) at 2. apply wf_prod; auto. Qed.

Lemma some_ok' s C t : wf t -> dims t <> [] -> length C = length (dims t) ->
  (forall i, nth_error C i = Some true -> nth_error (dims t) i <> Some 0) ->
  (exists r, fftw_some N root jio junk t C s = Ok r /\ is_dft s C t r) /\
  (exists r, fftw_inplace_some N root jio t C s = Ok r /\ is_dft s C t r).
Proof.
  intros W Hd EC Hz. pose proof (wf_prod t W Hd) as Wp. pose proof (new_prod (dims t) Hd) as Wn.
  unfold fftw_some, fftw_inplace_some. rewrite EC, Nat.eqb_refl. cbn [bind assert_].
  rewrite !do_fftw_some_guru by auto. split.
  - destruct (guru_marked N root L C (dims t) s (data t) (data (new_tensor junk (dims t)))) as (out & E & El & H); auto; [congruence|].
    rewrite E. cbn [bind]. eexists. split; [reflexivity|]. apply wrap_ok; auto.
  - destruct (guru_marked N root L C (dims t) s (data t) (data t)) as (out & E & El & H); auto.
    rewrite E. cbn [bind]. eexists. split; [reflexivity|]. apply wrap_ok; auto.
Qed.
Lemma dim_ok' s d t : wf t -> d < length (dims t) -> nth_error (dims t) d <> Some 0 ->
  (exists r, fftw_dim N root jio junk t (Z.of_nat d) s = Ok r /\ is_dft s (marks d (length (dims t))) t r) /\
  (exists r, fftw_inplace_dim N root jio t (Z.of_nat d) s = Ok r /\ is_dft s (marks d (length (dims t))) t r).
Proof.
  intros W Hd Hz. assert (Hn : dims t <> []) by (intros E; rewrite E in Hd; cbn in Hd; lia).
  pose proof (wf_prod t W Hn) as Wp. pose proof (new_prod (dims t) Hn) as Wn.
  unfold fftw_dim, fftw_inplace_dim. replace ((0 <=? Z.of_nat d) && (Z.of_nat d <? Z.of_nat (length (dims t))))%Z with true by lia.
  cbn [bind assert_]. rewrite !Nat2Z.id, !do_fftw_dim_guru by auto.
  assert (Hz' : forall i, nth_error (marks d (length (dims t))) i = Some true -> nth_error (dims t) i <> Some 0).
  { intros i Hi. assert (i < length (dims t)) by (apply nth_error_lt_inv in Hi; rewrite marks_length in Hi; auto).
    rewrite marks_nth in Hi by auto. assert (d = i) as <- by (injection Hi; intros; lia). auto. }
  split.
  - destruct (guru_marked N root L (marks d (length (dims t))) (dims t) s (data t) (data (new_tensor junk (dims t)))) as (out & E & El & H); auto; [apply marks_length|congruence|].
    rewrite E. cbn [bind]. eexists. split; [reflexivity|]. apply wrap_ok; auto. apply marks_length.
  - destruct (guru_marked N root L (marks d (length (dims t))) (dims t) s (data t) (data t)) as (out & E & El & H); auto; [apply marks_length|].
    rewrite E. cbn [bind]. eexists. split; [reflexivity|]. apply wrap_ok; auto. apply marks_length.
Qed.
Lemma all_ok' s t : wf t -> dims t <> [] -> Forall (fun d => 0 < d) (dims t) ->
  (exists r, fftw_all N root jdims junk t s = Ok r /\ is_dft s (repeat true (length (dims t))) t r) /\
  (exists r, fftw_inplace_all N root jdims t s = Ok r /\ is_dft s (repeat true (length (dims t))) t r).
Proof.
  intros W Hn Hz. pose proof (wf_prod t W Hn) as Wp. pose proof (new_prod (dims t) Hn) as Wn.
  unfold fftw_all, fftw_inplace_all. rewrite !do_fftw_all_dft by exact jio. split.
  - destruct (fftw_dft_rev N root L jdims jio (dims t) s (data t) (data (new_tensor junk (dims t)))) as (out & E & El & H); auto; [congruence|].
    rewrite E. cbn [bind]. eexists. split; [reflexivity|]. apply wrap_ok; auto. apply repeat_length.
  - destruct (fftw_dft_rev N root L jdims jio (dims t) s (data t) (data t)) as (out & E & El & H); auto.
    rewrite E. cbn [bind]. eexists. split; [reflexivity|]. apply wrap_ok; auto. apply repeat_length.
Qed.

(* ---- the inverse ---- *)
Notation "x * y" := (nmul N x y). Notation "x ^ n" := (npow N x n). Notation "1" := (none_ N).
Lemma npow_add x a b : x ^ (a + b) = (x ^ a) * (x ^ b).
Proof. induction a; cbn [npow Nat.add]; [rewrite (mul_1_l N L); auto|]. rewrite IHa, (mul_assoc N L). auto. Qed.
Lemma npow_1 n : 1 ^ n = 1.
Proof. induction n; cbn [npow]; auto. rewrite IHn. apply (mul_1_l N L). Qed.
Lemma npow_mulbase x y n : (x * y) ^ n = (x ^ n) * (y ^ n).
Proof.
  induction n; cbn [npow]; [rewrite (mul_1_l N L); auto|]. rewrite IHn.
  rewrite <- !(mul_assoc N L). f_equal. rewrite !(mul_assoc N L). f_equal. apply (mul_comm N L).
Qed.
Lemma npow_mul x a b : x ^ (a * b)%nat = (x ^ a) ^ b.
Proof.
  induction b; [rewrite Nat.mul_0_r; reflexivity|]. rewrite Nat.mul_succ_r, Nat.add_comm, npow_add, IHb. reflexivity.
Qed.
Lemma roots_pow n w w' m : inverse_roots N n w w' -> m <= n -> w' ^ m = w ^ (n - m).
Proof.
  intros (H1 & H2 & _) Hm.
  assert (E : (w ^ m) * (w' ^ m) = 1) by (rewrite <- npow_mulbase, H2; apply npow_1).
  rewrite <- (mul_1_l N L (w' ^ m)). rewrite <- H1 at 1. replace n with (n - m + m)%nat at 1 by lia. rewrite npow_add.
  rewrite <- (mul_assoc N L), E. apply (mul_1_r N L).
Qed.
Lemma orth n w w' i k : inverse_roots N n w w' -> i < n -> k < n ->
  sum_n N n (fun j => (w ^ (i * j)%nat) * (w' ^ (j * k)%nat)) = if i =? k then number N n else nzero N.
Proof.
  intros R Hi Hk. pose proof R as (H1 & H2 & H3).
  assert (E : forall m, (w ^ m) * (w' ^ m) = 1) by (intros; rewrite <- npow_mulbase, H2; apply npow_1).
  destruct (Nat.eqb_spec i k) as [->|Hne].
  - apply sum_ext. intros j _. rewrite (Nat.mul_comm j k). apply E.
  - destruct (Nat.lt_ge_cases i k) as [Hl|Hl].
    + rewrite <- (H3 (n - (k - i))%nat) by lia. apply sum_ext. intros j _.
      replace (j * k)%nat with (i * j + (k - i) * j)%nat by nia. rewrite npow_add, (mul_assoc N L), E, (mul_1_l N L).
      rewrite npow_mul. rewrite (roots_pow n w w') by (auto; lia). symmetry. apply npow_mul.
    + rewrite <- (H3 (i - k)%nat) by lia. apply sum_ext. intros j _.
      replace (i * j)%nat with ((i - k) * j + j * k)%nat by nia. rewrite npow_add, <- (mul_assoc N L), E. apply (mul_1_r N L).
Qed.
Lemma dft_sum w D C m (g : nat -> list nat -> A) c k : length C = length D -> valid D k ->
  dft N w D C (fun ix => sum_n N m (fun i => g i ix * c i)) k = sum_n N m (fun i => dft N w D C (g i) k * c i).
Proof.
  revert C g k. induction D as [|d D IH]; intros [|b C] g k E V; try discriminate.
  - reflexivity.
  - apply valid_cons_inv' in V as (x & k' & -> & Hi & V). destruct b; cbn [dft].
    + erewrite sum_ext. 2:{ intros j Hj. rewrite (IH C (fun i ix => g i (j :: ix))) by auto. rewrite (sum_scal_r N L). reflexivity. }
      rewrite (sum_swap_l N L). apply sum_ext. intros i _. rewrite (sum_scal_r N L). apply sum_ext. intros j _.
      rewrite <- !(mul_assoc N L). f_equal. apply (mul_comm N L).
    + apply (IH C (fun i ix => g i (x :: ix))); auto.
Qed.
Lemma number_mul a b : number N (a * b) = number N a * number N b.
Proof.
  unfold number. rewrite (sum_prod N L). rewrite (sum_scal_r N L). apply sum_ext. intros i _.
  rewrite (mul_1_l N L). reflexivity.
Qed.
Lemma dft_inverse w w' D C f k : length C = length D -> valid D k ->
  (forall i d, nth_error C i = Some true -> nth_error D i = Some d -> inverse_roots N d (w d) (w' d)) ->
  dft N w' D C (dft N w D C f) k = number N (points D C) * f k.
Proof.
  revert C f k. induction D as [|d D IH]; intros [|b C] f k E V R; try discriminate.
  - apply valid_nil_inv in V. subst. cbn. rewrite (add_0_l N L), (mul_1_l N L). auto.
  - apply valid_cons_inv' in V as (x & k' & -> & Hi & V). cbn in E.
    assert (R' : forall i d, nth_error C i = Some true -> nth_error D i = Some d -> inverse_roots N d (w d) (w' d)).
    { intros i d0. apply (R (S i)). }
    destruct b.
    + pose proof (R 0 d eq_refl eq_refl) as Rd. cbn [dft points].
      rewrite (sum_ext N d _ (fun j => sum_n N d (fun i => (number N (points D C) * f (i :: k')) * ((w d ^ (i * j)%nat) * (w' d ^ (j * x)%nat))))).
      2:{ intros j Hj. rewrite (dft_sum (w') D C d (fun i => dft N w D C (fun ix => f (i :: ix))) (fun i => w d ^ (i * j)%nat) k') by auto.
          rewrite (sum_scal_r N L). apply sum_ext. intros i Hi'. rewrite (IH C (fun ix => f (i :: ix)) k') by auto.
          rewrite <- !(mul_assoc N L). reflexivity. }
      rewrite (sum_swap_l N L).
      rewrite (sum_ext N d _ (fun i => (number N (points D C) * f (i :: k')) * (if i =? x then number N d else nzero N))).
      2:{ intros i Hi'. rewrite <- (sum_scal_l N L). rewrite (orth d (w d) (w' d) i x) by auto. reflexivity. }
      rewrite (sum_one N L d x). 
      * rewrite Nat.eqb_refl, number_mul. rewrite (mul_comm N L _ (number N d)), (mul_assoc N L). auto.
      * auto.
      * intros i Hi' Hne. replace (i =? x) with false by lia. apply (mul_0_r N L).
    + cbn [dft points]. rewrite Nat.mul_1_l. apply (IH C (fun ix => f (x :: ix)) k'); auto.
Qed.
Lemma is_dft_inverse s s' C t r r' : dims t <> [] -> length C = length (dims t) -> is_dft s C t r -> is_dft s' C r r' ->
  (forall i d, nth_error C i = Some true -> nth_error (dims t) i = Some d -> inverse_roots N d (root s d) (root s' d)) ->
  dims r' = dims t /\ forall ix, valid (dims t) ix -> elt r' ix = Some (number N (points (dims t) C) * val N t ix).
Proof.
  intros Hn EC (W1 & D1 & H1) (W2 & D2 & H2) R. split; [congruence|]. intros ix V. rewrite H2 by (rewrite D1; auto). f_equal.
  rewrite D1. rewrite (dft_ext _ _ _ _ (dft N (root s) (dims t) C (val N t))); auto.
  - apply dft_inverse; auto.
  - intros jx Vj. apply val_some. auto.
Qed.
End Tensors.

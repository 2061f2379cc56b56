(* Proofs about block_svd. *)
From Coq Require Import Sorted.
From Verif Require Import Base Spec S_Fold L_Lin M_Tensor L_Tensor M_Range S_Range L_Range L_Slice M_Permute L_Permute M_Arith L_Arith L_Fold L_Kron S_Reduce M_Reduce L_Reduce
  M_Blocks S_Blocks L_Blocks M_BlockSvd S_BlockSvd.
Local Open Scope nat_scope.

Lemma for_fuel {St} (P : nat -> St -> Prop) n (body : nat -> nat -> St -> outcome St) s0 :
  P 0 s0 -> (forall i s, i < n -> P i s -> exists s', P (S i) s' /\ exists F, forall fuel, F <= fuel -> body fuel i s = Ok s') ->
  exists s, P n s /\ exists F, forall fuel, F <= fuel -> for_ n (body fuel) s0 = Ok s.
Proof.
  intros H0. induction n as [|n IH]; intros HS.
  - exists s0. split; [auto|]. exists 0. intros fuel _. reflexivity.
  - destruct IH as (s & Hs & F & HF); [intros i s Hi; apply HS; lia|]. destruct (HS n s ltac:(lia) Hs) as (s' & Hs' & F' & HF').
    exists s'. split; [auto|]. exists (Nat.max F F'). intros fuel Hf. rewrite for_S, HF by lia. cbn [bind]. apply HF'. lia.
Qed.

Section Patch.
Context {A : Type}.
Lemma picks1 (S1 : list nat) x i : nth_error S1 x = Some i -> picks [S1] [x] [i].
Proof. intros H. split; [auto|exact I]. Qed.
Lemma picks2 (S1 S2 : list nat) x y i k : nth_error S1 x = Some i -> nth_error S2 y = Some k -> picks [S1; S2] [x; y] [i; k].
Proof. intros H1 H2. split; [auto|]. split; [auto|exact I]. Qed.

Lemma patch_mat (U : tensor A) n p s1 s2 S1 S2 (V : tensor A) : wf U -> dims U = [n; p] -> 0 < n -> 0 < p ->
  selects n s1 S1 -> selects p s2 S2 -> NoDup S1 -> NoDup S2 -> wf V -> nelem (dims V) = length S1 * length S2 ->
  exists U', (wf U' /\ dims U' = [n; p] /\
    (forall x y i k, nth_error S1 x = Some i -> nth_error S2 y = Some k -> elt U' [i; k] = nth_error (data V) (x + length S1 * y)) /\
    (forall i k, ~ (In i S1 /\ In k S2) -> elt U' [i; k] = elt U [i; k])) /\
    exists F, forall fuel, F <= fuel -> assign_tensor fuel U [s1; s2] V = Ok U'.
Proof.
  intros W D Hn Hp H1 H2 N1 N2 WV DV.
  destruct (c10_tensor U [s1; s2] [S1; S2]) with (u := V) as [H _]; try (rewrite D); auto; try discriminate; try solve [repeat constructor; auto | cbn; auto].
  destruct H as (U' & (W1 & W2 & W3 & W4) & F & HF); [rewrite DV; cbn [sizes map prod fold_right]; lia|].
  exists U'. split; [|eauto]. split; [auto|]. split; [congruence|]. split.
  - intros x y i k Hx Hy. rewrite (W3 [x; y] [i; k]) by (apply picks2; auto). f_equal. cbn [sizes map]. rewrite !lin_cons, lin_nil. lia.
  - intros i k Hik. apply W4. intros [|x [|y [|z ks]]] Hpk; cbn in Hpk; try tauto. destruct Hpk as (P1 & P2 & _). apply Hik. split; eapply nth_error_In; eauto.
Qed.
Lemma patch_vec (s : tensor A) p s1 S1 (V : tensor A) : wf s -> dims s = [p] -> 0 < p ->
  selects p s1 S1 -> NoDup S1 -> wf V -> nelem (dims V) = length S1 ->
  exists s', (wf s' /\ dims s' = [p] /\
    (forall x i, nth_error S1 x = Some i -> nth_error (data s') i = nth_error (data V) x) /\
    (forall i, ~ In i S1 -> nth_error (data s') i = nth_error (data s) i)) /\
    exists F, forall fuel, F <= fuel -> assign_tensor fuel s [s1] V = Ok s'.
Proof.
  intros W D Hp H1 N1 WV DV.
  destruct (c10_tensor s [s1] [S1]) with (u := V) as [H _]; try (rewrite D); auto; try discriminate; try solve [repeat constructor; auto | cbn; auto].
  destruct H as (s' & (W1 & W2 & W3 & W4) & F & HF); [rewrite DV; cbn [sizes map prod fold_right]; lia|].
  rewrite D in W2.
  assert (Hlen : length (data s') = p /\ length (data s) = p).
  { split; [rewrite W1, W2|rewrite W, D]; cbn; lia. }
  assert (He : forall (t : tensor A) i, dims t = [p] -> length (data t) = p -> elt t [i] = nth_error (data t) i).
  { intros t i Dt Lt. destruct (lt_dec i p) as [Hi|Hi].
    - rewrite elt_valid by (rewrite Dt; repeat constructor; auto). rewrite Dt, lin_cons, lin_nil. f_equal. lia.
    - rewrite (proj2 (nth_error_None _ _)) by lia. unfold elt. rewrite Dt. cbn [validb]. replace (i <? p) with false by lia. reflexivity. }
  exists s'. split; [|eauto]. split; [auto|]. split; [auto|]. split.
  - intros x i Hx. rewrite <- He by tauto. rewrite (W3 [x] [i]) by (apply picks1; auto). f_equal. cbn [sizes map]. rewrite lin_cons, lin_nil. lia.
  - intros i Hi. rewrite <- !He by tauto. apply W4. intros [|x [|y ks]] Hpk; cbn in Hpk; try tauto. destruct Hpk as (P1 & _). apply Hi. eapply nth_error_In; eauto.
Qed.

Lemma slice_t_mat jx (t : tensor A) n p s1 s2 S1 S2 : wf t -> dims t = [n; p] -> 0 < n -> 0 < p -> selects n s1 S1 -> selects p s2 S2 ->
  exists u, (wf u /\ dims u = [length S1; length S2] /\ forall x y i k, nth_error S1 x = Some i -> nth_error S2 y = Some k -> elt u [x; y] = elt t [i; k]) /\
    exists F, forall fuel, F <= fuel -> slice_t fuel jx t [s1; s2] = Ok u.
Proof.
  intros W D Hn Hp H1 H2. destruct (c09_slice t [s1; s2] [S1; S2] jx) as (u & Wu & Du & He & F & HF); try rewrite D; auto; try discriminate; try solve [repeat constructor; auto | cbn; auto].
  exists u. split.
  - split; [auto|]. split; [exact Du|]. intros x y i k Hx Hy. apply He. apply picks2; auto.
  - exists F. intros fuel Hf. unfold slice_t. rewrite HF by auto. cbn [bind]. rewrite map_map. rewrite (map_ext _ (fun x => x)) by (intros; apply Nat2Z.id). rewrite map_id. destruct u; reflexivity.
Qed.
Lemma slice_t_vec jx (t : tensor A) p s1 S1 : wf t -> dims t = [p] -> 0 < p -> selects p s1 S1 ->
  exists u, (wf u /\ dims u = [length S1] /\ forall x i, nth_error S1 x = Some i -> nth_error (data u) x = nth_error (data t) i) /\
    exists F, forall fuel, F <= fuel -> slice_t fuel jx t [s1] = Ok u.
Proof.
  intros W D Hp H1. destruct (c09_slice t [s1] [S1] jx) as (u & Wu & Du & He & F & HF); try rewrite D; auto; try discriminate; try solve [repeat constructor; auto | cbn; auto].
  cbn [sizes map] in Du.
  assert (Hv : forall (t : tensor A) q i, wf t -> dims t = [q] -> elt t [i] = nth_error (data t) i).
  { intros t0 q i W0 Dt. assert (Lt : length (data t0) = q) by (rewrite W0, Dt; cbn; lia). destruct (lt_dec i q) as [Hi|Hi].
    - rewrite elt_valid by (rewrite Dt; repeat constructor; auto). rewrite Dt, lin_cons, lin_nil. f_equal. lia.
    - rewrite (proj2 (nth_error_None _ _)) by lia. unfold elt. rewrite Dt. cbn [validb]. replace (i <? q) with false by lia. reflexivity. }
  exists u. split.
  - split; [auto|]. split; [exact Du|]. intros x i Hx. rewrite <- (Hv u _ x Wu Du), <- (Hv t _ i W D). apply He. apply picks1; auto.
  - exists F. intros fuel Hf. unfold slice_t. rewrite HF by auto. cbn [bind]. rewrite map_map. rewrite (map_ext _ (fun x => x)) by (intros; apply Nat2Z.id). rewrite map_id. destruct u; reflexivity.
Qed.

Lemma set2_mat (U : tensor A) n p i0 k0 v : wf U -> dims U = [n; p] -> i0 < n -> k0 < p ->
  exists U', set2 U (Z.of_nat i0) (Z.of_nat k0) v = Ok U' /\ wf U' /\ dims U' = [n; p] /\ elt U' [i0; k0] = Some v /\
    forall i k, ~ (i = i0 /\ k = k0) -> elt U' [i; k] = elt U [i; k].
Proof.
  intros W D Hi Hk. assert (Lu : length (data U) = n * p) by (rewrite W, D; cbn; lia).
  unfold set2, get_dimensions2. rewrite D. cbn [bind]. rewrite !normalize_nonneg by auto. cbn [bind]. unfold set_at. rewrite wr_ok by nia. cbn [bind]. rewrite D.
  eexists. split; [reflexivity|]. split; [unfold wf; cbn [data dims]; rewrite length_upd, Lu; cbn; lia|]. split; [reflexivity|]. split.
  - rewrite (mat_elt _ n p) by auto. cbn [data]. rewrite nth_error_upd. replace (i0 + n * k0 =? k0 * n + i0) with true by lia. replace (k0 * n + i0 <? length (data U)) with true by nia. reflexivity.
  - intros i k Hik. destruct (lt_dec i n) as [Hi'|], (lt_dec k p) as [Hk'|]; try (rewrite !(mat_elt_out _ n p) by (auto; lia); reflexivity).
    rewrite !(mat_elt _ n p) by auto. cbn [data]. rewrite nth_error_upd. destruct (Nat.eqb_spec (i + n * k) (k0 * n + i0)) as [E|]; [|reflexivity]. exfalso. apply Hik.
    assert (k = k0) by nia. subst k. split; [nia|reflexivity].
Qed.
Lemma set1_vec (s : tensor A) p k0 v : wf s -> dims s = [p] -> k0 < p ->
  exists s', set1 s (Z.of_nat k0) v = Ok s' /\ wf s' /\ dims s' = [p] /\ nth_error (data s') k0 = Some v /\ forall k, k <> k0 -> nth_error (data s') k = nth_error (data s) k.
Proof.
  intros W D Hk. assert (Ls : length (data s) = p) by (rewrite W, D; cbn; lia).
  unfold set1. rewrite normalize_nonneg by lia. cbn [bind]. unfold set_at. rewrite wr_ok by lia. cbn [bind]. rewrite D.
  eexists. split; [reflexivity|]. split; [unfold wf; cbn [data dims]; rewrite length_upd, Ls; cbn; lia|]. split; [reflexivity|]. cbn [data]. split.
  - rewrite nth_error_upd, Nat.eqb_refl. replace (k0 <? length (data s)) with true by lia. reflexivity.
  - intros k Hne. rewrite nth_error_upd. replace (k =? k0) with false by lia. reflexivity.
Qed.
End Patch.

(* ---- components: members are in range, blocks do not overlap ---- *)
Section Comp.
Context (E : nat -> nat -> Prop) (n m : nat) (HE : forall i j, E i j -> i < n /\ j < m).
Lemma conn_touched v w : conn E v w -> v = w \/ (touched E v /\ touched E w).
Proof.
  intros C. induction C as [v|i j H|v w C IH|u v w C1 IH1 C2 IH2].
  - auto.
  - right. split; eexists; eauto.
  - destruct IH as [->|[]]; auto.
  - destruct IH1 as [->|[]], IH2 as [->|[]]; auto.
Qed.
Context (rows cols : list (list nat)) (HC : components E rows cols).
Lemma comp_row b R i : nth_error rows b = Some R -> In i R -> i < n.
Proof.
  intros Hr Hi. destruct HC as (HL & HB & _). destruct (nth_error_lt cols b) as (C & Hc); [rewrite <- HL; eapply nth_error_lt_inv; eauto|].
  destruct (HB b R C Hr Hc) as ((i0 & j0 & I0 & _ & H0) & _ & _ & H1 & _). apply (H1 i0 I0) in Hi. apply conn_touched in Hi as [Hi|[_ (j & Hj)]].
  - injection Hi as <-. apply HE in H0. tauto.
  - apply HE in Hj. tauto.
Qed.
Lemma comp_col b C j : nth_error cols b = Some C -> In j C -> j < m.
Proof.
  intros Hc Hj. destruct HC as (HL & HB & _). destruct (nth_error_lt rows b) as (R & Hr); [rewrite HL; eapply nth_error_lt_inv; eauto|].
  destruct (HB b R C Hr Hc) as ((i0 & j0 & I0 & _ & H0) & _ & _ & _ & H2). apply (H2 i0 I0) in Hj. apply conn_touched in Hj as [Hj|[_ (i & Hi)]]; [discriminate|]. apply HE in Hi. tauto.
Qed.
End Comp.

(* disjoint lists of positions below n have at most n members together *)
Definition total (p : list (list nat)) : nat := length (concat p).
Lemma disjoint_total n (L : list (list nat)) : (forall b l i, nth_error L b = Some l -> In i l -> i < n) -> (forall b l, nth_error L b = Some l -> NoDup l) ->
  (forall b b' l l' i, nth_error L b = Some l -> nth_error L b' = Some l' -> In i l -> In i l' -> b = b') -> total L <= n.
Proof.
  intros Hlt Hnd Hdj. unfold total. rewrite <- (seq_length n 0). apply NoDup_incl_length.
  - clear Hlt. induction L as [|l L IH]; cbn [concat]; [constructor|].
    assert (HL : NoDup (concat L)).
    { apply IH; [intros b l' H; apply (Hnd (S b)); auto|]. intros b b' l1 l2 i H1 H2 I1 I2. pose proof (Hdj (S b) (S b') l1 l2 i H1 H2 I1 I2). lia. }
    assert (Hl : NoDup l) by (apply (Hnd 0); auto).
    assert (Hno : forall i, In i l -> ~ In i (concat L)).
    { intros i I1 I2. apply in_concat in I2 as (l' & Hl' & I2). apply In_nth_error in Hl' as (b & Hb). pose proof (Hdj 0 (S b) l l' i eq_refl Hb I1 I2). lia. }
    clear - HL Hl Hno. induction Hl as [|x l Hx Hl IH]; cbn [app]; [auto|]. constructor.
    + intros H. apply in_app_or in H as [H|H]; [contradiction|]. apply (Hno x); [left; auto|auto].
    + apply IH. intros i Hi. apply Hno. right. auto.
  - intros i Hi. apply in_concat in Hi as (l & Hl & Hi). apply In_nth_error in Hl as (b & Hb). apply in_seq. pose proof (Hlt b l i Hb Hi). lia.
Qed.

(* slots taken by the blocks before b *)
Fixpoint used (rows cols : list (list nat)) (b : nat) : nat :=
  match b with 0 => 0 | S b => used rows cols b + Nat.min (length (nth b rows [])) (length (nth b cols [])) end.
Lemma total_firstn (L : list (list nat)) b : total (firstn (S b) L) = total (firstn b L) + length (nth b L []).
Proof.
  unfold total. revert b. induction L as [|l L IH]; intros b; [rewrite !firstn_nil; destruct b; reflexivity|]. destruct b as [|b]; [cbn [firstn concat nth]; rewrite app_nil_r; cbn; lia|].
  change (firstn (S (S b)) (l :: L)) with (l :: firstn (S b) L). change (firstn (S b) (l :: L)) with (l :: firstn b L). cbn [concat nth]. rewrite !app_length, IH. lia.
Qed.
Lemma used_le rows cols b : used rows cols b <= Nat.min (total (firstn b rows)) (total (firstn b cols)).
Proof.
  induction b as [|b IH]; [cbn; lia|]. cbn [used]. rewrite !total_firstn. lia.
Qed.
Lemma total_firstn_le (L : list (list nat)) b : total (firstn b L) <= total L.
Proof. unfold total. rewrite <- (firstn_skipn b L) at 2. rewrite concat_app, app_length. lia. Qed.

(* ---- sums ---- *)
Section Sums.
Context {A : Type} (N : numops A) (L : numlaws N).
Notation "0" := (nzero N). Infix "+" := (nadd N). Infix "*" := (nmul N).
Lemma sum_0 k (f : nat -> A) : (forall i, (i < k)%nat -> f i = 0) -> sum_n N k f = 0.
Proof. induction k as [|k IH]; intros H; cbn [sum_n]; [reflexivity|]. rewrite IH, H by (intros; try apply H; lia). apply (add_0_l _ L). Qed.
Lemma sum_add k (f g : nat -> A) : sum_n N k (fun i => f i + g i) = sum_n N k f + sum_n N k g.
Proof.
  induction k as [|k IH]; cbn [sum_n]; [rewrite (add_0_l _ L); reflexivity|]. rewrite IH. rewrite <- !(add_assoc _ L). f_equal. rewrite !(add_assoc _ L). f_equal. apply (add_comm _ L).
Qed.
Lemma sum_one k r (f : nat -> A) : (r < k)%nat -> (forall i, (i < k)%nat -> i <> r -> f i = 0) -> sum_n N k f = f r.
Proof.
  induction k as [|k IH]; intros Hr H; [lia|]. cbn [sum_n]. destruct (Nat.eq_dec r k) as [->|].
  - rewrite sum_0, (add_0_l _ L) by (intros; apply H; lia). reflexivity.
  - rewrite IH by (try lia; intros; apply H; lia). rewrite (H k) by lia. rewrite (add_comm _ L). apply (add_0_l _ L).
Qed.
Lemma sum_shift k (f : nat -> A) : sum_n N (S k) f = f O + sum_n N k (fun i => f (S i)).
Proof.
  induction k as [|k IH]; [cbn [sum_n]; apply (add_comm _ L)|]. change (sum_n N (S (S k)) f) with (sum_n N (S k) f + f (S k)). rewrite IH. cbn [sum_n]. rewrite (add_assoc _ L). reflexivity.
Qed.
(* a sum supported on the members of a list *)
Lemma sum_support k (l : list nat) (f : nat -> A) : NoDup l -> (forall i, In i l -> (i < k)%nat) -> (forall i, (i < k)%nat -> ~ In i l -> f i = 0) ->
  sum_n N k f = sum_n N (length l) (fun x => f (nth x l O)).
Proof.
  intros ND. revert f. induction ND as [|r l Hr ND IH]; intros f Hlt H0.
  - cbn [length sum_n]. apply sum_0. intros i Hi. apply H0; auto.
  - cbn [length]. rewrite sum_shift. cbn [nth].
    transitivity (sum_n N k (fun i => (if i =? r then f i else 0) + (if i =? r then 0 else f i))).
    { apply sum_ext. intros i _. destruct (i =? r); [rewrite (add_comm _ L)|]; symmetry; apply (add_0_l _ L). }
    rewrite sum_add. f_equal.
    + rewrite (sum_one k r) by (try (apply Hlt; left; auto); intros i _ Hi; replace (i =? r) with false by lia; reflexivity). rewrite Nat.eqb_refl. reflexivity.
    + rewrite IH.
      * apply sum_ext. intros x Hx. destruct (Nat.eqb_spec (nth x l O) r) as [E|]; [|reflexivity]. exfalso. apply Hr. rewrite <- E. apply nth_In. auto.
      * intros i Hi. apply Hlt. right. auto.
      * intros i Hi Hn. destruct (Nat.eqb_spec i r); [reflexivity|]. apply H0; [auto|]. intros [E|E]; [congruence|contradiction].
Qed.
Lemma sum_permuted k (p : list nat) (f : nat -> A) : Permutation (seq O k) p -> sum_n N k (fun x => f (nth x p O)) = sum_n N k f.
Proof.
  intros P. assert (Hl : length p = k) by (rewrite <- (Permutation_length P); apply seq_length).
  rewrite (sum_support k p f).
  - rewrite Hl. reflexivity.
  - eapply Permutation_NoDup; [exact P|]. apply seq_NoDup.
  - intros i Hi. apply (Permutation_in _ (Permutation_sym P)) in Hi. apply in_seq in Hi. lia.
  - intros i Hi Hn. exfalso. apply Hn. apply (Permutation_in _ P). apply in_seq. lia.
Qed.
End Sums.

(* ---- the effect of one block, on functions ---- *)
Section Step.
Context {A R T : Type} (N : numops A) (L : numlaws N) (rzero : R) (lt : R -> R -> bool) (inj : R -> A).
Notation "0" := (nzero N). Notation "1" := (none_ N). Infix "+" := (nadd N). Infix "*" := (nmul N).

Lemma conj_0 : nconj N 0 = 0.
Proof. rewrite <- (mul_0_l _ L (nconj N 0)) at 1. rewrite (conj_mul _ L), (conj_conj _ L), (mul_comm _ L). apply (mul_0_l _ L). Qed.
Lemma conj_1 : nconj N 1 = 1.
Proof.
  transitivity (nconj N (nconj N 1 * 1)); [rewrite (conj_mul _ L), (conj_conj _ L), (mul_1_l _ L); reflexivity|]. rewrite (mul_comm _ L), (mul_1_l _ L). apply (conj_conj _ L).
Qed.
Lemma mul_0_r x : x * 0 = 0.
Proof. rewrite (mul_comm _ L). apply (mul_0_l _ L). Qed.

Definition mem (i : nat) (l : list nat) : bool := existsb (Nat.eqb i) l.
Lemma mem_In i l : mem i l = true <-> In i l.
Proof.
  unfold mem. rewrite existsb_exists. split.
  - intros (x & Hx & E). apply Nat.eqb_eq in E. subst. auto.
  - intros H. exists i. rewrite Nat.eqb_refl. auto.
Qed.
Definition before (p : list (list nat)) (b i : nat) : bool := existsb (fun b' => mem i (nth b' p [])) (seq O b).
Lemma before_S p b i : before p (S b) i = before p b i || mem i (nth b p []).
Proof. unfold before. rewrite seq_S, existsb_app. cbn [existsb]. rewrite orb_false_r. reflexivity. Qed.

Context (rows cols : list (list nat)) (n m : nat) (a : nat -> nat -> A).
Definition inblk (b i j : nat) : bool := existsb (fun b' => mem i (nth b' rows []) && mem j (nth b' cols [])) (seq O b).
Lemma inblk_S b i j : inblk (S b) i j = inblk b i j || (mem i (nth b rows []) && mem j (nth b cols [])).
Proof. unfold inblk. rewrite seq_S, existsb_app. cbn [existsb]. rewrite orb_false_r. reflexivity. Qed.
Lemma inblk_before b i j : inblk b i j = true -> before rows b i = true.
Proof. unfold inblk, before. rewrite !existsb_exists. intros (x & Hx & H). apply andb_prop in H as []. eauto. Qed.

Definition prods (u : nat -> nat -> A) (s : nat -> R) (v : nat -> nat -> A) (i j k : nat) : A := (u i k * inj (s k)) * v k j.
Record sofar (b q : nat) (u : nat -> nat -> A) (s : nat -> R) (v : nat -> nat -> A) : Prop := {
  sf_q : q = used rows cols b;
  sf_dec : forall i j, (i < n)%nat -> (j < m)%nat -> sum_n N q (prods u s v i j) = if inblk b i j then a i j else 0;
  sf_u : forall k l, (k < q)%nat -> (l < q)%nat -> sum_n N n (fun i => nconj N (u i k) * u i l) = delta N k l;
  sf_v : forall k l, (k < q)%nat -> (l < q)%nat -> sum_n N m (fun j => v k j * nconj N (v l j)) = delta N k l;
  sf_supp_u : forall i k, before rows b i = false -> u i k = 0;
  sf_supp_v : forall k j, before cols b j = false -> v k j = 0;
  sf_rest : forall k, (q <= k)%nat -> (forall i, u i k = 0) /\ (forall j, v k j = 0) /\ s k = rzero;
  sf_pos : forall k, (k < q)%nat -> lt (s k) rzero = false }.

(* the block's own decomposition, with its rows and columns *)
Record blocksvd (Rs Cs : list nat) (q : nat) (u : nat -> nat -> A) (s : nat -> R) (v : nat -> nat -> A) : Prop := {
  bs_q : q = Nat.min (length Rs) (length Cs);
  bs_dec : forall x y, (x < length Rs)%nat -> (y < length Cs)%nat -> sum_n N q (prods u s v x y) = a (nth x Rs O) (nth y Cs O);
  bs_u : forall k l, (k < q)%nat -> (l < q)%nat -> sum_n N (length Rs) (fun i => nconj N (u i k) * u i l) = delta N k l;
  bs_v : forall k l, (k < q)%nat -> (l < q)%nat -> sum_n N (length Cs) (fun j => v k j * nconj N (v l j)) = delta N k l;
  bs_pos : forall k, (k < q)%nat -> lt (s k) rzero = false }.

(* the new matrices are the old ones with the block written into them *)
Record patched (Rs Cs : list nat) (q0 q : nat) u s v ub sb vb (u' : nat -> nat -> A) (s' : nat -> R) (v' : nat -> nat -> A) : Prop := {
  pt_u : forall x y, (x < length Rs)%nat -> (y < q)%nat -> u' (nth x Rs O) (q0 + y)%nat = ub x y;
  pt_u' : forall i k, ~ (In i Rs /\ (q0 <= k < q0 + q)%nat) -> u' i k = u i k;
  pt_v : forall x y, (x < q)%nat -> (y < length Cs)%nat -> v' (q0 + x)%nat (nth y Cs O) = vb x y;
  pt_v' : forall k j, ~ ((q0 <= k < q0 + q)%nat /\ In j Cs) -> v' k j = v k j;
  pt_s : forall y, (y < q)%nat -> s' (q0 + y)%nat = sb y;
  pt_s' : forall k, ~ (q0 <= k < q0 + q)%nat -> s' k = s k }.

Lemma delta_shift q k l : delta N (q + k)%nat (q + l)%nat = delta N k l.
Proof. unfold delta. replace (q + k =? q + l)%nat with (k =? l)%nat by lia. reflexivity. Qed.
Lemma delta_ne k l : k <> l -> delta N k l = 0.
Proof. intros H. unfold delta. replace (k =? l)%nat with false by lia. reflexivity. Qed.

Lemma step_sofar b q0 q u s v ub sb vb u' s' v' :
  let Rs := nth b rows [] in let Cs := nth b cols [] in
  NoDup Rs -> NoDup Cs -> (forall i, In i Rs -> (i < n)%nat /\ before rows b i = false) -> (forall j, In j Cs -> (j < m)%nat /\ before cols b j = false) ->
  sofar b q0 u s v -> blocksvd Rs Cs q ub sb vb -> patched Rs Cs q0 q u s v ub sb vb u' s' v' -> sofar (S b) (q0 + q) u' s' v'.
Proof.
  intros Rs Cs ND1 ND2 HR HC SF BS PT. subst Rs Cs. set (Rs := nth b rows []) in *. set (Cs := nth b cols []) in *.
  assert (Uin : forall i y, (y < q)%nat -> ~ In i Rs -> u' i (q0 + y)%nat = 0).
  { intros i y Hy Hi. rewrite (pt_u' _ _ _ _ _ _ _ _ _ _ _ _ _ PT) by tauto. apply (sf_rest _ _ _ _ _ SF). lia. }
  assert (Vin : forall j y, (y < q)%nat -> ~ In j Cs -> v' (q0 + y)%nat j = 0).
  { intros j y Hy Hj. rewrite (pt_v' _ _ _ _ _ _ _ _ _ _ _ _ _ PT) by tauto. apply (sf_rest _ _ _ _ _ SF). lia. }
  assert (Uold : forall i k, (k < q0)%nat -> u' i k = u i k) by (intros; apply (pt_u' _ _ _ _ _ _ _ _ _ _ _ _ _ PT); lia).
  assert (Vold : forall j k, (k < q0)%nat -> v' k j = v k j) by (intros; apply (pt_v' _ _ _ _ _ _ _ _ _ _ _ _ _ PT); lia).
  assert (Sold : forall k, (k < q0)%nat -> s' k = s k) by (intros; apply (pt_s' _ _ _ _ _ _ _ _ _ _ _ _ _ PT); lia).
  constructor.
  - cbn [used]. rewrite (sf_q _ _ _ _ _ SF), (bs_q _ _ _ _ _ _ BS). reflexivity.
  - intros i j Hi Hj. rewrite (sum_app N L q0 q), inblk_S. fold Rs Cs.
    rewrite (sum_ext N q0 (prods u' s' v' i j) (prods u s v i j)) by (intros k Hk; unfold prods; rewrite Uold, Vold, Sold by auto; reflexivity).
    rewrite (sf_dec _ _ _ _ _ SF) by auto.
    destruct (mem i Rs) eqn:Ei; [destruct (mem j Cs) eqn:Ej|].
    + apply mem_In in Ei, Ej. destruct (In_nth Rs i O Ei) as (x & Hx & Ex). destruct (In_nth Cs j O Ej) as (y & Hy & Ey).
      destruct (inblk b i j) eqn:Eb; [apply inblk_before in Eb; rewrite (proj2 (HR i Ei)) in Eb; discriminate|]. cbn [orb andb]. rewrite (add_0_l _ L).
      rewrite <- Ex, <- Ey. rewrite <- (bs_dec _ _ _ _ _ _ BS x y) by auto. apply sum_ext. intros k Hk. unfold prods.
      rewrite (pt_u _ _ _ _ _ _ _ _ _ _ _ _ _ PT), (pt_v _ _ _ _ _ _ _ _ _ _ _ _ _ PT), (pt_s _ _ _ _ _ _ _ _ _ _ _ _ _ PT) by auto. reflexivity.
    + cbn [andb]. rewrite orb_false_r. rewrite (sum_0 N L q).
      * rewrite (add_comm _ L). apply (add_0_l _ L).
      * intros k Hk. unfold prods. rewrite Vin; [apply mul_0_r|auto|]. intros H. apply mem_In in H. congruence.
    + cbn [andb]. rewrite orb_false_r. rewrite (sum_0 N L q).
      * rewrite (add_comm _ L). apply (add_0_l _ L).
      * intros k Hk. unfold prods. rewrite Uin; [rewrite !(mul_0_l _ L); reflexivity|auto|]. intros H. apply mem_In in H. congruence.
  - intros k l Hk Hl. destruct (lt_dec k q0) as [Hk0|Hk0], (lt_dec l q0) as [Hl0|Hl0].
    + rewrite <- (sf_u _ _ _ _ _ SF k l) by auto. apply sum_ext. intros i Hi. rewrite !Uold by auto. reflexivity.
    + rewrite delta_ne by lia. apply (sum_0 N L). intros i Hi. rewrite Uold by auto. destruct (mem i Rs) eqn:Ei.
      * apply mem_In in Ei. rewrite (sf_supp_u _ _ _ _ _ SF i k) by (apply HR; auto). rewrite conj_0. apply (mul_0_l _ L).
      * replace l with (q0 + (l - q0))%nat by lia. rewrite Uin; [apply mul_0_r|lia|]. intros H. apply mem_In in H. congruence.
    + rewrite delta_ne by lia. apply (sum_0 N L). intros i Hi. rewrite (Uold i l) by auto. destruct (mem i Rs) eqn:Ei.
      * apply mem_In in Ei. rewrite (sf_supp_u _ _ _ _ _ SF i l) by (apply HR; auto). apply mul_0_r.
      * replace k with (q0 + (k - q0))%nat by lia. rewrite Uin; [rewrite conj_0; apply (mul_0_l _ L)|lia|]. intros H. apply mem_In in H. congruence.
    + replace k with (q0 + (k - q0))%nat by lia. replace l with (q0 + (l - q0))%nat by lia. rewrite delta_shift.
      rewrite (sum_support N L n Rs).
      * rewrite <- (bs_u _ _ _ _ _ _ BS (k - q0)%nat (l - q0)%nat) by lia. apply sum_ext. intros x Hx. rewrite !(pt_u _ _ _ _ _ _ _ _ _ _ _ _ _ PT) by (auto; lia). reflexivity.
      * auto.
      * intros i Hi. apply HR. auto.
      * intros i Hi Hn. rewrite (Uin i (l - q0)%nat) by (auto; lia). apply mul_0_r.
  - intros k l Hk Hl. destruct (lt_dec k q0) as [Hk0|Hk0], (lt_dec l q0) as [Hl0|Hl0].
    + rewrite <- (sf_v _ _ _ _ _ SF k l) by auto. apply sum_ext. intros i Hi. rewrite !Vold by auto. reflexivity.
    + rewrite delta_ne by lia. apply (sum_0 N L). intros i Hi. rewrite (Vold i k) by auto. destruct (mem i Cs) eqn:Ei.
      * apply mem_In in Ei. rewrite (sf_supp_v _ _ _ _ _ SF k i) by (apply HC; auto). apply (mul_0_l _ L).
      * replace l with (q0 + (l - q0))%nat by lia. rewrite Vin; [rewrite conj_0; apply mul_0_r|lia|]. intros H. apply mem_In in H. congruence.
    + rewrite delta_ne by lia. apply (sum_0 N L). intros i Hi. rewrite (Vold i l) by auto. destruct (mem i Cs) eqn:Ei.
      * apply mem_In in Ei. rewrite (sf_supp_v _ _ _ _ _ SF l i) by (apply HC; auto). rewrite conj_0. apply mul_0_r.
      * replace k with (q0 + (k - q0))%nat by lia. rewrite Vin; [apply (mul_0_l _ L)|lia|]. intros H. apply mem_In in H. congruence.
    + replace k with (q0 + (k - q0))%nat by lia. replace l with (q0 + (l - q0))%nat by lia. rewrite delta_shift.
      rewrite (sum_support N L m Cs).
      * rewrite <- (bs_v _ _ _ _ _ _ BS (k - q0)%nat (l - q0)%nat) by lia. apply sum_ext. intros x Hx. rewrite !(pt_v _ _ _ _ _ _ _ _ _ _ _ _ _ PT) by (auto; lia). reflexivity.
      * auto.
      * intros i Hi. apply HC. auto.
      * intros i Hi Hn. rewrite (Vin i (k - q0)%nat) by (auto; lia). apply (mul_0_l _ L).
  - intros i k Hb. rewrite before_S in Hb. apply orb_false_elim in Hb as [Hb Hm]. rewrite (pt_u' _ _ _ _ _ _ _ _ _ _ _ _ _ PT); [apply (sf_supp_u _ _ _ _ _ SF); auto|].
    intros [H _]. apply mem_In in H. fold Rs in Hm. congruence.
  - intros k i Hb. rewrite before_S in Hb. apply orb_false_elim in Hb as [Hb Hm]. rewrite (pt_v' _ _ _ _ _ _ _ _ _ _ _ _ _ PT); [apply (sf_supp_v _ _ _ _ _ SF); auto|].
    intros [_ H]. apply mem_In in H. fold Cs in Hm. congruence.
  - intros k Hk. destruct (sf_rest _ _ _ _ _ SF k ltac:(lia)) as (H1 & H2 & H3). split; [|split].
    + intros i. rewrite (pt_u' _ _ _ _ _ _ _ _ _ _ _ _ _ PT) by lia. apply H1.
    + intros i. rewrite (pt_v' _ _ _ _ _ _ _ _ _ _ _ _ _ PT) by lia. apply H2.
    + rewrite (pt_s' _ _ _ _ _ _ _ _ _ _ _ _ _ PT) by lia. apply H3.
  - intros k Hk. destruct (lt_dec k q0).
    + rewrite Sold by auto. apply (sf_pos _ _ _ _ _ SF). auto.
    + replace k with (q0 + (k - q0))%nat by lia. rewrite (pt_s _ _ _ _ _ _ _ _ _ _ _ _ _ PT) by lia. apply (bs_pos _ _ _ _ _ _ BS). lia.
Qed.
End Step.

Section Loop.
Context {A R T : Type} (N : numops A) (L : numlaws N) (rzero : R) (lt : R -> R -> bool) (Hlt : strict_total lt) (inj : R -> A).
Context (absv : A -> R) (divr : A -> R -> A) (significant : T -> A -> bool) (zero_tol : T).
Context (Habs : forall x, significant zero_tol x = true -> nmul N (inj (absv x)) (divr x (absv x)) = x /\ nmul N (divr x (absv x)) (nconj N (divr x (absv x))) = none_ N /\ lt (absv x) rzero = false).
Context (Hinsig : forall x, significant zero_tol x = false -> x = nzero N).
Context (std_sort_ix : (nat -> nat -> bool) -> list nat -> list nat) (Hsi : is_std_sort std_sort_ix).
Context (svd : tensor A -> bool -> outcome (tensor R * tensor A * tensor A)).
Context (junk : nat -> A) (junkr : nat -> R) (jb : nat -> Z).
Context (a : tensor A) (n m : nat) (Wa : wf a) (Da : dims a = [n; m]) (Hn : 0 < n) (Hm : 0 < m) (economic : bool).
Let E := fun i j => exists x, elt a [i; j] = Some x /\ significant zero_tol x = true.
Let P := Nat.min n m.
Definition good (b : tensor A) (r c : nat) : Prop :=
  exists st Ut Vt, svd b economic = Ok (st, Ut, Vt) /\ is_svd N lt rzero inj b r c economic st Ut Vt.
Context (rows cols : list (list nat)) (HC : components E rows cols).
Context (Hgood : forall b Rs Cs sub, nth_error rows b = Some Rs -> nth_error cols b = Some Cs -> submatrix a Rs Cs sub -> 1 < length Rs * length Cs -> good sub (length Rs) (length Cs)).
Context (Hsq : economic = true \/ forall b, length (nth b rows []) = length (nth b cols [])).

Lemma HE i j : E i j -> i < n /\ j < m.
Proof.
  intros (x & H & _). destruct (lt_dec i n), (lt_dec j m); auto; rewrite (mat_elt_out a n m) in H by (auto; lia); discriminate.
Qed.
Lemma Hlen : length rows = length cols.
Proof. exact (proj1 HC). Qed.
Lemma SS_NoDup l : StronglySorted Nat.lt l -> NoDup l.
Proof.
  induction 1 as [|x l S IH F]; constructor; auto. intros H. rewrite Forall_forall in F. apply F in H. unfold Nat.lt in H. lia.
Qed.
Lemma block_at b : b < length rows -> nth_error rows b = Some (nth b rows []) /\ nth_error cols b = Some (nth b cols []).
Proof. intros Hb. split; apply nth_error_nth'; [auto|rewrite <- Hlen; auto]. Qed.
Lemma block_facts b : b < length rows -> let Rs := nth b rows [] in let Cs := nth b cols [] in
  0 < length Rs /\ 0 < length Cs /\ NoDup Rs /\ NoDup Cs /\ (forall i, In i Rs -> i < n /\ before rows b i = false) /\ (forall j, In j Cs -> j < m /\ before cols b j = false).
Proof.
  intros Hb Rs Cs. destruct (block_at b Hb) as [Er Ec]. fold Rs in Er. fold Cs in Ec. destruct HC as (_ & HB & _ & HD1 & HD2). destruct (HB b Rs Cs Er Ec) as ((i0 & j0 & I0 & J0 & _) & S1 & S2 & _).
  split; [destruct Rs; [destruct I0|cbn; lia]|]. split; [destruct Cs; [destruct J0|cbn; lia]|]. split; [apply SS_NoDup; auto|]. split; [apply SS_NoDup; auto|]. split.
  - intros i Hi. split; [eapply (comp_row E n m HE rows cols HC); eauto|]. destruct (before rows b i) eqn:Eb; [exfalso|auto].
    unfold before in Eb. apply existsb_exists in Eb as (b' & Hb' & Hm'). apply in_seq in Hb'. apply mem_In in Hm'.
    assert (b = b') by (eapply HD1; eauto; apply nth_error_nth'; lia). lia.
  - intros i Hi. split; [eapply (comp_col E n m HE rows cols HC); eauto|]. destruct (before cols b i) eqn:Eb; [exfalso|auto].
    unfold before in Eb. apply existsb_exists in Eb as (b' & Hb' & Hm'). apply in_seq in Hb'. apply mem_In in Hm'.
    assert (b = b') by (eapply HD2; eauto; apply nth_error_nth'; rewrite <- Hlen; lia). lia.
Qed.
Lemma used_P b : used rows cols b <= P.
Proof.
  pose proof (used_le rows cols b). pose proof (total_firstn_le rows b). pose proof (total_firstn_le cols b).
  assert (total rows <= n).
  { apply disjoint_total; [intros; eapply (comp_row E n m HE rows cols HC); eauto| |exact (proj1 (proj2 (proj2 (proj2 HC))))].
    intros b' l Hb'. pose proof (nth_error_lt_inv _ _ _ Hb') as Hlt'. destruct (block_facts b' Hlt') as (_ & _ & ND & _). rewrite (proj1 (block_at b' Hlt')) in Hb'. injection Hb' as <-. auto. }
  assert (total cols <= m).
  { apply disjoint_total; [intros; eapply (comp_col E n m HE rows cols HC); eauto| |exact (proj2 (proj2 (proj2 (proj2 HC))))].
    intros b' l Hb'. pose proof (nth_error_lt_inv _ _ _ Hb') as Hlt'. rewrite <- Hlen in Hlt'. destruct (block_facts b' Hlt') as (_ & _ & _ & ND & _). rewrite (proj2 (block_at b' Hlt')) in Hb'. injection Hb' as <-. auto. }
  unfold P. lia.
Qed.

Definition state_ok (b : nat) (st : tensor R * tensor A * tensor A * nat) : Prop :=
  let '(s, U, VT, q) := st in
  wf s /\ dims s = [P] /\ wf U /\ dims U = [n; P] /\ wf VT /\ dims VT = [P; m] /\
  sofar N rzero lt inj rows cols n m (fun i j => val N a [i; j]) b q (fun i k => val N U [i; k]) (rval rzero s) (fun k j => val N VT [k; j]).

Lemma selects_ix d l : (forall i, In i l -> i < d) -> selects d (ixs l) l.
Proof. intros H. apply sel_index. apply Forall_forall. auto. Qed.
Lemma selects_slots d q0 q : 0 < q -> q0 + q <= d -> selects d (SStep (Z.of_nat q0) (Z.of_nat q0 + Z.of_nat q - 1) 1) (arith q0 1 q).
Proof.
  intros Hq Hd. replace (Z.of_nat q0 + Z.of_nat q - 1)%Z with (Z.of_nat (q0 + q - 1)) by lia. replace (arith q0 1 q) with (arith q0 1 ((q0 + q - 1 - q0) / 1 + 1)); [apply (sel_step d q0 (q0 + q - 1) 1); lia|].
  f_equal. rewrite Nat.div_1_r. lia.
Qed.
Lemma In_arith q0 q k : In k (arith q0 1 q) <-> q0 <= k < q0 + q.
Proof.
  unfold arith. rewrite in_map_iff. split.
  - intros (x & <- & Hx). apply in_seq in Hx. lia.
  - intros H. exists (k - q0). split; [lia|]. apply in_seq. lia.
Qed.
Lemma NoDup_arith q0 q : NoDup (arith q0 1 q).
Proof. unfold arith. apply FinFun.Injective_map_NoDup; [intros x y; lia|apply seq_NoDup]. Qed.

Lemma val_elt {X} (M : numops X) (t u : tensor X) ix jx : elt t ix = elt u jx -> val M t ix = val M u jx.
Proof. intros H. unfold val. rewrite H. reflexivity. Qed.
Lemma val_nth (V : tensor A) r c x y : wf V -> dims V = [r; c] -> x < r -> y < c -> nth_error (data V) (x + r * y) = Some (val N V [x; y]).
Proof.
  intros W D Hx Hy. unfold val. rewrite (mat_elt V r c) by auto. assert (x + r * y < length (data V)) by (rewrite W, D; cbn; nia).
  destruct (nth_error_lt (data V) (x + r * y)) as (e & ->); auto.
Qed.

Lemma sub_svd b sub : b < length rows -> let Rs := nth b rows [] in let Cs := nth b cols [] in let q := Nat.min (length Rs) (length Cs) in
  submatrix a Rs Cs sub -> 1 < length Rs * length Cs ->
  exists st Ut Vt, svd sub economic = Ok (st, Ut, Vt) /\ wf st /\ dims st = [q] /\ wf Ut /\ dims Ut = [length Rs; q] /\ wf Vt /\ dims Vt = [q; length Cs] /\
   blocksvd N rzero lt inj (fun i j => val N a [i; j]) Rs Cs q (fun i k => val N Ut [i; k]) (rval rzero st) (fun k j => val N Vt [k; j]).
Proof.
  intros Hb Rs Cs q Hs H1. destruct (block_at b Hb) as [Er Ec]. destruct (Hgood b Rs Cs sub Er Ec Hs H1) as (st & Ut & Vt & Ev & (W1 & D1 & W2 & D2 & W3 & D3) & Hdec & Hu & Hv & Hpos & _).
  exists st, Ut, Vt. split; [auto|]. fold q in D1, D2, D3, Hdec, Hu, Hv, Hpos.
  assert (Hq : economic = true \/ (q = length Rs /\ q = length Cs)) by (destruct Hsq as [|Hsq']; [auto|right; specialize (Hsq' b); unfold q, Rs, Cs in *; lia]).
  assert (D2' : dims Ut = [length Rs; q]) by (destruct Hq as [Hq|[Hq _]]; [rewrite Hq in D2; auto|destruct economic; congruence]).
  assert (D3' : dims Vt = [q; length Cs]) by (destruct Hq as [Hq|[_ Hq]]; [rewrite Hq in D3; auto|destruct economic; congruence]).
  repeat (split; [assumption|]). constructor; auto.
  intros x y Hx Hy. unfold prods. rewrite (Hdec x y Hx Hy). apply val_elt. apply (proj2 (proj2 Hs) x y); apply nth_error_nth'; auto.
Qed.

Lemma step_ok b st : b < length rows -> state_ok b st ->
  exists st', state_ok (S b) st' /\ exists F, forall fuel, F <= fuel ->
    block_step N absv divr svd junk fuel a economic rows cols b st = Ok st'.
Proof.
  intros Hb. destruct st as [[[s U] VT] q0]. intros (Ws & Ds & WU & DU & WV & DV & SF).
  pose proof (block_facts b Hb) as BF. cbv zeta in BF. set (Rs := nth b rows []) in *. set (Cs := nth b cols []) in *. destruct BF as (LR & LC & ND1 & ND2 & HR & HCs).
  destruct (block_at b Hb) as [Er Ec]. fold Rs in Er. fold Cs in Ec.
  set (q := Nat.min (length Rs) (length Cs)). assert (Hq : 0 < q) by (unfold q; lia).
  assert (Hfit : q0 + q <= P). { pose proof (used_P (S b)) as HU. cbn [used] in HU. fold Rs Cs q in HU. rewrite (sf_q _ _ _ _ _ _ _ _ _ _ _ _ _ _ SF). exact HU. }
  destruct (slice_t_mat junk a n m (ixs Rs) (ixs Cs) Rs Cs Wa Da Hn Hm) as (sub & Hsub & F0 & HF0); [apply selects_ix; intros; apply HR; auto|apply selects_ix; intros; apply HCs; auto|].
  assert (Lsub : length (data sub) = length Rs * length Cs) by (rewrite (proj1 Hsub), (proj1 (proj2 Hsub)); cbn; lia).
  assert (Hsub' : submatrix a Rs Cs sub) by exact Hsub.
  assert (FIN : forall s' U' VT' ub sb vb, wf s' -> dims s' = [P] -> wf U' -> dims U' = [n; P] -> wf VT' -> dims VT' = [P; m] ->
    blocksvd N rzero lt inj (fun i j => val N a [i; j]) Rs Cs q ub sb vb ->
    patched Rs Cs q0 q (fun i k => val N U [i; k]) (rval rzero s) (fun k j => val N VT [k; j]) ub sb vb (fun i k => val N U' [i; k]) (rval rzero s') (fun k j => val N VT' [k; j]) ->
    state_ok (S b) (s', U', VT', q0 + q)).
  { intros s' U' VT' ub sb vb W1 D1 W2 D2 W3 D3 BS PT. repeat (split; [assumption|]). refine (step_sofar N L rzero lt inj rows cols n m _ b q0 q _ _ _ ub sb vb _ _ _ ND1 ND2 HR HCs SF BS PT). }
  destruct (lt_dec 1 (length Rs * length Cs)) as [H1|H1].
  - (* a block with more than one element *)
    destruct (sub_svd b sub Hb Hsub' H1) as (st & Ut & Vt & Ev & W1 & D1 & W2 & D2 & W3 & D3 & BS). fold Rs Cs q in D1, D2, D3, BS.
    assert (Lst : length (data st) = q) by (rewrite W1, D1; cbn; lia).
    pose proof (selects_slots P q0 q Hq Hfit) as HS.
    destruct (patch_vec s P _ _ st Ws Ds ltac:(lia) HS (NoDup_arith q0 q) W1) as (s' & (Ws' & Ds' & Hs1 & Hs2) & F1 & HF1); [rewrite D1, length_arith; cbn; lia|].
    destruct (patch_mat U n P (ixs Rs) _ Rs _ Ut WU DU Hn ltac:(lia) ltac:(apply selects_ix; intros; apply HR; auto) HS ND1 (NoDup_arith q0 q) W2) as (U' & (WU' & DU' & HU1 & HU2) & F2 & HF2); [rewrite D2, length_arith; cbn; lia|].
    destruct (patch_mat VT P m _ (ixs Cs) _ Cs Vt WV DV ltac:(lia) Hm HS ltac:(apply selects_ix; intros; apply HCs; auto) (NoDup_arith q0 q) ND2 W3) as (V' & (WV' & DV' & HV1 & HV2) & F3 & HF3); [rewrite D3, length_arith; cbn; lia|].
    exists (s', U', V', q0 + q). split.
    + refine (FIN s' U' V' _ _ _ Ws' Ds' WU' DU' WV' DV' BS _). constructor.
      * intros x y Hx Hy. unfold val at 1. rewrite (HU1 x y) by (try (apply nth_error_nth'; auto); rewrite nth_arith by auto; f_equal; lia). rewrite (val_nth Ut (length Rs) q) by auto. reflexivity.
      * intros i k Hik. apply val_elt. apply HU2. rewrite In_arith. exact Hik.
      * intros x y Hx Hy. unfold val at 1. rewrite (HV1 x y) by (try (apply nth_error_nth'; auto); rewrite nth_arith by auto; f_equal; lia). rewrite length_arith. rewrite (val_nth Vt q (length Cs)) by auto. reflexivity.
      * intros k j Hik. apply val_elt. apply HV2. rewrite In_arith. exact Hik.
      * intros y Hy. unfold rval. pose proof (Hs1 y (q0 + y)) as H. rewrite nth_arith in H by auto. specialize (H ltac:(f_equal; lia)).
        destruct (nth_error_lt (data st) y) as (e & He); [lia|]. rewrite He in H. rewrite (nth_error_nth _ _ _ H), (nth_error_nth _ _ _ He). reflexivity.
      * intros k Hk. unfold rval. assert (H : nth_error (data s') k = nth_error (data s) k) by (apply Hs2; rewrite In_arith; exact Hk).
        destruct (nth_error (data s) k) as [e|] eqn:Es; [rewrite (nth_error_nth _ _ _ H), (nth_error_nth _ _ _ Es); reflexivity|]. apply nth_error_None in H, Es. rewrite !nth_overflow by auto. reflexivity.
    + exists (Nat.max F0 (Nat.max F1 (Nat.max F2 F3))). intros fuel Hf. unfold block_step. rewrite (rd_ok _ _ _ Er). cbn [bind]. rewrite (rd_ok _ _ _ Ec). cbn [bind].
      rewrite HF0 by lia. cbn [bind]. replace (1 <? length (data sub)) with true by (rewrite Lsub; lia). rewrite Ev. cbn [bind]. cbv zeta. rewrite Lst.
      rewrite HF1 by lia. cbn [bind]. rewrite HF2 by lia. cbn [bind]. rewrite HF3 by lia. reflexivity.
  - (* a block with one element *)
    assert (H1' : length Rs = 1 /\ length Cs = 1) by nia. assert (Eq1 : q = 1) by (unfold q; lia).
    destruct Rs as [|i0 [|]] eqn:ERs; cbn in H1'; try lia. destruct Cs as [|j0 [|]] eqn:ECs; cbn in H1'; try lia.
    destruct (HR i0 ltac:(left; auto)) as [Hi0 _]. destruct (HCs j0 ltac:(left; auto)) as [Hj0 _].
    destruct (nth_error_lt (data sub) 0) as (x & Hx); [rewrite Lsub; cbn; lia|].
    assert (Ex : elt a [i0; j0] = Some x).
    { rewrite <- (proj2 (proj2 Hsub) 0 0 i0 j0 eq_refl eq_refl). rewrite (mat_elt sub 1 1) by (auto; apply Hsub). exact Hx. }
    assert (Sx : significant zero_tol x = true).
    { destruct HC as (_ & HB & _). destruct (HB b [i0] [j0] Er Ec) as ((i1 & j1 & I1 & J1 & (x' & Ex' & Sx')) & _). destruct I1 as [<-|[]], J1 as [<-|[]]. congruence. }
    destruct (Habs x Sx) as (A1 & A2 & A3).
    destruct (set1_vec s P q0 (absv x) Ws Ds ltac:(lia)) as (s' & Es' & Ws' & Ds' & Hs1 & Hs2).
    destruct (set2_mat U n P i0 q0 (none_ N) WU DU Hi0 ltac:(lia)) as (U' & EU' & WU' & DU' & HU1 & HU2).
    destruct (set2_mat VT P m q0 j0 (divr x (absv x)) WV DV ltac:(lia) Hj0) as (V' & EV' & WV' & DV' & HV1 & HV2).
    exists (s', U', V', q0 + q). split.
    + refine (FIN s' U' V' (fun _ _ => none_ N) (fun _ => absv x) (fun _ _ => divr x (absv x)) Ws' Ds' WU' DU' WV' DV' _ _); constructor; rewrite ?Eq1.
      * reflexivity.
      * intros x0 y0 Hx0 Hy0. cbn [length] in Hx0, Hy0. replace x0 with 0 by lia. replace y0 with 0 by lia. cbn [sum_n nth]. unfold prods. rewrite (add_0_l _ L), (mul_1_l _ L), A1. unfold val. rewrite Ex. reflexivity.
      * intros k l Hk Hl. replace k with 0 by lia. replace l with 0 by lia. cbn [length sum_n]. rewrite (add_0_l _ L), (conj_1 N L). apply (mul_1_l _ L).
      * intros k l Hk Hl. replace k with 0 by lia. replace l with 0 by lia. cbn [length sum_n]. rewrite (add_0_l _ L). exact A2.
      * intros k _. exact A3.
      * intros x0 y0 Hx0 Hy0. cbn [length] in Hx0. replace x0 with 0 by lia. replace y0 with 0 by lia. cbn [nth]. rewrite Nat.add_0_r. unfold val. rewrite HU1. reflexivity.
      * intros i k Hik. apply val_elt. apply HU2. intros [-> ->]. apply Hik. split; [left; auto|lia].
      * intros x0 y0 Hx0 Hy0. cbn [length] in Hy0. replace x0 with 0 by lia. replace y0 with 0 by lia. cbn [nth]. rewrite Nat.add_0_r. unfold val. rewrite HV1. reflexivity.
      * intros k j Hik. apply val_elt. apply HV2. intros [-> ->]. apply Hik. split; [lia|left; auto].
      * intros y Hy. replace y with 0 by lia. rewrite Nat.add_0_r. unfold rval. rewrite (nth_error_nth _ _ _ Hs1). reflexivity.
      * intros k Hk. unfold rval. assert (H : nth_error (data s') k = nth_error (data s) k) by (apply Hs2; lia).
        destruct (nth_error (data s) k) as [e|] eqn:Es; [rewrite (nth_error_nth _ _ _ H), (nth_error_nth _ _ _ Es); reflexivity|]. apply nth_error_None in H, Es. rewrite !nth_overflow by auto. reflexivity.
    + exists F0. intros fuel Hf. unfold block_step. rewrite (rd_ok _ _ _ Er). cbn [bind]. rewrite (rd_ok _ _ _ Ec). cbn [bind].
      rewrite HF0 by lia. cbn [bind]. replace (1 <? length (data sub)) with false by (rewrite Lsub; reflexivity).
      change (rd [i0] 0) with (Ok i0). change (rd [j0] 0) with (Ok j0). cbn [bind]. rewrite (rd_ok _ _ _ Hx). cbn [bind]. cbv zeta.
      rewrite Es'. cbn [bind]. rewrite EU'. cbn [bind]. rewrite EV'. cbn [bind]. rewrite Eq1. do 2 f_equal. lia.
Qed.

Lemma zeros_mat r c : exists U, zeros N junk [r; c] = Ok U /\ wf U /\ dims U = [r; c] /\ forall ix, val N U ix = nzero N.
Proof.
  unfold zeros. rewrite fill_ok. eexists. split; [reflexivity|]. cbn [dims new_tensor data]. split.
  - unfold wf. cbn [data dims]. rewrite repeat_length. apply new_tensor_wf.
  - split; [reflexivity|]. intros ix. unfold val. destruct (elt _ ix) as [e|] eqn:Ee; [|reflexivity]. unfold elt in Ee. cbn [dims data] in Ee. destruct (validb _ _); [|discriminate].
    apply nth_error_In in Ee. apply repeat_spec in Ee. exact Ee.
Qed.
Lemma zeros_vec p : exists s : tensor R, fill_with (new_tensor junkr [p]) rzero = Ok s /\ wf s /\ dims s = [p] /\ forall k, rval rzero s k = rzero.
Proof.
  rewrite fill_ok. eexists. split; [reflexivity|]. split.
  - unfold wf. cbn [data dims]. rewrite repeat_length. apply new_tensor_wf.
  - split; [reflexivity|]. intros k. unfold rval. cbn [data]. apply List.nth_repeat.
Qed.

Lemma covered i j : i < n -> j < m -> (if inblk rows cols (length rows) i j then val N a [i; j] else nzero N) = val N a [i; j].
Proof.
  intros Hi Hj. destruct (inblk _ _ _ _ _) eqn:Eb; [reflexivity|]. unfold val. destruct (elt a [i; j]) as [x|] eqn:Ex; [|reflexivity].
  destruct (significant zero_tol x) eqn:Sx; [|symmetry; apply Hinsig; auto]. exfalso.
  destruct HC as (_ & _ & HA & _). destruct (HA i j) as (b & Rs & Cs & Er & Ec & Hir & Hjc); [exists x; auto|].
  enough (inblk rows cols (length rows) i j = true) by congruence. unfold inblk. apply existsb_exists. exists b. split; [apply in_seq; pose proof (nth_error_lt_inv _ _ _ Er); lia|].
  rewrite (nth_error_nth _ _ _ Er), (nth_error_nth _ _ _ Ec). apply andb_true_intro. split; apply mem_In; auto.
Qed.

Lemma used_ranks : used rows cols (length rows) = block_ranks rows cols.
Proof.
  pose proof Hlen as HL. clear - HL. unfold block_ranks.
  assert (G : forall b, b <= length rows -> used rows cols b = list_sum (map (fun rc => Nat.min (length (fst rc)) (length (snd rc))) (firstn b (combine rows cols)))).
  { induction b as [|b IH]; intros Hb; [reflexivity|]. cbn [used]. rewrite IH by lia.
    assert (Ec : nth_error (combine rows cols) b = Some (nth b rows [], nth b cols [])).
    { rewrite <- combine_nth by auto. apply nth_error_nth'. rewrite combine_length. lia. }
    assert (Ef : firstn (S b) (combine rows cols) = firstn b (combine rows cols) ++ [(nth b rows [], nth b cols [])]).
    { clear - Ec. revert Ec. generalize (combine rows cols) (nth b rows [], nth b cols []). intros l p. revert l. induction b as [|b IH]; intros [|y l] Ec; try discriminate; cbn in Ec; [injection Ec as ->; reflexivity|].
      change (firstn (S (S b)) (y :: l)) with (y :: firstn (S b) l). rewrite IH by auto. reflexivity. }
    rewrite Ef, map_app, list_sum_app. cbn [map list_sum fold_right fst snd]. lia. }
  rewrite G by auto. rewrite firstn_all2; [reflexivity|]. rewrite combine_length. lia.
Qed.

(* what the loop and the final permutation produce *)
Definition result (s : tensor R) (U VT : tensor A) : Prop :=
  wf s /\ dims s = [P] /\ wf U /\ dims U = [n; P] /\ wf VT /\ dims VT = [P; m] /\
  decomposes N rzero inj a n m P s U VT /\ ordered (fun x y => lt y x) (data s) /\ (forall k, k < P -> lt (rval rzero s k) rzero = false) /\
  exists p, Permutation (seq 0 P) p /\
    (forall k l, k < P -> l < P -> nth k p 0 < block_ranks rows cols -> nth l p 0 < block_ranks rows cols -> col_prod N U n k l = delta N k l /\ row_prod N VT m k l = delta N k l) /\
    (forall k, k < P -> block_ranks rows cols <= nth k p 0 -> rval rzero s k = rzero /\ (forall i, val N U [i; k] = nzero N) /\ (forall j, val N VT [k; j] = nzero N)).

Lemma loop_ok : (n = m \/ economic = true) -> find_blocks significant zero_tol jb junk a zero_tol = Ok (Z.of_nat (length rows), Some (rows, cols)) ->
  exists s U VT, result s U VT /\ exists F, forall fuel, F <= fuel ->
    block_svd N rzero lt absv divr significant zero_tol std_sort_ix svd junk junkr jb fuel a economic = Ok (s, U, VT).
Proof.
  intros Hnm HFB.
  assert (Ew : (if economic then P else n) = P /\ (if economic then P else m) = P) by (unfold P; destruct economic, Hnm as [->|]; try discriminate; lia). destruct Ew as [Ew1 Ew2].
  destruct (zeros_vec P) as (s0 & Es0 & Ws0 & Ds0 & Z0). destruct (zeros_mat n P) as (U0 & EU0 & WU0 & DU0 & ZU). destruct (zeros_mat P m) as (V0 & EV0 & WV0 & DV0 & ZV).
  destruct (for_fuel state_ok (length rows) (fun fuel => block_step N absv divr svd junk fuel a economic rows cols) (s0, U0, V0, 0)) as (st & Hst & F & HF).
  - repeat (split; [assumption|]). constructor.
    + reflexivity.
    + intros i j _ _. reflexivity.
    + intros; lia.
    + intros; lia.
    + intros; apply ZU.
    + intros; apply ZV.
    + intros; auto.
    + intros; lia.
  - intros b st Hb. apply step_ok. auto.
  - destruct st as [[[s U] VT] q]. destruct Hst as (Ws & Ds & WU & DU & WV & DV & SF).
    assert (Hq : q = block_ranks rows cols) by (rewrite (sf_q _ _ _ _ _ _ _ _ _ _ _ _ _ _ SF); apply used_ranks).
    assert (HqP : q <= P) by (rewrite (sf_q _ _ _ _ _ _ _ _ _ _ _ _ _ _ SF); apply used_P).
    assert (HP : 0 < P) by (unfold P; lia).
    assert (Hi : is_std_sort (@insertion_sort R)) by (intros lt' l Hw; apply insertion_sort_ok; auto).
    destruct (sort_indices_ok lt Hlt insertion_sort Hi std_sort_ix Hsi s true rzero) as [Pp Es].
    destruct (sort_ok lt Hlt insertion_sort Hi s true) as (_ & _ & Os).
    set (p := sort_indices lt std_sort_ix s true) in *.
    assert (Ls : length (data s) = P) by (rewrite Ws, Ds; cbn; lia). rewrite Ls in Pp.
    assert (Lp : length p = P) by (rewrite <- (Permutation_length Pp); apply seq_length).
    assert (Hp : forall x, In x p -> x < P) by (intros x Hx; apply (Permutation_in _ (Permutation_sym Pp)) in Hx; apply in_seq in Hx; lia).
    assert (Hpk : forall k, k < P -> nth k p 0 < P) by (intros k Hk; apply Hp, nth_In; lia).
    destruct (slice_t_vec junkr s P (ixs p) p Ws Ds HP (selects_ix P p Hp)) as (s' & (Ws' & Ds' & Hs') & F1 & HF1).
    destruct (slice_t_mat junk U n P SFull (ixs p) _ p WU DU Hn HP (sel_full n) (selects_ix P p Hp)) as (U' & (WU' & DU' & HU') & F2 & HF2).
    destruct (slice_t_mat junk VT P m (ixs p) SFull p _ WV DV HP Hm (selects_ix P p Hp) (sel_full m)) as (V' & (WV' & DV' & HV') & F3 & HF3).
    rewrite seq_length, Lp in *.
    assert (Uu : forall i k, k < P -> val N U' [i; k] = val N U [i; nth k p 0]).
    { intros i k Hk. destruct (lt_dec i n).
      - apply val_elt. apply HU'; [apply nth_error_seq0; auto|apply nth_error_nth'; lia].
      - unfold val. rewrite (mat_elt_out U' n P), (mat_elt_out U n P) by (auto; lia). reflexivity. }
    assert (Vv : forall k j, k < P -> val N V' [k; j] = val N VT [nth k p 0; j]).
    { intros k j Hk. destruct (lt_dec j m).
      - apply val_elt. apply HV'; [apply nth_error_nth'; lia|apply nth_error_seq0; auto].
      - unfold val. rewrite (mat_elt_out V' P m), (mat_elt_out VT P m) by (auto; lia). reflexivity. }
    assert (Ss : forall k, k < P -> rval rzero s' k = rval rzero s (nth k p 0)).
    { intros k Hk. unfold rval. specialize (Hs' k (nth k p 0) ltac:(apply nth_error_nth'; lia)). destruct (nth_error_lt (data s) (nth k p 0)) as (e & He); [rewrite Ls; auto|].
      rewrite He in Hs'. rewrite (nth_error_nth _ _ _ Hs'), (nth_error_nth _ _ _ He). reflexivity. }
    exists s', U', V'. split.
    + repeat (split; [assumption|]). split; [|split; [|split]].
      * intros i j Hi' Hj. rewrite (sum_ext N P _ (fun k => prods N inj (fun i k => val N U [i; k]) (rval rzero s) (fun k j => val N VT [k; j]) i j (nth k p 0))) by (intros k Hk; unfold prods; rewrite Uu, Vv, Ss by auto; reflexivity).
        rewrite (sum_permuted N L P p (prods N inj (fun i k => val N U [i; k]) (rval rzero s) (fun k j => val N VT [k; j]) i j) Pp).
        replace P with (q + (P - q)) by lia. rewrite (sum_app N L q (P - q)). rewrite (sum_0 N L (P - q)).
        -- rewrite (add_comm _ L), (add_0_l _ L). rewrite (sf_dec _ _ _ _ _ _ _ _ _ _ _ _ _ _ SF) by auto. apply covered; auto.
        -- intros k Hk. unfold prods. destruct (sf_rest _ _ _ _ _ _ _ _ _ _ _ _ _ _ SF (q + k) ltac:(lia)) as (Hz & _). rewrite Hz, !(mul_0_l _ L). reflexivity.
      * assert (Ed : data s' = map (fun i => nth i (data s) rzero) p).
        { apply list_eq_nth_len; [rewrite map_length, Ws', Ds'; cbn; lia|]. intros k Hk. assert (HkP : k < P) by (rewrite Ws', Ds' in Hk; cbn in Hk; lia).
          rewrite nth_error_map, (Hs' k (nth k p 0)) by (apply nth_error_nth'; lia). rewrite (nth_error_nth' p 0) by lia. cbn [option_map]. apply nth_error_nth'. rewrite Ls. auto. }
        rewrite Ed, Es. exact Os.
      * intros k Hk. rewrite Ss by auto. destruct (lt_dec (nth k p 0) q) as [Hkq|Hkq]; [apply (sf_pos _ _ _ _ _ _ _ _ _ _ _ _ _ _ SF); auto|].
        destruct (sf_rest _ _ _ _ _ _ _ _ _ _ _ _ _ _ SF (nth k p 0) ltac:(lia)) as (_ & _ & ->). apply (st_irrefl _ Hlt).
      * exists p. split; [auto|]. rewrite <- Hq. split.
        -- intros k l Hk Hl Hkq Hlq. split.
           ++ unfold col_prod. rewrite (sum_ext N n _ (fun i => nmul N (nconj N (val N U [i; nth k p 0])) (val N U [i; nth l p 0]))) by (intros i _; rewrite !Uu by auto; reflexivity).
              rewrite (sf_u _ _ _ _ _ _ _ _ _ _ _ _ _ _ SF _ _ Hkq Hlq). unfold delta. destruct (Nat.eqb_spec k l) as [->|Hne]; [rewrite Nat.eqb_refl; reflexivity|].
              destruct (Nat.eqb_spec (nth k p 0) (nth l p 0)) as [Ee|]; [|reflexivity]. exfalso. apply Hne. refine (proj1 (NoDup_nth p 0) _ k l _ _ Ee); [eapply Permutation_NoDup; [exact Pp|apply seq_NoDup]|lia|lia].
           ++ unfold row_prod. rewrite (sum_ext N m _ (fun j => nmul N (val N VT [nth k p 0; j]) (nconj N (val N VT [nth l p 0; j])))) by (intros i _; rewrite !Vv by auto; reflexivity).
              rewrite (sf_v _ _ _ _ _ _ _ _ _ _ _ _ _ _ SF _ _ Hkq Hlq). unfold delta. destruct (Nat.eqb_spec k l) as [->|Hne]; [rewrite Nat.eqb_refl; reflexivity|].
              destruct (Nat.eqb_spec (nth k p 0) (nth l p 0)) as [Ee|]; [|reflexivity]. exfalso. apply Hne. refine (proj1 (NoDup_nth p 0) _ k l _ _ Ee); [eapply Permutation_NoDup; [exact Pp|apply seq_NoDup]|lia|lia].
        -- intros k Hk Hkq. destruct (sf_rest _ _ _ _ _ _ _ _ _ _ _ _ _ _ SF (nth k p 0) Hkq) as (R1 & R2 & R3). split; [rewrite Ss by auto; exact R3|]. split; intros; [rewrite Uu by auto; apply R1|rewrite Vv by auto; apply R2].
    + exists (Nat.max F (Nat.max F1 (Nat.max F2 F3))). intros fuel Hf. unfold block_svd.
      rewrite (dimension_ok a [] n [m] 0 Da eq_refl : dimension a 0 = Ok n), (dimension_ok a [n] m [] 1 Da eq_refl : dimension a 1 = Ok m). cbn [bind].
      replace (negb (n =? m) && negb economic) with false by (destruct Hnm as [->| ->]; [rewrite Nat.eqb_refl|rewrite andb_false_r]; reflexivity).
      cbv zeta. rewrite HFB. cbn [bind]. fold P. rewrite Es0. cbn [bind]. rewrite Ew1, EU0. cbn [bind]. rewrite Ew2, EV0. cbn [bind]. rewrite Nat2Z.id. rewrite HF by lia. cbn [bind]. fold p.
      rewrite HF1 by lia. cbn [bind]. rewrite HF2 by lia. cbn [bind]. rewrite HF3 by lia. reflexivity.
Qed.
End Loop.

(* the components are unique up to order, and so is the number of their singular values *)
Lemma nth_error_combine {X Y} (l : list X) (l' : list Y) b x y : nth_error (combine l l') b = Some (x, y) <-> nth_error l b = Some x /\ nth_error l' b = Some y.
Proof.
  revert l l'. induction b as [|b IH]; intros [|u l] [|v l']; cbn; try (split; [discriminate|intros []; discriminate]).
  - split; [intros H; injection H as -> ->; auto|intros [H1 H2]; injection H1 as ->; injection H2 as ->; auto].
  - apply IH.
Qed.
Lemma combine_NoDup E rows cols : components E rows cols -> NoDup (combine rows cols).
Proof.
  intros (HL & HB & _ & HD & _). apply NoDup_nth_error. intros b b' Hb Eq. destruct (nth_error_lt (combine rows cols) b Hb) as ([Rs Cs] & Ep).
  assert (Ep' : nth_error (combine rows cols) b' = Some (Rs, Cs)) by congruence. apply nth_error_combine in Ep, Ep'. destruct Ep as [E1 E2], Ep' as [E1' _].
  destruct (HB b Rs Cs E1 E2) as ((i & j & Hi & _) & _). eapply HD; eauto.
Qed.
Lemma block_ranks_unique E rows cols rows' cols' : components E rows cols -> components E rows' cols' -> block_ranks rows cols = block_ranks rows' cols'.
Proof.
  intros HC HC'. unfold block_ranks.
  assert (Pm : Permutation (combine rows cols) (combine rows' cols')).
  { apply NoDup_Permutation; try (eapply combine_NoDup; eauto). intros [Rs Cs].
    split; intros H; apply In_nth_error in H as (b & H); apply nth_error_combine in H as [H1 H2].
    - destruct (proj2 (components_unique _ _ _ _ _ HC HC') b Rs Cs H1 H2) as (b' & H3 & H4). apply (nth_error_In _ b'). apply nth_error_combine. auto.
    - destruct (proj2 (components_unique _ _ _ _ _ HC' HC) b Rs Cs H1 H2) as (b' & H3 & H4). apply (nth_error_In _ b'). apply nth_error_combine. auto. }
  apply (Permutation_map (fun rc => Nat.min (length (fst rc)) (length (snd rc)))) in Pm. unfold list_sum. induction Pm; cbn [fold_right]; lia.
Qed.

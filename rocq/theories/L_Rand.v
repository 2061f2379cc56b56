(* Proofs about the random number generators. *)
From Verif Require Import Base L_Lin M_Rand S_Rand.
Local Open Scope Z_scope.

(* ---- words ---- *)

Lemma lxor_word n a b : 0 <= n -> 0 <= a < 2 ^ n -> 0 <= b < 2 ^ n -> 0 <= Z.lxor a b < 2 ^ n.
Proof.
  intros Hn Ha Hb. assert (H0 : 0 <= Z.lxor a b) by (apply Z.lxor_nonneg; lia). split; [exact H0|].
  destruct (Z.eq_dec (Z.lxor a b) 0) as [->|Hne]; [lia|]. apply Z.log2_lt_pow2; [lia|].
  pose proof (Z.log2_lxor a b ltac:(lia) ltac:(lia)) as Hl.
  destruct (Z.eq_dec a 0) as [->|Ha0]; destruct (Z.eq_dec b 0) as [->|Hb0].
  - rewrite Z.lxor_0_l in Hne. contradiction.
  - rewrite Z.lxor_0_l. apply Z.log2_lt_pow2; lia.
  - rewrite Z.lxor_0_r. apply Z.log2_lt_pow2; lia.
  - assert (Z.log2 a < n) by (apply Z.log2_lt_pow2; lia). assert (Z.log2 b < n) by (apply Z.log2_lt_pow2; lia). lia.
Qed.
Lemma land_word n a b : 0 <= n -> 0 <= a -> 0 <= b < 2 ^ n -> 0 <= Z.land a b < 2 ^ n.
Proof.
  intros Hn Ha Hb. assert (H0 : 0 <= Z.land a b) by (apply Z.land_nonneg; lia). split; [exact H0|].
  destruct (Z.eq_dec (Z.land a b) 0) as [->|Hne]; [lia|]. apply Z.log2_lt_pow2; [lia|].
  pose proof (Z.log2_land a b ltac:(lia) ltac:(lia)) as Hl. destruct (Z.eq_dec b 0) as [->|Hb0]; [rewrite Z.land_0_r in Hne; contradiction|].
  assert (Z.log2 b < n) by (apply Z.log2_lt_pow2; lia). lia.
Qed.
Lemma shiftr_word n a k : 0 <= k -> 0 <= a < 2 ^ n -> 0 <= Z.shiftr a k < 2 ^ n.
Proof.
  intros Hk Ha. rewrite Z.shiftr_div_pow2 by lia. assert (0 < 2 ^ k) by lia. split; [apply Z.div_pos; lia|].
  apply Z.le_lt_trans with a; [|lia]. apply Z.div_le_upper_bound; nia.
Qed.
(* masks *)
Lemma land_low a k : 0 <= k -> Z.land a (2 ^ k - 1) = a mod 2 ^ k.
Proof. intros Hk. rewrite Z.sub_1_r, <- Z.ones_equiv. apply Z.land_ones. auto. Qed.
Lemma land_high n k a : 0 <= k <= n -> 0 <= a < 2 ^ n -> Z.land a (2 ^ n - 2 ^ k) = a / 2 ^ k * 2 ^ k.
Proof.
  intros Hk Ha. replace (2 ^ n - 2 ^ k) with (Z.shiftl (Z.ones (n - k)) k).
  - rewrite <- Z.shiftr_div_pow2, <- Z.shiftl_mul_pow2 by lia. apply Z.bits_inj'. intros i Hi.
    rewrite Z.land_spec. rewrite !Z.shiftl_spec by lia. destruct (Z.lt_ge_cases i k) as [L|L].
    + rewrite !(Z.testbit_neg_r _ (i - k)) by lia. apply andb_false_r.
    + rewrite Z.shiftr_spec by lia. replace (i - k + k) with i by lia. destruct (Z.lt_ge_cases i n) as [L'|L'].
      * rewrite Z.ones_spec_low by lia. apply andb_true_r.
      * rewrite Z.ones_spec_high by lia. rewrite andb_false_r. symmetry. destruct (Z.eq_dec a 0) as [->|Hne]; [apply Z.testbit_0_l|].
        apply Z.bits_above_log2; [lia|]. apply Z.lt_le_trans with n; [|lia]. apply Z.log2_lt_pow2; lia.
  - rewrite Z.shiftl_mul_pow2, Z.ones_equiv by lia. rewrite <- Z.sub_1_r, Z.mul_sub_distr_r, <- Z.pow_add_r by lia. f_equal; [f_equal; lia|lia].
Qed.
Lemma lor_disjoint a b k : 0 <= k -> 0 <= b < 2 ^ k -> Z.lor (a * 2 ^ k) b = a * 2 ^ k + b.
Proof.
  intros Hk Hb. symmetry. rewrite <- Z.lxor_lor; [apply Z.add_nocarry_lxor|]; apply Z.bits_inj'; intros i Hi; rewrite Z.land_spec, Z.testbit_0_l;
  (destruct (Z.lt_ge_cases i k) as [L|L]; [rewrite Z.mul_pow2_bits_low by lia; reflexivity|]; rewrite andb_comm;
   replace (Z.testbit b i) with false; [reflexivity|]; symmetry; destruct (Z.eq_dec b 0) as [->|Hne]; [apply Z.testbit_0_l|];
   apply Z.bits_above_log2; [lia|]; apply Z.lt_le_trans with k; [apply Z.log2_lt_pow2; lia|lia]).
Qed.

(* ---- the block refill produces the recurrence ---- *)

Section Gen.
Context (p : mt_params) (HM : (0 < MM p < NN p)%nat).
Local Open Scope nat_scope.

Definition recur (x : nat -> Z) : Prop := forall k, x (k + NN p) = mix p (x k) (x (k + 1)) (x (k + MM p)).
Definition window (x : nat -> Z) (b : nat) : list Z := map (fun q => x (b + q)) (seq 0 (NN p)).

Lemma window_len x b : length (window x b) = NN p.
Proof. unfold window. rewrite map_length, seq_length. reflexivity. Qed.
Lemma window_nth x b q : q < NN p -> nth_error (window x b) q = Some (x (b + q)).
Proof. intros H. unfold window. rewrite nth_error_map_seq by auto. reflexivity. Qed.

(* the first i words are new *)
Definition partly (x : nat -> Z) (b i : nat) (m : list Z) : Prop :=
  length m = NN p /\ forall q, q < NN p -> nth_error m q = Some (x (b + q + if q <? i then NN p else 0)).

Lemma partly_step x b i m u v w : recur x -> i < NN p -> partly x b i m ->
  u = x (b + i) -> v = x (b + i + 1) -> w = x (b + i + MM p) ->
  exists m', wr m i (mix p u v w) = Ok m' /\ partly x b (S i) m'.
Proof.
  intros Hr Hi [Hl Hn] -> -> ->. rewrite wr_ok by lia. eexists. split; [reflexivity|]. split; [rewrite length_upd; auto|].
  intros q Hq. rewrite nth_error_upd. replace (i <? length m) with true by lia. rewrite andb_true_r.
  destruct (Nat.eqb_spec q i) as [->|N].
  - replace (i <? S i) with true by lia. rewrite Hr. reflexivity.
  - rewrite Hn by auto. replace (q <? S i) with (q <? i) by lia. reflexivity.
Qed.

Lemma refill_ok x b : recur x -> refill p (window x b) = Ok (window x (b + NN p)).
Proof.
  intros Hr. unfold refill.
  destruct (for_inv (partly x b) (NN p - MM p) (fun i m => u <- rd m i;; v <- rd m (i + 1);; w <- rd m (i + MM p);; wr m i (mix p u v w)) (window x b)) as (m1 & E1 & H1).
  { split; [apply window_len|]. intros q Hq. rewrite window_nth by auto. replace (q <? 0) with false by lia. rewrite Nat.add_0_r. reflexivity. }
  { intros i m Hi Hm. destruct Hm as [Hl Hn].
    rewrite (rd_ok m i (x (b + i))) by (rewrite Hn by lia; rewrite Nat.ltb_irrefl, Nat.add_0_r; reflexivity).
    rewrite (rd_ok m (i + 1) (x (b + i + 1))) by (rewrite Hn by lia; replace (i + 1 <? i) with false by lia; f_equal; f_equal; lia).
    rewrite (rd_ok m (i + MM p) (x (b + i + MM p))) by (rewrite Hn by lia; replace (i + MM p <? i) with false by lia; f_equal; f_equal; lia).
    cbn [bind]. eapply partly_step; eauto; [lia|split; auto]. }
  rewrite E1. cbn [bind]. clear E1.
  match goal with |- context [for_ (MM p - 1) ?f m1] => destruct (for_inv (fun j => partly x b (NN p - MM p + j)) (MM p - 1) f m1) as (m2 & E2 & H2) end.
  { rewrite Nat.add_0_r. exact H1. }
  { intros j m Hj Hm. cbv zeta. set (i := NN p - MM p + j) in *. assert (Hm' := Hm). destruct Hm' as [Hl Hn].
    rewrite (rd_ok m i (x (b + i))) by (rewrite Hn by lia; rewrite Nat.ltb_irrefl, Nat.add_0_r; reflexivity).
    rewrite (rd_ok m (i + 1) (x (b + i + 1))) by (rewrite Hn by lia; replace (i + 1 <? i) with false by lia; f_equal; f_equal; lia).
    unfold rdZ. replace (Z.of_nat i + (Z.of_nat (MM p) - Z.of_nat (NN p)) <? 0)%Z with false by lia.
    replace (Z.to_nat (Z.of_nat i + (Z.of_nat (MM p) - Z.of_nat (NN p)))) with (i + MM p - NN p) by lia.
    rewrite (rd_ok m (i + MM p - NN p) (x (b + i + MM p))) by (rewrite Hn by lia; replace (i + MM p - NN p <? i) with true by lia; f_equal; f_equal; lia).
    cbn [bind]. replace (NN p - MM p + S j) with (S i) by lia. eapply partly_step; eauto. lia. }
  rewrite E2. cbn [bind]. clear E2. replace (NN p - MM p + (MM p - 1)) with (NN p - 1) in H2 by lia.
  assert (H2' := H2). destruct H2' as [Hl Hn].
  rewrite (rd_ok m2 (NN p - 1) (x (b + (NN p - 1)))) by (rewrite Hn by lia; rewrite Nat.ltb_irrefl, Nat.add_0_r; reflexivity).
  rewrite (rd_ok m2 0 (x (b + (NN p - 1) + 1))) by (rewrite Hn by lia; replace (0 <? NN p - 1) with true by lia; f_equal; f_equal; lia).
  rewrite (rd_ok m2 (MM p - 1) (x (b + (NN p - 1) + MM p))) by (rewrite Hn by lia; replace (MM p - 1 <? NN p - 1) with true by lia; f_equal; f_equal; lia).
  cbn [bind]. edestruct (partly_step x b (NN p - 1) m2) as (m3 & E3 & H3); eauto; [lia|]. rewrite E3. f_equal.
  destruct H3 as [Hl3 Hn3]. apply list_eq_nth_len; [rewrite window_len; auto|]. intros q Hq. rewrite Hl3 in Hq. rewrite Hn3, window_nth by auto.
  replace (q <? S (NN p - 1)) with true by lia. f_equal. f_equal. lia.
Qed.

(* a state from which the outputs are x (NN + k), x (NN + k + 1), ...; k words
   have been drawn since seeding *)
Definition follows (x : nat -> Z) (k : nat) (st : mt_state) : Prop :=
  mti st <= NN p /\ exists b, mt st = window x b /\ b + mti st = k + NN p.

Lemma genrand_ok x k st : recur x -> follows x k st -> exists st', genrand p st = Ok (temper p (x (NN p + k)), st') /\ follows x (S k) st'.
Proof.
  intros Hr (Hm & b & Ew & Eb). unfold genrand. destruct (Nat.leb_spec (NN p) (mti st)).
  - replace (mti st =? NN p + 1) with false by lia. cbn [bind]. rewrite Ew, refill_ok by auto. cbn [bind mt mti].
    rewrite (rd_ok _ 0 (x (b + NN p + 0))) by (apply window_nth; lia). cbn [bind]. eexists. split; [do 4 f_equal; lia|].
    split; [cbn; lia|]. exists (b + NN p). split; [reflexivity|]. cbn [mti]. lia.
  - cbn [bind]. rewrite (rd_ok _ (mti st) (x (b + mti st))) by (rewrite Ew; apply window_nth; lia). cbn [bind]. eexists. split; [do 4 f_equal; lia|].
    split; [cbn [mti]; lia|]. exists b. split; [exact Ew|]. cbn [mti]. lia.
Qed.
Lemma draws_ok x n k st : recur x -> follows x k st ->
  exists st', draws p n st = Ok (map (fun i => temper p (x (NN p + (k + i)))) (seq 0 n), st') /\ follows x (k + n) st'.
Proof.
  intros Hr. revert k st. induction n as [|n IH]; intros k st Hf.
  - exists st. rewrite Nat.add_0_r. auto.
  - destruct (genrand_ok x k st Hr Hf) as (st1 & E1 & H1). destruct (IH (S k) st1 H1) as (st2 & E2 & H2).
    exists st2. cbn [draws]. rewrite E1. cbn [bind]. rewrite E2. cbn [bind]. split.
    + f_equal. f_equal. cbn [seq map]. rewrite Nat.add_0_r. f_equal. rewrite <- seq_shift, map_map. apply map_ext. intros i. do 2 f_equal. lia.
    + replace (k + S n) with (S k + n) by lia. exact H2.
Qed.

(* a sequence exists for any first words *)
Definition slide (l : list Z) : list Z :=
  tl l ++ [mix p (nth 0 l 0%Z) (nth 1 l 0%Z) (nth (MM p) l 0%Z)].
Fixpoint slides (n : nat) (l : list Z) : list Z := match n with 0 => l | S n => slide (slides n l) end.
Definition sequence (l : list Z) (k : nat) : Z := nth 0 (slides k l) 0%Z.
Lemma slide_len l : length l = NN p -> length (slide l) = NN p.
Proof. intros H. unfold slide. rewrite app_length. destruct l; cbn [tl length] in *; lia. Qed.
Lemma slides_len n l : length l = NN p -> length (slides n l) = NN p.
Proof. intros H. induction n; cbn [slides]; auto using slide_len. Qed.
Lemma slide_nth l q : length l = NN p -> q + 1 < NN p -> nth q (slide l) 0%Z = nth (q + 1) l 0%Z.
Proof.
  intros H Hq. unfold slide. destruct l as [|a l]; [cbn [length] in H; lia|]. cbn [tl]. cbn [length] in H. rewrite app_nth1 by lia.
  rewrite Nat.add_1_r. reflexivity.
Qed.
Lemma slides_nth l k q : length l = NN p -> q < NN p -> nth q (slides k l) 0%Z = sequence l (k + q).
Proof.
  intros H. revert k. induction q as [|q IH]; intros k Hq.
  - rewrite Nat.add_0_r. reflexivity.
  - replace (k + S q) with (S k + q) by lia. rewrite <- IH by lia. cbn [slides]. rewrite slide_nth by (auto using slides_len; lia).
    rewrite Nat.add_1_r. reflexivity.
Qed.
Lemma sequence_recur l : length l = NN p -> recur (sequence l).
Proof.
  intros H k. replace (k + NN p) with (S k + (NN p - 1)) by lia. rewrite <- slides_nth by (auto; lia). cbn [slides].
  unfold slide. rewrite app_nth2 by (destruct (slides k l) eqn:E; pose proof (slides_len k l H) as L; rewrite E in L; cbn [length tl] in *; lia).
  replace (NN p - 1 - length (tl (slides k l))) with 0.
  - cbn [nth]. rewrite !slides_nth by (auto; lia). rewrite Nat.add_0_r. reflexivity.
  - pose proof (slides_len k l H) as L. destruct (slides k l); cbn [length tl] in *; lia.
Qed.
Lemma sequence_start l q : length l = NN p -> q < NN p -> sequence l q = nth q l 0%Z.
Proof. intros H Hq. rewrite <- (Nat.add_0_l q) at 1. rewrite <- slides_nth by auto. reflexivity. Qed.
Lemma window_sequence l : length l = NN p -> window (sequence l) 0 = l.
Proof.
  intros H. apply list_eq_nth_len; [rewrite window_len; auto|]. intros q Hq. rewrite window_len in Hq. rewrite window_nth by auto.
  cbn [Nat.add]. rewrite sequence_start by auto. symmetry. apply nth_error_nth'. lia.
Qed.

(* seeding *)
Definition seed_word (prev : Z) (i : nat) : Z :=
  ((init_mul p * (Z.lxor prev (Z.shiftr prev (init_shift p))) + Z.of_nat i) mod 2 ^ wbits p)%Z.
Lemma init_ok s st : length (mt st) = NN p -> exists m, init_genrand p s st = Ok (mkMS m (NN p)) /\ length m = NN p /\
  nth 0 m 0%Z = (s mod 2 ^ wbits p)%Z /\ forall i, 0 < i < NN p -> nth i m 0%Z = seed_word (nth (i - 1) m 0%Z) i.
Proof.
  intros Hl. unfold init_genrand. rewrite wr_ok by lia. cbn [bind].
  destruct (for_inv (fun i m => length m = NN p /\ nth 0 m 0%Z = (s mod 2 ^ wbits p)%Z /\ forall j, 0 < j <= i -> nth j m 0%Z = seed_word (nth (j - 1) m 0%Z) j)
     (NN p - 1) (fun i m => prev <- rd m i ;; wr m (S i) (seed_word prev (S i))) (upd (mt st) 0 (s mod 2 ^ wbits p)%Z)) as (m & E & Hm & H0 & H1).
  - split; [rewrite length_upd; auto|]. split; [|lia]. destruct (mt st); [cbn [length] in Hl; lia|reflexivity].
  - intros i m Hi (Hm & H0 & H1). destruct (nth_error_lt m i ltac:(lia)) as (prev & Hp). rewrite (rd_ok _ _ _ Hp). cbn [bind]. rewrite wr_ok by lia.
    assert (Hnu : forall q, q < length m -> nth q (upd m (S i) (seed_word prev (S i))) 0%Z = if q =? S i then seed_word prev (S i) else nth q m 0%Z).
    { intros q Hq. apply nth_error_nth. rewrite nth_error_upd. replace (S i <? length m) with true by lia. rewrite andb_true_r.
      destruct (q =? S i); [reflexivity|]. apply nth_error_nth'. auto. }
    eexists. split; [reflexivity|]. rewrite length_upd. split; [auto|]. split; [rewrite Hnu by lia; exact H0|].
    intros j Hj. rewrite !Hnu by lia. replace (j - 1 =? S i) with false by lia. destruct (Nat.eqb_spec j (S i)) as [->|N].
    + replace (S i - 1) with i by lia. rewrite (nth_error_nth _ _ 0%Z Hp). reflexivity.
    + apply H1. lia.
  - unfold seed_word in E. rewrite E. cbn [bind]. exists m. split; [reflexivity|]. split; [auto|]. split; [auto|]. intros i Hi. apply H1. lia.
Qed.

(* all states a program can reach *)
Definition sane (st : mt_state) : Prop := length (mt st) = NN p /\ mti st <= NN p + 1.
Lemma start_sane : sane (mt_start p).
Proof. split; [apply repeat_length|cbn; lia]. Qed.
Lemma init_sane s st : sane st -> exists st', init_genrand p s st = Ok st' /\ sane st' /\ mti st' = NN p.
Proof. intros [H _]. destruct (init_ok s st H) as (m & E & Hm & _). eexists. split; [exact E|]. split; [split; cbn; [auto|lia]|reflexivity]. Qed.
Lemma refill_sane m : length m = NN p -> exists m', refill p m = Ok m' /\ length m' = NN p.
Proof.
  intros H. rewrite <- (window_sequence m H). rewrite refill_ok by (apply sequence_recur; auto). eexists. split; [reflexivity|apply window_len].
Qed.
Lemma genrand_sane st : sane st -> exists x st', genrand p st = Ok (x, st') /\ sane st'.
Proof.
  intros [Hl Hm]. unfold genrand. destruct (Nat.leb_spec (NN p) (mti st)).
  - assert (E : exists st1, (if mti st =? NN p + 1 then init_genrand p 5489 st else Ok st) = Ok st1 /\ length (mt st1) = NN p).
    { destruct (mti st =? NN p + 1); [|eauto]. destruct (init_ok 5489 st Hl) as (m & E & Hm' & _). eauto. }
    destruct E as (st1 & E & H1). rewrite E. cbn [bind]. destruct (refill_sane (mt st1) H1) as (m' & E' & H'). rewrite E'. cbn [bind mt mti].
    destruct (nth_error_lt m' 0 ltac:(lia)) as (x & Hx). rewrite (rd_ok _ _ _ Hx). cbn [bind]. eexists _, _. split; [reflexivity|]. split; cbn; [auto|lia].
  - cbn [bind]. destruct (nth_error_lt (mt st) (mti st) ltac:(lia)) as (x & Hx). rewrite (rd_ok _ _ _ Hx). cbn [bind].
    eexists _, _. split; [reflexivity|]. split; cbn [mt mti]; [auto|lia].
Qed.
Lemma array_sane key st : key <> [] -> sane st -> exists st', init_by_array p key st = Ok st' /\ sane st' /\ mti st' = NN p.
Proof.
  intros Hk Hs. unfold init_by_array. destruct (init_sane 19650218 st Hs) as (st1 & E1 & [Hl1 _] & Ht). rewrite E1. cbn [bind]. cbv zeta.
  assert (Hkl : 0 < length key) by (destruct key; [contradiction|cbn [length]; lia]).
  pose (next_i := fun (m : list Z) (i : nat) => if NN p <=? S i then last <- rd m (NN p - 1);; m <- wr m 0 last;; Ok (m, 1) else Ok (m, S i)).
  assert (Hni : forall m i, length m = NN p -> 0 < i < NN p -> exists m' i', next_i m i = Ok (m', i') /\ length m' = NN p /\ 0 < i' < NN p).
  { intros m i Hm Hi. unfold next_i. destruct (Nat.leb_spec (NN p) (S i)); [|exists m, (S i); split; [reflexivity|split; [auto|lia]]].
    destruct (nth_error_lt m (NN p - 1) ltac:(lia)) as (y & Hy). rewrite (rd_ok _ _ _ Hy). cbn [bind]. rewrite wr_ok by lia. cbn [bind].
    eexists _, _. split; [reflexivity|]. rewrite length_upd. split; [auto|lia]. }
  match goal with |- context [for_ (Nat.max _ _) ?f ?s0] => 
    destruct (for_inv (fun _ s => let '(m, i, j) := s in length m = NN p /\ 0 < i < NN p /\ j < length key) (Nat.max (NN p) (length key)) f s0) as ([[m i] j] & E & Hm & Hi & Hj) end.
  { split; [auto|]. lia. }
  { intros q [[m i] j] _ (Hm & Hi & Hj). destruct (nth_error_lt m i ltac:(lia)) as (a & Ha). destruct (nth_error_lt m (i - 1) ltac:(lia)) as (b & Hb).
    destruct (nth_error_lt key j ltac:(lia)) as (k & Hk'). rewrite (rd_ok _ _ _ Ha), (rd_ok _ _ _ Hb), (rd_ok _ _ _ Hk'). cbn [bind]. rewrite wr_ok by lia. cbn [bind].
    match goal with |- context [rd ?mm (NN p - 1)] => destruct (Hni mm i ltac:(rewrite length_upd; auto) ltac:(lia)) as (m' & i' & En & Hm' & Hi') end.
    unfold next_i in En. rewrite En. cbn [bind]. eexists. split; [reflexivity|]. cbn. split; [auto|]. split; [lia|]. destruct (Nat.leb_spec (length key) (S j)); lia. }
  rewrite E. cbn [bind]. clear E.
  match goal with |- context [for_ (NN p - 1) ?f ?s0] => 
    destruct (for_inv (fun _ s => let '(m, i) := s in length m = NN p /\ 0 < i < NN p) (NN p - 1) f s0) as ([m2 i2] & E & Hm2 & Hi2) end.
  { auto. }
  { intros q [m' i'] _ (Hm' & Hi'). destruct (nth_error_lt m' i' ltac:(lia)) as (a & Ha). destruct (nth_error_lt m' (i' - 1) ltac:(lia)) as (b & Hb).
    rewrite (rd_ok _ _ _ Ha), (rd_ok _ _ _ Hb). cbn [bind]. rewrite wr_ok by lia. cbn [bind].
    match goal with |- context [rd ?mm (NN p - 1)] => destruct (Hni mm i' ltac:(rewrite length_upd; auto) ltac:(lia)) as (m'' & i'' & En & Hm'' & Hi'') end.
    unfold next_i in En. rewrite En. eexists. split; [reflexivity|]. cbn. auto. }
  rewrite E. cbn [bind]. rewrite wr_ok by lia. cbn [bind]. eexists. split; [reflexivity|]. split; [split; cbn; [rewrite length_upd; auto|lia]|exact Ht].
Qed.
Definition op_ok (o : rand_op) : Prop := match o with SeedArray key => key <> [] | _ => True end.
Lemma run_sane h st : Forall op_ok h -> sane st -> exists st', rand_run p h st = Ok st' /\ sane st'.
Proof.
  intros H. revert st. induction H as [|o h Ho _ IH]; intros st Hs; [exists st; auto|]. cbn [rand_run].
  assert (E : exists st1, rand_step p o st = Ok st1 /\ sane st1).
  { destruct o as [s|key|]; cbn [rand_step].
    - destruct (init_sane s st Hs) as (st1 & E & H1 & _). eauto.
    - destruct (array_sane key st Ho Hs) as (st1 & E & H1 & _). eauto.
    - destruct (genrand_sane st Hs) as (x & st1 & E & H1). rewrite E. cbn. eauto. }
  destruct E as (st1 & E & H1). rewrite E. cbn [bind]. apply IH. auto.
Qed.
(* after seeding, the outputs *)
Lemma seed_follows x s st : recur x -> sane st -> x 0 = (s mod 2 ^ wbits p)%Z -> (forall i, 0 < i < NN p -> x i = seed_word (x (i - 1)) i) ->
  exists st', init_genrand p s st = Ok st' /\ follows x 0 st'.
Proof.
  intros Hr [Hl _] H0 Hi. destruct (init_ok s st Hl) as (m & E & Hm & H0' & Hi'). eexists. split; [exact E|].
  split; [cbn; lia|]. exists 0. split; [|cbn; lia]. cbn [mt]. apply list_eq_nth_len; [rewrite window_len; auto|].
  assert (G : forall q, q < NN p -> nth q m 0%Z = x q).
  { induction q as [|q IH]; intros Hq; [congruence|]. rewrite Hi', Hi by lia. replace (S q - 1) with q by lia. rewrite IH by lia. reflexivity. }
  intros q Hq. rewrite window_nth by lia. cbn [Nat.add]. rewrite <- G by lia. apply nth_error_nth'. lia.
Qed.
(* a generator never seeded uses the seed 5489 *)
Lemma unseeded st : sane st -> mti st = NN p + 1 -> forall st', init_genrand p 5489 st = Ok st' -> genrand p st = genrand p st'.
Proof.
  intros Hs Ht st' E. destruct (init_sane 5489 st Hs) as (st1 & E1 & [Hl1 _] & Ht1). rewrite E in E1. inversion E1; subst st1.
  unfold genrand. rewrite Ht, Ht1. replace (NN p <=? NN p + 1) with true by lia. rewrite Nat.eqb_refl, E. cbn [bind].
  replace (NN p <=? NN p) with true by lia. replace (NN p =? NN p + 1) with false by lia. reflexivity.
Qed.
End Gen.

(* ---- the two instances ---- *)

Lemma land1_odd y : (if Z.land y 1 =? 1 then true else false) = Z.odd y.
Proof.
  replace 1 with (Z.ones 1) at 1 by reflexivity. rewrite Z.land_ones by lia. change (2 ^ 1) with 2. rewrite Zmod_odd. destruct (Z.odd y); reflexivity.
Qed.
Lemma mix64_ok u v m : 0 <= u < 2 ^ 64 -> mix mt64 u v m = twist64 u v m.
Proof.
  intros Hu. unfold mix, twist64. cbn [UM LM MATRIX_A mt64].
  replace 0xFFFFFFFF80000000 with (2 ^ 64 - 2 ^ 31) by reflexivity. replace 0x7FFFFFFF with (2 ^ 31 - 1) by reflexivity.
  rewrite land_high, land_low by lia. rewrite lor_disjoint by (lia || apply Z.mod_pos_bound; lia).
  set (y := u / 2 ^ 31 * 2 ^ 31 + v mod 2 ^ 31). rewrite Z.shiftr_div_pow2 by lia. change (2 ^ 1) with 2. rewrite <- Z.lxor_assoc.
  rewrite <- (land1_odd y). destruct (Z.land y 1 =? 1); reflexivity.
Qed.
Lemma mix32_ok u v m : 0 <= u < 2 ^ 32 -> mix mt32 u v m = twist32 u v m.
Proof.
  intros Hu. unfold mix, twist32. cbn [UM LM MATRIX_A mt32].
  replace 0x80000000 with (2 ^ 32 - 2 ^ 31) by reflexivity. replace 0x7FFFFFFF with (2 ^ 31 - 1) by reflexivity.
  rewrite land_high, land_low by lia. rewrite lor_disjoint by (lia || apply Z.mod_pos_bound; lia).
  set (y := u / 2 ^ 31 * 2 ^ 31 + v mod 2 ^ 31). rewrite Z.shiftr_div_pow2 by lia. change (2 ^ 1) with 2. rewrite <- Z.lxor_assoc.
  rewrite <- (land1_odd y). destruct (Z.land y 1 =? 1); reflexivity.
Qed.
Lemma temper64_ok x : temper64 x = output64 x.
Proof. unfold temper64, output64. rewrite !Z.shiftr_div_pow2, !Z.shiftl_mul_pow2 by lia. reflexivity. Qed.
Lemma temper32_ok x : temper32 x = output32 x.
Proof. unfold temper32, output32. rewrite !Z.shiftr_div_pow2, !Z.shiftl_mul_pow2 by lia. reflexivity. Qed.

Lemma twist_word n u v m a : 31 <= n -> 0 <= u < 2 ^ n -> 0 <= m < 2 ^ n -> 0 <= a < 2 ^ n ->
  0 <= (let y := u / 2 ^ 31 * 2 ^ 31 + v mod 2 ^ 31 in Z.lxor m (Z.lxor (y / 2) (if Z.odd y then a else 0))) < 2 ^ n.
Proof.
  intros Hn Hu Hm Ha. cbv zeta. assert (Hn' : 0 < 2 ^ (n - 31)) by lia. assert (Ep : 2 ^ n = 2 ^ (n - 31) * 2 ^ 31) by (rewrite <- Z.pow_add_r by lia; f_equal; lia).
  assert (Hy : 0 <= u / 2 ^ 31 * 2 ^ 31 + v mod 2 ^ 31 < 2 ^ n).
  { pose proof (Z.mod_pos_bound v (2 ^ 31)). assert (0 <= u / 2 ^ 31 < 2 ^ (n - 31)) by (split; [apply Z.div_pos; lia|apply Z.div_lt_upper_bound; lia]). nia. }
  set (y := u / 2 ^ 31 * 2 ^ 31 + v mod 2 ^ 31) in *. apply lxor_word; [lia|auto|]. apply lxor_word; [lia| |destruct (Z.odd y); lia].
  split; [apply Z.div_pos; lia|]. apply Z.div_lt_upper_bound; lia.
Qed.
Lemma word64 x : recurrence64 x -> (forall i, (i < 312)%nat -> 0 <= x i < 2 ^ 64) -> forall i, 0 <= x i < 2 ^ 64.
Proof.
  intros Hr H i. induction i as [i IH] using lt_wf_ind. destruct (Nat.lt_ge_cases i 312); [auto|]. replace i with (i - 312 + 312)%nat by lia. rewrite Hr.
  apply twist_word; try lia; try (apply IH; lia).
Qed.
Lemma word32 x : recurrence32 x -> (forall i, (i < 624)%nat -> 0 <= x i < 2 ^ 32) -> forall i, 0 <= x i < 2 ^ 32.
Proof.
  intros Hr H i. induction i as [i IH] using lt_wf_ind. destruct (Nat.lt_ge_cases i 624); [auto|]. replace i with (i - 624 + 624)%nat by lia. rewrite Hr.
  apply twist_word; try lia; try (apply IH; lia).
Qed.
Lemma seeded64_word s x : seeded64 s x -> forall i, (i < 312)%nat -> 0 <= x i < 2 ^ 64.
Proof. intros [H0 H] [|i] Hi; [rewrite H0|rewrite H by lia; cbv zeta]; apply Z.mod_pos_bound; lia. Qed.
Lemma seeded32_word s x : seeded32 s x -> forall i, (i < 624)%nat -> 0 <= x i < 2 ^ 32.
Proof. intros [H0 H] [|i] Hi; [rewrite H0|rewrite H by lia; cbv zeta]; apply Z.mod_pos_bound; lia. Qed.

Lemma recur64 x : (forall i, 0 <= x i < 2 ^ 64) -> (recur mt64 x <-> recurrence64 x).
Proof. intros Hw. split; intros H k; [rewrite <- mix64_ok by auto|rewrite mix64_ok by auto]; exact (H k). Qed.
Lemma recur32 x : (forall i, 0 <= x i < 2 ^ 32) -> (recur mt32 x <-> recurrence32 x).
Proof. intros Hw. split; intros H k; [rewrite <- mix32_ok by auto|rewrite mix32_ok by auto]; exact (H k). Qed.

Lemma output64_word x : 0 <= x < 2 ^ 64 -> 0 <= output64 x < 2 ^ 64.
Proof.
  intros Hx. rewrite <- temper64_ok. unfold temper64. repeat (apply lxor_word; [lia| |]); repeat (apply shiftr_word; [lia|]); repeat (apply lxor_word; [lia| |]); auto; try (apply land_word; [lia| |lia]);
  try (apply Z.mod_pos_bound; lia); try (apply Z.shiftr_nonneg; lia).
Qed.
Lemma output32_word x : 0 <= x < 2 ^ 32 -> 0 <= output32 x < 2 ^ 32.
Proof.
  intros Hx. rewrite <- temper32_ok. unfold temper32. repeat (apply lxor_word; [lia| |]); repeat (apply shiftr_word; [lia|]); repeat (apply lxor_word; [lia| |]); auto; try (apply land_word; [lia| |lia]);
  try (apply Z.mod_pos_bound; lia); try (apply shiftr_word; [lia|auto]).
Qed.

(* sequences from a seed exist *)
Lemma init64_exists s : exists x, seeded64 s x /\ recurrence64 x.
Proof.
  assert (HM : (0 < MM mt64 < NN mt64)%nat) by (cbn; lia).
  destruct (init_ok mt64 HM s (mt_start mt64) (proj1 (start_sane mt64 HM))) as (m & _ & Hm & H0 & Hi).
  exists (sequence mt64 m). assert (Hs : seeded64 s (sequence mt64 m)).
  { split; [rewrite sequence_start by (auto; cbn; lia); exact H0|]. intros i Hi'. cbv zeta. rewrite !sequence_start by (auto; cbn [NN mt64]; lia). rewrite Hi by auto.
    unfold seed_word. cbn [init_mul init_shift wbits mt64]. rewrite Z.shiftr_div_pow2 by lia. reflexivity. }
  split; [exact Hs|].
  pose proof (sequence_recur mt64 HM m Hm) as Hr. assert (Hw : forall i, 0 <= sequence mt64 m i < 2 ^ 64).
  { intros i. induction i as [i IH] using lt_wf_ind. destruct (Nat.lt_ge_cases i 312); [apply (seeded64_word s); auto|].
    replace i with (i - 312 + NN mt64)%nat by (cbn [NN mt64]; lia). rewrite (Hr (i - 312)%nat). rewrite mix64_ok by (apply IH; lia). apply twist_word; try lia; apply IH; cbn [MM mt64]; lia. }
  apply recur64; auto.
Qed.
Lemma init32_exists s : exists x, seeded32 s x /\ recurrence32 x.
Proof.
  assert (HM : (0 < MM mt32 < NN mt32)%nat) by (cbn; lia).
  destruct (init_ok mt32 HM s (mt_start mt32) (proj1 (start_sane mt32 HM))) as (m & _ & Hm & H0 & Hi).
  exists (sequence mt32 m). assert (Hs : seeded32 s (sequence mt32 m)).
  { split; [rewrite sequence_start by (auto; cbn; lia); exact H0|]. intros i Hi'. cbv zeta. rewrite !sequence_start by (auto; cbn [NN mt32]; lia). rewrite Hi by auto.
    unfold seed_word. cbn [init_mul init_shift wbits mt32]. rewrite Z.shiftr_div_pow2 by lia. reflexivity. }
  split; [exact Hs|].
  pose proof (sequence_recur mt32 HM m Hm) as Hr. assert (Hw : forall i, 0 <= sequence mt32 m i < 2 ^ 32).
  { intros i. induction i as [i IH] using lt_wf_ind. destruct (Nat.lt_ge_cases i 624); [apply (seeded32_word s); auto|].
    replace i with (i - 624 + NN mt32)%nat by (cbn [NN mt32]; lia). rewrite (Hr (i - 624)%nat). rewrite mix32_ok by (apply IH; lia). apply twist_word; try lia; apply IH; cbn [MM mt32]; lia. }
  apply recur32; auto.
Qed.

Lemma hm64 : (0 < MM mt64 < NN mt64)%nat. Proof. cbn; lia. Qed.
Lemma hm32 : (0 < MM mt32 < NN mt32)%nat. Proof. cbn; lia. Qed.

Lemma seed64_draws s x st n : sane mt64 st -> seeded64 s x -> recurrence64 x ->
  exists st1 st2, init_genrand mt64 s st = Ok st1 /\ draws mt64 n st1 = Ok (map (fun i => output64 (x (312 + i)%nat)) (seq 0 n), st2).
Proof.
  intros Hs H Hr. assert (Hw : forall i, 0 <= x i < 2 ^ 64) by (apply word64; auto; eapply seeded64_word; eauto).
  assert (Hr' : recur mt64 x) by (apply recur64; auto).
  destruct (seed_follows mt64 hm64 x s st Hr' Hs) as (st1 & E1 & H1).
  - exact (proj1 H).
  - intros i Hi. rewrite (proj2 H) by auto. unfold seed_word. cbn [init_mul init_shift wbits mt64]. rewrite Z.shiftr_div_pow2 by lia. reflexivity.
  - destruct (draws_ok mt64 hm64 x n 0 st1 Hr' H1) as (st2 & E2 & _). exists st1, st2. split; [exact E1|]. rewrite E2. f_equal. f_equal.
    apply map_ext. intros i. rewrite <- temper64_ok. reflexivity.
Qed.
Lemma seed32_draws s x st n : sane mt32 st -> seeded32 s x -> recurrence32 x ->
  exists st1 st2, init_genrand mt32 s st = Ok st1 /\ draws mt32 n st1 = Ok (map (fun i => output32 (x (624 + i)%nat)) (seq 0 n), st2).
Proof.
  intros Hs H Hr. assert (Hw : forall i, 0 <= x i < 2 ^ 32) by (apply word32; auto; eapply seeded32_word; eauto).
  assert (Hr' : recur mt32 x) by (apply recur32; auto).
  destruct (seed_follows mt32 hm32 x s st Hr' Hs) as (st1 & E1 & H1).
  - exact (proj1 H).
  - intros i Hi. rewrite (proj2 H) by auto. unfold seed_word. cbn [init_mul init_shift wbits mt32]. rewrite Z.shiftr_div_pow2 by lia. reflexivity.
  - destruct (draws_ok mt32 hm32 x n 0 st1 Hr' H1) as (st2 & E2 & _). exists st1, st2. split; [exact E1|]. rewrite E2. f_equal. f_equal.
    apply map_ext. intros i. rewrite <- temper32_ok. reflexivity.
Qed.
Lemma draws_S p n st : draws p (S n) st = ('(x, st) <- genrand p st ;; '(l, st) <- draws p n st ;; Ok (x :: l, st)).
Proof. reflexivity. Qed.
Lemma unseeded_draws p n st' : (0 < MM p < NN p)%nat -> init_genrand p 5489 (mt_start p) = Ok st' -> (0 < n)%nat ->
  draws p n (mt_start p) = draws p n st'.
Proof.
  intros HM E Hn. destruct n as [|n]; [lia|]. rewrite !draws_S. rewrite (unseeded p HM (mt_start p) (start_sane p HM) eq_refl st' E). reflexivity.
Qed.

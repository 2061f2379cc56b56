(* Counting the words that give a random number; the generator seen from its
   outputs. *)
From Verif Require Import Base M_Rand S_Rand L_Rand L_RandInj S_Fair.
Local Open Scope Z_scope.

(* ---- counting ---- *)

Lemma counts_ext P Q n c : (forall x, 0 <= x < n -> (P x <-> Q x)) -> counts P n c -> counts Q n c.
Proof.
  intros H (l & ND & HI & HL). exists l. split; [exact ND|]. split; [|exact HL]. intros x. rewrite HI.
  split; intros [H1 H2]; split; auto; apply (H x H1); auto.
Qed.

Lemma counts_unique P n c c' : counts P n c -> counts P n c' -> c = c'.
Proof.
  intros (l & ND & HI & <-) (l' & ND' & HI' & <-). apply f_equal, Nat.le_antisymm; apply NoDup_incl_length; auto;
  intros x Hx; [apply HI', HI, Hx|apply HI, HI', Hx].
Qed.

(* a list of numbers produced by an injection *)
Lemma counts_map P n c (f : Z -> Z) : 0 <= c ->
  (forall k, 0 <= k < c -> 0 <= f k < n /\ P (f k)) ->
  (forall k j, 0 <= k < c -> 0 <= j < c -> f k = f j -> k = j) ->
  (forall x, 0 <= x < n -> P x -> exists k, 0 <= k < c /\ f k = x) -> counts P n c.
Proof.
  intros Hc Hf Hi Hs. exists (map (fun k => f (Z.of_nat k)) (seq 0 (Z.to_nat c))). split; [|split].
  - assert (HG : forall a, (a + length (seq a (Z.to_nat c - a)) <= Z.to_nat c \/ Z.to_nat c < a)%nat -> True) by auto. clear HG.
    assert (HN : forall m a, (a + m <= Z.to_nat c)%nat -> NoDup (map (fun k => f (Z.of_nat k)) (seq a m))).
    { induction m as [|m IH]; intros a Ha; cbn [seq map]; constructor; [|apply IH; lia].
      intros HIn. apply in_map_iff in HIn. destruct HIn as (k & E & Hk). apply in_seq in Hk.
      apply Hi in E; lia. }
    apply HN. lia.
  - intros x. rewrite in_map_iff. split.
    + intros (k & <- & Hk). apply in_seq in Hk. destruct (Hf (Z.of_nat k)); [lia|auto].
    + intros [H1 H2]. destruct (Hs x H1 H2) as (k & Hk & E). exists (Z.to_nat k). rewrite Z2Nat.id by lia.
      split; [exact E|]. apply in_seq. lia.
  - rewrite map_length, seq_length. lia.
Qed.

(* the numbers with a given remainder *)
Lemma counts_mod n w v : 0 < w -> 0 <= v < w -> 0 <= n ->
  exists c, counts (fun x => x mod w = v) n c /\ fair_share n w c /\ c = (n - v + w - 1) / w.
Proof.
  intros Hw Hv Hn. exists ((n - v + w - 1) / w). set (c := (n - v + w - 1) / w).
  assert (Hc : 0 <= c) by (apply Z.div_pos; lia).
  assert (Hlo : w * c <= n - v + w - 1) by (unfold c; apply Z.mul_div_le; lia).
  assert (Hhi : n - v + w - 1 < w * (c + 1)) by (unfold c; pose proof (Z.mul_succ_div_gt (n - v + w - 1) w Hw); lia).
  split; [|split; [unfold fair_share; lia|reflexivity]].
  apply (counts_map _ _ _ (fun k => v + w * k)); auto.
  - intros k Hk. split; [nia|]. rewrite Z.mul_comm, Z_mod_plus_full. apply Z.mod_small. lia.
  - intros k j _ _ E. nia.
  - intros x Hx E. exists (x / w). pose proof (Z.div_mod x w ltac:(lia)). split; [|lia].
    split; [apply Z.div_pos; lia|]. nia.
Qed.

(* only the low part matters *)
Lemma counts_low P m n c : 0 < m -> 0 <= n -> 0 <= c -> counts P m c -> counts (fun x => P (x mod m)) (n * m) (n * c).
Proof.
  intros Hm Hn Hc (l & ND & HI & HL).
  destruct (Z.eq_dec c 0) as [->|Hc0].
  { exists []. split; [constructor|]. split; [|simpl; lia]. intros x. split; [intros []|]. intros [Hx HP].
    assert (In (x mod m) l) by (apply HI; split; [apply Z.mod_pos_bound; lia|exact HP]).
    destruct l; [contradiction|simpl in HL; lia]. }
  apply (counts_map _ _ _ (fun k => (k / c) * m + nth (Z.to_nat (k mod c)) l 0)); [nia| | |].
  - intros k Hk. pose proof (Z.mod_pos_bound k c ltac:(lia)) as Hmod.
    assert (Hin : In (nth (Z.to_nat (k mod c)) l 0) l) by (apply nth_In; lia).
    apply HI in Hin. destruct Hin as [Hr HP]. set (r := nth (Z.to_nat (k mod c)) l 0) in *.
    assert (0 <= k / c) by (apply Z.div_pos; lia). assert (k / c < n) by (apply Z.div_lt_upper_bound; nia).
    split; [nia|]. rewrite Z.add_comm, Z_mod_plus_full, Z.mod_small by lia. exact HP.
  - intros k j Hk Hj E. pose proof (Z.mod_pos_bound k c ltac:(lia)) as Hmk. pose proof (Z.mod_pos_bound j c ltac:(lia)) as Hmj.
    assert (Hik : In (nth (Z.to_nat (k mod c)) l 0) l) by (apply nth_In; lia).
    assert (Hij : In (nth (Z.to_nat (j mod c)) l 0) l) by (apply nth_In; lia).
    apply HI in Hik. apply HI in Hij.
    destruct (Z.div_mod_unique m (k / c) (j / c) (nth (Z.to_nat (k mod c)) l 0) (nth (Z.to_nat (j mod c)) l 0)) as [E1 E2]; [lia|lia|lia|].
    assert (Z.to_nat (k mod c) = Z.to_nat (j mod c)) by (eapply NoDup_nth; eauto; lia).
    rewrite (Z.div_mod k c), (Z.div_mod j c) by lia. nia.
  - intros x Hx HP. assert (Hin : In (x mod m) l) by (apply HI; split; [apply Z.mod_pos_bound; lia|exact HP]).
    apply (In_nth l _ 0) in Hin. destruct Hin as (i & Hi & E). exists (x / m * c + Z.of_nat i).
    assert (0 <= x / m) by (apply Z.div_pos; lia). assert (x / m < n) by (apply Z.div_lt_upper_bound; lia).
    split; [nia|]. rewrite Z.div_add_l, (Z.div_small (Z.of_nat i)), Z.add_0_r by lia.
    rewrite (Z.add_comm _ (Z.of_nat i)), Z_mod_plus_full, Z.mod_small by lia. rewrite Nat2Z.id, E.
    pose proof (Z.div_mod x m ltac:(lia)). lia.
Qed.

(* an injection of the words into the words takes every value once *)
Lemma counts_inj n (f : Z -> Z) v : 0 <= n -> (forall x, 0 <= x < n -> 0 <= f x < n) ->
  (forall x y, 0 <= x < n -> 0 <= y < n -> f x = f y -> x = y) -> 0 <= v < n -> counts (fun x => f x = v) n 1.
Proof.
  intros Hn Hf Hi Hv. set (l := map Z.of_nat (seq 0 (Z.to_nat n))).
  assert (Hl : forall x, In x l <-> 0 <= x < n).
  { intros x. unfold l. rewrite in_map_iff. split; [intros (k & <- & Hk); apply in_seq in Hk; lia|].
    intros Hx. exists (Z.to_nat x). split; [lia|]. apply in_seq. lia. }
  assert (NDl : NoDup l).
  { unfold l. apply FinFun.Injective_map_NoDup; [intros a b; lia|apply seq_NoDup]. }
  assert (ND : NoDup (map f l)).
  { assert (HG : forall q, incl q l -> NoDup q -> NoDup (map f q)).
    { induction q as [|x q IH]; intros HQ HN; simpl; constructor; inversion HN; subst.
      - intros HIn. apply in_map_iff in HIn. destruct HIn as (y & E & Hy).
        apply Hi in E; [subst; contradiction|apply Hl, HQ; right; auto|apply Hl, HQ; left; auto].
      - apply IH; auto. intros z Hz. apply HQ. right; auto. }
    apply HG; [apply incl_refl|exact NDl]. }
  assert (HIncl : incl l (map f l)).
  { apply NoDup_length_incl; [exact ND|rewrite map_length; lia|].
    intros x Hx. apply in_map_iff in Hx. destruct Hx as (y & <- & Hy). apply Hl, Hf, Hl, Hy. }
  specialize (HIncl v (proj2 (Hl v) Hv)). apply in_map_iff in HIncl. destruct HIncl as (x & E & Hx). apply Hl in Hx.
  apply (counts_map _ _ _ (fun _ => x)); [lia|auto|intros; lia|].
  intros y Hy E'. exists 0. split; [lia|]. apply Hi; auto. congruence.
Qed.

Lemma counts_high P m n c : 0 < m -> 0 <= n -> 0 <= c -> counts P n c -> counts (fun x => P (x / m)) (n * m) (c * m).
Proof.
  intros Hm Hn Hc (l & ND & HI & HL).
  apply (counts_map _ _ _ (fun k => nth (Z.to_nat (k / m)) l 0 * m + k mod m)); [nia| | |].
  - intros k Hk. pose proof (Z.mod_pos_bound k m ltac:(lia)) as Hmod.
    assert (0 <= k / m) by (apply Z.div_pos; lia). assert (k / m < c) by (apply Z.div_lt_upper_bound; nia).
    assert (Hin : In (nth (Z.to_nat (k / m)) l 0) l) by (apply nth_In; lia).
    apply HI in Hin. destruct Hin as [Hr HP]. set (r := nth (Z.to_nat (k / m)) l 0) in *.
    split; [nia|]. rewrite Z.div_add_l, (Z.div_small (k mod m)), Z.add_0_r by lia. exact HP.
  - intros k j Hk Hj E.
    assert (0 <= k / m) by (apply Z.div_pos; lia). assert (k / m < c) by (apply Z.div_lt_upper_bound; nia).
    assert (0 <= j / m) by (apply Z.div_pos; lia). assert (j / m < c) by (apply Z.div_lt_upper_bound; nia).
    pose proof (Z.mod_pos_bound k m ltac:(lia)). pose proof (Z.mod_pos_bound j m ltac:(lia)).
    destruct (Z.div_mod_unique m (nth (Z.to_nat (k / m)) l 0) (nth (Z.to_nat (j / m)) l 0) (k mod m) (j mod m)) as [E1 E2]; [lia|lia|lia|].
    assert (Z.to_nat (k / m) = Z.to_nat (j / m)) by (eapply NoDup_nth; eauto; lia).
    rewrite (Z.div_mod k m), (Z.div_mod j m) by lia. nia.
  - intros x Hx HP. assert (Hin : In (x / m) l) by (apply HI; split; [split; [apply Z.div_pos; lia|apply Z.div_lt_upper_bound; lia]|exact HP]).
    apply (In_nth l _ 0) in Hin. destruct Hin as (i & Hi & E). exists (Z.of_nat i * m + x mod m).
    pose proof (Z.mod_pos_bound x m ltac:(lia)).
    split; [nia|]. rewrite Z.div_add_l, (Z.div_small (x mod m)), Z.add_0_r by lia.
    rewrite (Z.add_comm _ (x mod m)), Z_mod_plus_full, Z.mod_small by lia. rewrite Nat2Z.id, E.
    pose proof (Z.div_mod x m ltac:(lia)). lia.
Qed.

Lemma counts_equal n v : 0 <= v < n -> counts (fun x => x = v) n 1.
Proof. intros Hv. apply (counts_inj n (fun x => x)); auto; lia. Qed.

(* ---- states holding words ---- *)
Section Words.
Context (p : mt_params) (HM : (0 < MM p < NN p)%nat) (Hb : 0 <= wbits p).
Notation word z := (0 <= z < 2 ^ wbits p) (only parsing).
Context (HK : word (key_first p)).
Context (HX : forall u v m, word u -> word m -> word (mix p u v m)).

Definition wordy (m : list Z) : Prop := Forall (fun z => word z) m.

Lemma word_W z : word (z mod 2 ^ wbits p).
Proof using HM Hb HK HX. clear HM HK HX. apply Z.mod_pos_bound. pose proof (Z.pow_pos_nonneg 2 (wbits p)). lia. Qed.

Lemma wordy_wr m i v m' : wr m i v = Ok m' -> word v -> wordy m -> wordy m'.
Proof using.
  clear. unfold wr. destruct (i <? length m)%nat; [|discriminate]. intros E Hv Hm. injection E as <-.
  revert i. induction Hm as [|x l Hx Hl IH]; intros [|i]; simpl; constructor; auto. apply IH.
Qed.
Lemma wordy_rd m i v : rd m i = Ok v -> wordy m -> word v.
Proof using.
  clear. unfold rd. destruct (nth_error m i) eqn:E; [|discriminate]. intros H Hm. injection H as <-.
  apply nth_error_In in E. unfold wordy in Hm. rewrite Forall_forall in Hm. apply Hm, E.
Qed.
Lemma for_pres {S} (Q : S -> Prop) (f : nat -> S -> outcome S) :
  (forall i s s', Q s -> f i s = Ok s' -> Q s') -> forall n i s s', Q s -> for_from i n f s = Ok s' -> Q s'.
Proof using.
  clear. intros H. induction n as [|n IH]; intros i s s' HQ E; cbn [for_from] in E; [injection E as <-; auto|].
  apply bind_ok in E. destruct E as (s1 & E1 & E2). eapply IH; [|exact E2]. eapply H; eauto.
Qed.

Lemma wordy_init s st st' : init_genrand p s st = Ok st' -> wordy (mt st) -> wordy (mt st').
Proof using HM Hb HK HX.
  unfold init_genrand. intros E Hm. apply bind_ok in E. destruct E as (m1 & E1 & E). apply bind_ok in E. destruct E as (m2 & E2 & E).
  injection E as <-. cbn [mt]. unfold for_ in E2. eapply (for_pres wordy); [|eapply wordy_wr; [exact E1|apply word_W|exact Hm]|exact E2].
  intros i m m' H E. apply bind_ok in E. destruct E as (v & E3 & E). eapply wordy_wr; [exact E|apply word_W|exact H].
Qed.

Lemma wordy_array key st st' : init_by_array p key st = Ok st' -> wordy (mt st) -> wordy (mt st').
Proof using HM Hb HK HX.
  unfold init_by_array. intros E Hm. apply bind_ok in E. destruct E as (st1 & E1 & E). pose proof (wordy_init _ _ _ E1 Hm) as H1. clear E1 Hm.
  cbv zeta in E.
  set (next_i := fun (m : list Z) (i : nat) => if (NN p <=? S i)%nat then last <- rd m (NN p - 1);; m0 <- wr m 0 last;; Ok (m0, 1%nat) else Ok (m, S i)) in E.
  assert (HNx : forall m i r, wordy m -> next_i m i = Ok r -> wordy (fst r)).
  { intros m i r Hm. unfold next_i. destruct (NN p <=? S i)%nat; [|intros E'; injection E' as <-; exact Hm].
    intros E'. apply bind_ok in E'. destruct E' as (v & E2 & E'). apply bind_ok in E'. destruct E' as (m0 & E3 & E').
    injection E' as <-. cbn [fst]. eapply wordy_wr; [exact E3|eapply wordy_rd; eauto|exact Hm]. }
  apply bind_ok in E. destruct E as ([[m i] j] & E2 & E).
  assert (H2 : wordy m).
  { change m with (fst (fst (m, i, j))). unfold for_ in E2. refine (for_pres (fun s => wordy (fst (fst s))) _ _ _ _ _ _ _ E2); [|exact H1].
    intros q [[m0 i0] j0] s' H0 E0. cbn [fst] in H0. apply bind_ok in E0. destruct E0 as (a & _ & E0). apply bind_ok in E0. destruct E0 as (b & _ & E0).
    apply bind_ok in E0. destruct E0 as (k & _ & E0). apply bind_ok in E0. destruct E0 as (m3 & E3 & E0). apply bind_ok in E0. destruct E0 as ([m4 i4] & E4 & E0).
    injection E0 as <-. cbn [fst]. apply HNx in E4; [exact E4|]. eapply wordy_wr; [exact E3|apply word_W|exact H0]. }
  clear E2. apply bind_ok in E. destruct E as ([m' i'] & E2 & E).
  assert (H3 : wordy m').
  { change m' with (fst (m', i')). unfold for_ in E2. refine (for_pres (fun s => wordy (fst s)) _ _ _ _ _ _ _ E2); [|exact H2].
    intros q [m0 i0] s' H0 E0. cbn [fst] in H0. apply bind_ok in E0. destruct E0 as (a & _ & E0). apply bind_ok in E0. destruct E0 as (b & _ & E0).
    apply bind_ok in E0. destruct E0 as (m3 & E3 & E0). apply HNx in E0; [exact E0|]. eapply wordy_wr; [exact E3|apply word_W|exact H0]. }
  apply bind_ok in E. destruct E as (m5 & E5 & E). injection E as <-. cbn [mt]. eapply wordy_wr; [exact E5|exact HK|exact H3].
Qed.

Lemma wordy_refill m m' : refill p m = Ok m' -> wordy m -> wordy m'.
Proof using HM Hb HK HX.
  unfold refill. intros E Hm. apply bind_ok in E. destruct E as (m1 & E1 & E). apply bind_ok in E. destruct E as (m2 & E2 & E).
  assert (H1 : wordy m1).
  { unfold for_ in E1. refine (for_pres wordy _ _ _ _ _ _ Hm E1). intros i q q' Hq E0.
    apply bind_ok in E0. destruct E0 as (u & Eu & E0). apply bind_ok in E0. destruct E0 as (v & _ & E0). apply bind_ok in E0. destruct E0 as (w & Ew & E0).
    eapply wordy_wr; [exact E0|apply HX; eapply wordy_rd; eauto|exact Hq]. }
  assert (H2 : wordy m2).
  { unfold for_ in E2. refine (for_pres wordy _ _ _ _ _ _ H1 E2). intros i q q' Hq E0. cbv zeta in E0.
    apply bind_ok in E0. destruct E0 as (u & Eu & E0). apply bind_ok in E0. destruct E0 as (v & _ & E0). apply bind_ok in E0. destruct E0 as (w & Ew & E0).
    unfold rdZ in Ew. destruct (_ <? 0) in Ew; [discriminate|].
    eapply wordy_wr; [exact E0|apply HX; eapply wordy_rd; eauto|exact Hq]. }
  apply bind_ok in E. destruct E as (u & Eu & E). apply bind_ok in E. destruct E as (v & _ & E). apply bind_ok in E. destruct E as (w & Ew & E).
  eapply wordy_wr; [exact E|apply HX; eapply wordy_rd; eauto|exact H2].
Qed.

Lemma wordy_genrand st x st' : genrand p st = Ok (x, st') -> wordy (mt st) -> wordy (mt st').
Proof using HM Hb HK HX.
  unfold genrand. intros E Hm. apply bind_ok in E. destruct E as (st1 & E1 & E). apply bind_ok in E. destruct E as (y & _ & E).
  injection E as _ <-. cbn [mt]. destruct (NN p <=? mti st)%nat; [|injection E1 as <-; exact Hm].
  apply bind_ok in E1. destruct E1 as (st2 & E2 & E1). apply bind_ok in E1. destruct E1 as (m & E3 & E1). injection E1 as <-. cbn [mt].
  eapply wordy_refill; [exact E3|]. destruct (mti st =? NN p + 1)%nat; [eapply wordy_init; eauto|injection E2 as <-; exact Hm].
Qed.

Lemma wordy_run h : forall st st', rand_run p h st = Ok st' -> wordy (mt st) -> wordy (mt st').
Proof using HM Hb HK HX.
  induction h as [|o h IH]; intros st st' E Hm; cbn [rand_run] in E; [injection E as <-; exact Hm|].
  apply bind_ok in E. destruct E as (st1 & E1 & E). eapply IH; [exact E|]. clear E IH. destruct o as [s|key|]; cbn [rand_step] in E1.
  - eapply wordy_init; eauto.
  - eapply wordy_array; eauto.
  - apply bind_ok in E1. destruct E1 as ([x st2] & E2 & E1). injection E1 as <-. eapply wordy_genrand; eauto.
Qed.

Lemma wordy_start : wordy (mt (mt_start p)).
Proof using HM Hb HK HX. apply Forall_forall. intros x Hx. apply repeat_spec in Hx. subst. pose proof (Z.pow_pos_nonneg 2 (wbits p)). lia. Qed.

(* ---- what a state is going to deliver ---- *)

Definition ahead (x : nat -> Z) (j : nat) (st : mt_state) : Prop :=
  (mti st <= NN p)%nat /\ exists b, mt st = window p x b /\ (b + mti st = j)%nat.

Lemma ahead_genrand x j st : recur p x -> ahead x j st ->
  exists st', genrand p st = Ok (temper p (x j), st') /\ ahead x (S j) st'.
Proof using HM Hb HK HX.
  intros Hr (Hm & b & Ew & Eb). unfold genrand. destruct (Nat.leb_spec (NN p) (mti st)).
  - replace (mti st =? NN p + 1)%nat with false by lia. cbn [bind]. rewrite Ew, refill_ok by auto. cbn [bind mt mti].
    rewrite (rd_ok _ 0 (x (b + NN p + 0)%nat)) by (apply window_nth; lia). cbn [bind].
    eexists. split; [do 4 f_equal; lia|]. split; [cbn [mti]; lia|]. exists (b + NN p)%nat. split; [reflexivity|cbn [mti]; lia].
  - cbn [bind]. rewrite Ew, (rd_ok _ (mti st) (x (b + mti st)%nat)) by (apply window_nth; lia). cbn [bind].
    eexists. split; [do 4 f_equal; lia|]. split; [cbn [mti]; lia|]. exists b. split; [reflexivity|cbn [mti]; lia].
Qed.

Lemma ahead_draws x : recur p x -> forall n j st, ahead x j st ->
  exists st', draws p n st = Ok (map (fun i => temper p (x (j + i)%nat)) (seq 0 n), st').
Proof using HM Hb HK HX.
  intros Hr. induction n as [|n IH]; intros j st Ha; [exists st; reflexivity|]. cbn [draws].
  destruct (ahead_genrand x j st Hr Ha) as (st1 & E1 & A1). rewrite E1. cbn [bind].
  destruct (IH (S j) st1 A1) as (st2 & E2). rewrite E2. cbn [bind]. exists st2. cbn [seq map]. rewrite Nat.add_0_r, <- seq_shift, map_map.
  do 3 f_equal. apply map_ext. intros i. do 2 f_equal. lia.
Qed.

(* every state that holds words delivers the outputs of a sequence of words *)
Lemma state_sequence st : sane p st -> wordy (mt st) -> exists x j,
  recur p x /\ (forall i, word (x i)) /\
  forall n, (0 < n)%nat -> exists st', draws p n st = Ok (map (fun i => temper p (x (j + i)%nat)) (seq 0 n), st').
Proof using HM Hb HK HX.
  assert (HS : forall st, sane p st -> wordy (mt st) -> (mti st <= NN p)%nat -> exists x j,
    recur p x /\ (forall i, word (x i)) /\ ahead x j st).
  { intros q [Hl _] Hw Ht. exists (sequence p (mt q)), (mti q).
    assert (Hr : recur p (sequence p (mt q))) by (apply sequence_recur; auto). split; [exact Hr|]. split.
    - intros i. induction i as [i IH] using lt_wf_ind. destruct (Nat.lt_ge_cases i (NN p)) as [L|L].
      + rewrite sequence_start by auto. unfold wordy in Hw. rewrite Forall_forall in Hw. apply Hw. apply nth_In. lia.
      + replace i with (i - NN p + NN p)%nat by lia. rewrite Hr. apply HX; apply IH; lia.
    - split; [exact Ht|]. exists 0%nat. split; [symmetry; apply window_sequence; auto|reflexivity]. }
  intros Hs Hw. destruct (Nat.le_gt_cases (mti st) (NN p)) as [L|L].
  - destruct (HS st Hs Hw L) as (x & j & Hr & Hx & Ha). exists x, j. split; [exact Hr|]. split; [exact Hx|]. intros n _. apply ahead_draws; auto.
  - assert (Ht : mti st = (NN p + 1)%nat) by (destruct Hs; lia).
    destruct (init_sane p HM 5489 st Hs) as (st1 & E1 & S1 & T1).
    destruct (HS st1 S1 (wordy_init _ _ _ E1 Hw) ltac:(lia)) as (x & j & Hr & Hx & Ha). exists x, j. split; [exact Hr|]. split; [exact Hx|].
    intros [|n] Hn; [lia|]. destruct (ahead_draws x Hr (S n) j st1 Ha) as (st2 & E2). exists st2. rewrite <- E2. cbn [draws].
    rewrite (unseeded p HM st Hs Ht st1 E1). reflexivity.
Qed.

Lemma forced x y j k : recur p x -> recur p y -> (forall i, (i < NN p)%nat -> x (j + i)%nat = y (k + i)%nat) ->
  forall i, x (j + i)%nat = y (k + i)%nat.
Proof using HM Hb HK HX.
  intros Hx Hy H i. induction i as [i IH] using lt_wf_ind. destruct (Nat.lt_ge_cases i (NN p)) as [L|L]; [auto|].
  replace (j + i)%nat with (j + (i - NN p) + NN p)%nat by lia. replace (k + i)%nat with (k + (i - NN p) + NN p)%nat by lia.
  rewrite Hx, Hy. f_equal; [apply IH; lia| |].
  - rewrite <- !Nat.add_assoc. apply IH. lia.
  - rewrite <- !Nat.add_assoc. apply IH. lia.
Qed.

Lemma observed (HI : forall a b, word a -> word b -> temper p a = temper p b -> a = b) st st' n l r r' s s' :
  sane p st -> wordy (mt st) -> sane p st' -> wordy (mt st') -> length l = NN p ->
  draws p (NN p + n) st = Ok (l ++ r, s) -> draws p (NN p + n) st' = Ok (l ++ r', s') -> r = r'.
Proof using HM Hb HK HX.
  intros S W S' W' HL E E'.
  destruct (state_sequence st S W) as (x & j & Hr & Hx & D). destruct (state_sequence st' S' W') as (y & k & Hr' & Hy & D').
  destruct (D (NN p + n)%nat ltac:(lia)) as (s1 & E1). destruct (D' (NN p + n)%nat ltac:(lia)) as (s1' & E1').
  rewrite E1 in E. rewrite E1' in E'. injection E as E _. injection E' as E' _.
  rewrite seq_app, map_app in E, E'. cbn [Nat.add] in E, E'.
  assert (HLm : forall (f : nat -> Z), length (map f (seq 0 (NN p))) = length l) by (intros; rewrite map_length, seq_length; congruence).
  apply app_eq_app in E. apply app_eq_app in E'.
  assert (SP : forall f (w : list Z) r0, (exists q, (map f (seq 0 (NN p)) = l ++ q /\ r0 = q ++ w) \/ (l = map f (seq 0 (NN p)) ++ q /\ w = q ++ r0)) ->
    map f (seq 0 (NN p)) = l /\ w = r0).
  { intros f w r0 (q & [[A B]|[A B]]); pose proof (HLm f) as HLf; apply (f_equal (@length Z)) in A as A'; rewrite app_length in A';
    (assert (Q : q = []) by (destruct q; [reflexivity|simpl in A'; lia])); subst q; rewrite app_nil_r in A; simpl in B; split; congruence. }
  apply SP in E. apply SP in E'. destruct E as [E F]. destruct E' as [E' F'].
  assert (G : forall i, (i < NN p)%nat -> x (j + i)%nat = y (k + i)%nat).
  { intros i Hi. apply HI; auto. rewrite <- E' in E. apply (f_equal (fun q => nth_error q i)) in E.
    rewrite !nth_error_map_seq in E by auto. injection E as E. exact E. }
  rewrite <- F, <- F'. apply map_ext. intros i. f_equal. apply (forced x y j k Hr Hr' G).
Qed.
End Words.

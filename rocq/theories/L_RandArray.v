(* Lemmas for P_RandSeed: seeding from one word. *)
From Verif Require Import Base M_Rand S_Rand L_Rand L_RandInj.
Local Open Scope Z_scope.

Section Array.
Context (p : mt_params) (HM : (0 < MM p < NN p)%nat) (HN : (4 <= NN p)%nat).
Notation N := (NN p).
Notation W z := (z mod 2 ^ wbits p) (only parsing).

Definition f1 (z : Z) : Z := W (Z.lxor z (Z.shiftr z (key_shift p)) * key_mul1 p).
Definition f2 (z : Z) : Z := W (Z.lxor z (Z.shiftr z (key_shift p)) * key_mul2 p).
Fixpoint aa (c : nat -> Z) (k : Z) (i : nat) : Z :=
  match i with O => c O | S i' => W (Z.lxor (c i) (f1 (aa c k i')) + k + 0) end.
Definition b1 c k : Z := W (Z.lxor (aa c k 1) (f1 (aa c k (N - 1))) + k + 0).
Fixpoint dd (c : nat -> Z) (k : Z) (i : nat) : Z :=
  match i with O => 0 | S O => b1 c k | S i' => W (Z.lxor (aa c k i) (f2 (dd c k i')) - Z.of_nat i) end.
Definition e1 c k : Z := W (Z.lxor (dd c k 1) (f2 (dd c k (N - 1))) - 1).
Definition array_word c k (q : nat) : Z := if (q =? 0)%nat then key_first p else if (q =? 1)%nat then e1 c k else dd c k q.

Lemma nth_upd (m : list Z) i v q : (i < length m)%nat -> (q < length m)%nat -> nth q (upd m i v) 0 = if (q =? i)%nat then v else nth q m 0.
Proof using.
  clear HM HN. intros Hi Hq. apply nth_error_nth. rewrite nth_error_upd. replace (i <? length m)%nat with true by lia. rewrite andb_true_r.
  destruct (q =? i)%nat; [reflexivity|]. apply nth_error_nth'. auto.
Qed.
Lemma rd_nth (m : list Z) i : (i < length m)%nat -> rd m i = Ok (nth i m 0).
Proof using. clear HM HN. intros H. apply rd_ok. apply nth_error_nth'. auto. Qed.
Lemma dd_S c k i : (0 < i)%nat -> dd c k (S i) = W (Z.lxor (aa c k (S i)) (f2 (dd c k i)) - Z.of_nat (S i)).
Proof using. clear HM HN. destruct i; [lia|]. reflexivity. Qed.

Lemma array1 k st c : sane p st ->
  c O = W 19650218 -> (forall i, (0 < i < N)%nat -> c i = seed_word p (c (i - 1)%nat) i) ->
  init_by_array p [k] st = Ok (mkMS (map (array_word c k) (seq 0 N)) N).
Proof using HM HN.
  intros [Hl _] C0 Ci. unfold init_by_array. destruct (init_ok p HM 19650218 st Hl) as (m0 & E0 & L0 & B0 & Bi). rewrite E0. cbn [bind mt mti length]. cbv zeta.
  assert (Hc : forall q, (q < N)%nat -> nth q m0 0 = c q).
  { induction q as [|q IH]; intros Hq; [congruence|]. rewrite Bi, Ci by lia. replace (S q - 1)%nat with q by lia. rewrite IH by lia. reflexivity. }
  replace (Nat.max N 1) with N by lia.
  match goal with |- context [for_ N ?f ?s0] =>
    destruct (for_inv (fun t s => let '(m, i, j) := s in length m = N /\ j = 0%nat /\
      (((t < N - 1)%nat /\ i = S t /\ forall q, (q < N)%nat -> nth q m 0 = if (q <=? t)%nat then aa c k q else c q) \/
       (t = (N - 1)%nat /\ i = 1%nat /\ forall q, (q < N)%nat -> nth q m 0 = if (q =? 0)%nat then aa c k (N - 1) else aa c k q) \/
       (t = N /\ i = 2%nat /\ forall q, (q < N)%nat -> nth q m 0 = if (q =? 0)%nat then aa c k (N - 1) else if (q =? 1)%nat then b1 c k else aa c k q))) N f s0)
      as ([[m1 i1] j1] & E1 & L1 & J1 & H1) end.
  { split; [auto|]. split; [auto|]. left. split; [lia|]. split; [auto|]. intros q Hq. rewrite Hc by auto. destruct q; reflexivity. }
  { intros t [[m i] j] Ht (Lm & -> & Inv). change (rd [k] 0) with (Ok k).
    destruct Inv as [(T & -> & Hq)|[(T & -> & Hq)|(T & _)]]; [| |lia].
    - rewrite (rd_nth m (S t)) by lia. cbn [bind]. replace (S t - 1)%nat with t by lia. rewrite (rd_nth m t) by lia. cbn [bind]. rewrite wr_ok by lia. cbn [bind].
      rewrite (Hq (S t)), (Hq t) by lia. replace (S t <=? t)%nat with false by lia. replace (t <=? t)%nat with true by lia.
      change (W (Z.lxor (c (S t)) (W (Z.lxor (aa c k t) (Z.shiftr (aa c k t) (key_shift p)) * key_mul1 p)) + k + Z.of_nat 0)) with (aa c k (S t)).
      destruct (Nat.leb_spec N (S (S t))) as [G|G].
      + rewrite rd_nth by (rewrite length_upd; lia). cbn [bind]. rewrite wr_ok by (rewrite length_upd; lia). cbn [bind]. eexists. split; [reflexivity|].
        cbn beta iota. rewrite !length_upd. split; [auto|]. split; [auto|]. right. left. split; [lia|]. split; [reflexivity|].
        intros q Hq'. rewrite !nth_upd by (rewrite ?length_upd; lia). replace (N - 1 =? S t)%nat with true by lia. destruct (Nat.eqb_spec q 0) as [->|].
        * f_equal. lia.
        * destruct (Nat.eqb_spec q (S t)) as [->|]; [reflexivity|]. rewrite Hq by lia. replace (q <=? t)%nat with true by lia. reflexivity.
      + cbn [bind]. eexists. split; [reflexivity|]. cbn beta iota. rewrite !length_upd. split; [auto|]. split; [auto|]. left. split; [lia|]. split; [reflexivity|].
        intros q Hq'. rewrite nth_upd by lia. destruct (Nat.eqb_spec q (S t)) as [->|]; [replace (S t <=? S t)%nat with true by lia; reflexivity|].
        rewrite Hq by lia. destruct (Nat.leb_spec q t); destruct (Nat.leb_spec q (S t)); auto; lia.
    - rewrite (rd_nth m 1) by lia. cbn [bind]. replace (1 - 1)%nat with 0%nat by lia. rewrite (rd_nth m 0) by lia. cbn [bind]. rewrite wr_ok by lia. cbn [bind].
      rewrite (Hq 1%nat), (Hq 0%nat) by lia. cbn [Nat.eqb]. replace (N <=? 2)%nat with false by lia. cbn [bind]. eexists. split; [reflexivity|].
      cbn beta iota. rewrite length_upd. split; [auto|]. split; [auto|]. right. right. split; [lia|]. split; [reflexivity|].
      intros q Hq'. rewrite nth_upd by lia. destruct (Nat.eqb_spec q 1) as [->|]; [reflexivity|]. rewrite Hq by lia. reflexivity. }
  rewrite E1. cbn [bind]. clear E1. destruct H1 as [(T & _)|[(T & _)|(_ & -> & H1)]]; [lia|lia|].
  match goal with |- context [for_ (N - 1) ?f ?s0] =>
    destruct (for_inv (fun u s => let '(m, i) := s in length m = N /\
      (((u < N - 2)%nat /\ i = (u + 2)%nat /\ forall q, (q < N)%nat -> nth q m 0 = if (q =? 0)%nat then aa c k (N - 1) else if (q <=? u + 1)%nat then dd c k q else aa c k q) \/
       (u = (N - 2)%nat /\ i = 1%nat /\ forall q, (q < N)%nat -> nth q m 0 = if (q =? 0)%nat then dd c k (N - 1) else dd c k q) \/
       (u = (N - 1)%nat /\ i = 2%nat /\ forall q, (q < N)%nat -> nth q m 0 = if (q =? 0)%nat then dd c k (N - 1) else if (q =? 1)%nat then e1 c k else dd c k q))) (N - 1)%nat f s0)
      as ([m2 i2] & E2 & L2 & H2) end.
  { split; [auto|]. left. split; [lia|]. split; [auto|]. intros q Hq. rewrite H1 by auto. destruct q as [|[|q]]; reflexivity. }
  { intros u [m i] Hu (Lm & Inv). destruct Inv as [(T & -> & Hq)|[(T & -> & Hq)|(T & _)]]; [| |lia].
    - rewrite (rd_nth m (u + 2)) by lia. cbn [bind]. replace (u + 2 - 1)%nat with (u + 1)%nat by lia. rewrite (rd_nth m (u + 1)) by lia. cbn [bind]. rewrite wr_ok by lia. cbn [bind].
      rewrite (Hq (u + 2)%nat), (Hq (u + 1)%nat) by lia. replace (u + 2 <=? u + 1)%nat with false by lia. replace (u + 1 <=? u + 1)%nat with true by lia.
      replace (u + 2 =? 0)%nat with false by lia. replace (u + 1 =? 0)%nat with false by lia.
      assert (ED : W (Z.lxor (aa c k (u + 2)) (W (Z.lxor (dd c k (u + 1)) (Z.shiftr (dd c k (u + 1)) (key_shift p)) * key_mul2 p)) - Z.of_nat (u + 2)) = dd c k (u + 2)).
      { replace (u + 2)%nat with (S (u + 1)) by lia. rewrite dd_S by lia. reflexivity. }
      rewrite ED. destruct (Nat.leb_spec N (S (u + 2))) as [G|G].
      + rewrite rd_nth by (rewrite length_upd; lia). cbn [bind]. rewrite wr_ok by (rewrite length_upd; lia). cbn [bind]. eexists. split; [reflexivity|].
        cbn beta iota. rewrite !length_upd. split; [auto|]. right. left. split; [lia|]. split; [reflexivity|].
        intros q Hq'. rewrite !nth_upd by (rewrite ?length_upd; lia). replace (N - 1 =? u + 2)%nat with true by lia. destruct (Nat.eqb_spec q 0) as [->|].
        * f_equal. lia.
        * destruct (Nat.eqb_spec q (u + 2)) as [->|]; [reflexivity|]. rewrite Hq by lia. replace (q =? 0)%nat with false by lia. replace (q <=? u + 1)%nat with true by lia. reflexivity.
      + eexists. split; [reflexivity|]. cbn beta iota. rewrite !length_upd. split; [auto|]. left. split; [lia|]. split; [reflexivity|].
        intros q Hq'. rewrite nth_upd by lia. destruct (Nat.eqb_spec q (u + 2)) as [->|].
        * replace (u + 2 =? 0)%nat with false by lia. replace (u + 2 <=? S u + 1)%nat with true by lia. reflexivity.
        * rewrite Hq by lia. destruct (q =? 0)%nat; [reflexivity|]. destruct (Nat.leb_spec q (u + 1)); destruct (Nat.leb_spec q (S u + 1)); auto; lia.
    - rewrite (rd_nth m 1) by lia. cbn [bind]. replace (1 - 1)%nat with 0%nat by lia. rewrite (rd_nth m 0) by lia. cbn [bind]. rewrite wr_ok by lia. cbn [bind].
      rewrite (Hq 1%nat), (Hq 0%nat) by lia. cbn [Nat.eqb]. replace (N <=? 2)%nat with false by lia. eexists. split; [reflexivity|].
      cbn beta iota. rewrite length_upd. split; [auto|]. right. right. split; [lia|]. split; [reflexivity|].
      intros q Hq'. rewrite nth_upd by lia. destruct (Nat.eqb_spec q 1) as [->|]; [reflexivity|]. rewrite Hq by lia. reflexivity. }
  rewrite E2. cbn [bind]. clear E2. destruct H2 as [(T & _)|[(T & _)|(_ & -> & H2)]]; [lia|lia|].
  rewrite wr_ok by lia. cbn [bind]. f_equal. f_equal. apply list_eq_nth_len; [rewrite length_upd, map_length, seq_length; auto|].
  intros q Hq. rewrite length_upd in Hq. rewrite (nth_error_nth' _ 0) by (rewrite length_upd; lia). rewrite nth_upd by lia.
  rewrite nth_error_map_seq by lia. f_equal. unfold array_word. destruct (q =? 0)%nat eqn:Q; [reflexivity|]. rewrite H2 by lia. rewrite Q. reflexivity.
Qed.

(* ---- different words give different arrays ---- *)
Context (Hw : 0 <= wbits p).
Lemma P0 : 2 ^ wbits p <> 0. Proof using Hw. clear HM HN. pose proof (Z.pow_pos_nonneg 2 (wbits p)). lia. Qed.
Lemma word_mod z : 0 <= W z < 2 ^ wbits p. Proof using Hw. clear HM HN. apply Z.mod_pos_bound. pose proof (Z.pow_pos_nonneg 2 (wbits p)). lia. Qed.
Lemma add_cancel a b z : W (a + z) = W (b + z) -> W a = W b.
Proof using Hw.
  clear HM HN.
  intros H. replace a with (a + z - z) by ring. replace b with (b + z - z) by ring. rewrite <- (Zminus_mod_idemp_l (a + z)), <- (Zminus_mod_idemp_l (b + z)), H. reflexivity.
Qed.
Lemma xor_sub_inj a b z y : 0 <= a < 2 ^ wbits p -> 0 <= b < 2 ^ wbits p -> 0 <= z < 2 ^ wbits p ->
  W (Z.lxor a z - y) = W (Z.lxor b z - y) -> a = b.
Proof using Hw.
  clear HM HN.
  intros Ha Hb Hz H. unfold Z.sub in H. apply add_cancel in H. rewrite !Z.mod_small in H by (apply lxor_word; auto).
  apply lxor_cancel in H. rewrite Z.lxor_nilpotent in H. apply Z.lxor_eq in H. exact H.
Qed.
Lemma aa_word c k i : (0 < i)%nat -> 0 <= aa c k i < 2 ^ wbits p.
Proof using Hw. clear HM HN. destruct i; [lia|]. intros _. apply word_mod. Qed.
Lemma dd_word c k i : 0 <= dd c k i < 2 ^ wbits p.
Proof using Hw. clear HM HN. destruct i as [|[|i]]; [cbn [dd]; pose proof (Z.pow_pos_nonneg 2 (wbits p)); lia| |]; apply word_mod. Qed.
Lemma f2_word z : 0 <= f2 z < 2 ^ wbits p. Proof using Hw. clear HM HN. apply word_mod. Qed.

Lemma array_inj c k k' : (forall q, (1 <= q < N)%nat -> array_word c k q = array_word c k' q) -> W k = W k'.
Proof using HN Hw.
  clear HM.
  intros H.
  assert (HD : forall q, (2 <= q < N)%nat -> dd c k q = dd c k' q).
  { intros q Hq. specialize (H q ltac:(lia)). unfold array_word in H. replace (q =? 0)%nat with false in H by lia. replace (q =? 1)%nat with false in H by lia. exact H. }
  assert (H1 : dd c k 1 = dd c k' 1).
  { specialize (H 1%nat ltac:(lia)). unfold array_word, e1 in H. cbn [Nat.eqb] in H. rewrite (HD (N - 1)%nat) in H by lia.
    apply xor_sub_inj in H; auto using dd_word, f2_word. }
  assert (HA : forall q, (2 <= q < N)%nat -> aa c k q = aa c k' q).
  { intros q Hq. destruct q as [|q]; [lia|]. pose proof (HD (S q) Hq) as E. rewrite !dd_S in E by lia.
    assert (E' : dd c k q = dd c k' q) by (destruct (Nat.eq_dec q 1) as [->|]; [exact H1|apply HD; lia]). rewrite E' in E.
    apply xor_sub_inj in E; auto using f2_word; apply aa_word; lia. }
  pose proof (HA 3%nat ltac:(lia)) as E. change (aa c k 3) with (W (Z.lxor (c 3%nat) (f1 (aa c k 2)) + k + 0)) in E.
  change (aa c k' 3) with (W (Z.lxor (c 3%nat) (f1 (aa c k' 2)) + k' + 0)) in E. rewrite (HA 2%nat) in E by lia.
  apply (add_cancel k k' (Z.lxor (c 3%nat) (f1 (aa c k' 2)))). rewrite (Z.add_comm k), (Z.add_comm k'). rewrite !Z.add_0_r in E. exact E.
Qed.
End Array.

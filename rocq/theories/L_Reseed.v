(* Lemmas for P_RandSeed. *)
From Verif Require Import Base M_Rand S_Rand L_Rand L_RandInj L_RandArray S_Reseed M_Reseed.
Local Open Scope Z_scope.

(* ---- atoi ---- *)
Lemma skip_spaces_white sp l : Forall white sp -> match l with [] => True | c :: _ => is_space c = false end -> skip_spaces (sp ++ l) = l.
Proof.
  intros Hs H. induction Hs as [|c sp Hc Hs IH]; cbn [app]; [destruct l; [reflexivity|]; cbn [skip_spaces]; rewrite H; reflexivity|].
  cbn [skip_spaces]. replace (is_space c) with true; [exact IH|]. symmetry. unfold white in Hc. cbn [In] in Hc. unfold is_space. lia.
Qed.
Lemma read_digits_ok ds rest : Forall (fun d => 0 <= d <= 9) ds -> match rest with [] => True | c :: _ => c < 48 \/ 57 < c end ->
  forall acc, read_digits acc (map (fun d => 48 + d) ds ++ rest) = fold_left (fun a d => 10 * a + d) ds acc.
Proof.
  intros H Hr. induction H as [|d ds Hd H IH]; intros acc; cbn [map app fold_left].
  - destruct rest as [|c rest]; [reflexivity|]. cbn [read_digits]. replace ((48 <=? c) && (c <=? 57)) with false by lia. reflexivity.
  - cbn [read_digits]. replace ((48 <=? 48 + d) && (48 + d <=? 57)) with true by lia. rewrite IH. f_equal. ring.
Qed.
Lemma atoi_ok text s ds : is_text text s ds -> atoi text = int_range (number s ds).
Proof.
  intros (Hn & Hd & k & rest & Hw & -> & Hr). unfold atoi, number.
  rewrite skip_spaces_white; [|exact Hw|].
  - destruct s; cbn [sign_text app].
    + destruct ds as [|d ds]; [contradiction|]. pose proof (read_digits_ok (d :: ds) rest Hd Hr 0) as E. inversion Hd as [|? ? Hd0 _ e]; subst.
      cbn [map app] in *. rewrite Z.mul_1_l, <- E. clear E.
      assert (C : d = 0 \/ d = 1 \/ d = 2 \/ d = 3 \/ d = 4 \/ d = 5 \/ d = 6 \/ d = 7 \/ d = 8 \/ d = 9) by lia.
      repeat (destruct C as [C|C]; [subst d; reflexivity|]). subst d. reflexivity.
    + rewrite read_digits_ok, Z.mul_1_l by auto. reflexivity.
    + rewrite read_digits_ok by auto. reflexivity.
  - destruct s; cbn [sign_text app]; try reflexivity. destruct ds as [|d ds]; [contradiction|]. cbn [map app]. inversion Hd; subst. unfold is_space. lia.
Qed.

(* ---- bytes ---- *)
Lemma word_of_range l : Forall is_byte l -> 0 <= word_of l < 256 ^ Z.of_nat (length l).
Proof.
  induction 1 as [|b l Hb H IH]; [cbn; lia|]. cbn [word_of fold_right length]. fold (word_of l). rewrite Nat2Z.inj_succ, Z.pow_succ_r by lia. unfold is_byte in Hb. lia.
Qed.
Lemma word_of_inj l l' : Forall is_byte l -> Forall is_byte l' -> length l = length l' -> word_of l = word_of l' -> l = l'.
Proof.
  intros H. revert l'. induction H as [|b l Hb H IH]; intros [|b' l'] H' L E; try discriminate; [reflexivity|]. inversion H'; subst. injection L as L.
  cbn [word_of fold_right] in E. fold (word_of l) in E. fold (word_of l') in E. unfold is_byte in *.
  assert (b = b' /\ word_of l = word_of l') as [-> E'] by lia. f_equal. apply IH; auto.
Qed.
Lemma seed_bytes_full n junk bytes : (n <= length bytes)%nat -> seed_bytes n junk bytes = firstn n bytes.
Proof.
  intros H. unfold seed_bytes. rewrite firstn_app, firstn_firstn, Nat.min_id. rewrite firstn_length_le by auto. rewrite Nat.sub_diag. cbn [firstn]. apply app_nil_r.
Qed.

Section One.
Context (p : mt_params) (HM : (2 <= MM p < NN p)%nat) (HN : (4 <= NN p)%nat).
Notation w := (wbits p).
Notation A := (MATRIX_A p).
Context (Hw : 31 < w) (HA : 2 ^ (w - 1) <= A < 2 ^ w).
Context (Hmix : forall u v m, 0 <= u < 2 ^ w -> mix p u v m = Z.lxor m (half A (u / 2 ^ 31 * 2 ^ 31 + v mod 2 ^ 31))).
Context (Hinj : forall x y, 0 <= x < 2 ^ w -> 0 <= y < 2 ^ w -> temper p x = temper p y -> x = y).
Context (Hz : temper p 0 = 0) (HK : 2 ^ 31 <= key_first p < 2 ^ w).

Definition words (x : nat -> Z) : Prop := forall i, 0 <= x i < 2 ^ w.
Lemma words_all x : recur p x -> (forall i, (i < NN p)%nat -> 0 <= x i < 2 ^ w) -> words x.
Proof using All.
  intros Hr H i. induction i as [i IH] using lt_wf_ind. destruct (Nat.lt_ge_cases i (NN p)); [auto|]. replace i with (i - NN p + NN p)%nat by lia. rewrite Hr.
  rewrite Hmix by (apply IH; lia). apply twist_word; try lia; apply IH; lia.
Qed.
Lemma runs_of x : recur p x -> words x -> runs (NN p) (MM p) A x.
Proof using All. intros Hr H k. rewrite Hr. apply Hmix. apply H. Qed.

Lemma hm : (0 < MM p < NN p)%nat. Proof using All. lia. Qed.

(* two runs that draw the same NN numbers *)
Lemma outputs_inj x y t st st' r : recur p x -> words x -> recur p y -> words y -> follows p x t st -> follows p y t st' ->
  forall l s1 s2, draws p (NN p) st = Ok (l, s1) -> draws p (NN p) st' = Ok (r, s2) -> l = r ->
  x 0%nat / 2 ^ 31 = y 0%nat / 2 ^ 31 /\ forall i, (1 <= i)%nat -> x i = y i.
Proof using All.
  intros Rx Wx Ry Wy Fx Fy l s1 s2 E1 E2 ->.
  destruct (draws_ok p hm x (NN p) t st Rx Fx) as (s1' & E1' & _). destruct (draws_ok p hm y (NN p) t st' Ry Fy) as (s2' & E2' & _).
  rewrite E1 in E1'. rewrite E2 in E2'. injection E1' as E1' _. injection E2' as E2' _. rewrite E1' in E2'.
  apply (back (NN p) (MM p) w A ltac:(lia) Hw HA x y (NN p + t) Wx Wy (runs_of x Rx Wx) (runs_of y Ry Wy)).
  intros i Hi. apply Hinj; auto. apply (f_equal (fun l => nth_error l (i - (NN p + t)))) in E2'. rewrite !nth_error_map_seq in E2' by lia. injection E2' as E2'.
  replace (NN p + (t + (i - (NN p + t))))%nat with i in E2' by lia. exact E2'.
Qed.
Lemma not_zero x t st : recur p x -> words x -> follows p x t st -> (2 ^ 31 <= x 0%nat \/ exists i, (1 <= i)%nat /\ x i <> 0) ->
  exists l st', draws p (NN p) st = Ok (l, st') /\ l <> repeat 0 (NN p).
Proof using All.
  intros Rx Wx Fx N. destruct (draws_ok p hm x (NN p) t st Rx Fx) as (s1 & E1 & _). eexists _, _. split; [exact E1|]. intros E.
  destruct (back (NN p) (MM p) w A ltac:(lia) Hw HA x (fun _ => 0) (NN p + t) Wx) as [U V].
  - intros i. assert (0 < 2 ^ w) by (apply Z.pow_pos_nonneg; lia). lia.
  - apply runs_of; auto.
  - intros k. reflexivity.
  - intros i Hi. apply Hinj; [auto|assert (0 < 2 ^ w) by (apply Z.pow_pos_nonneg; lia); lia|]. rewrite Hz.
    apply (f_equal (fun l => nth_error l (i - (NN p + t)))) in E. rewrite nth_error_map_seq, nth_error_repeat in E by lia. injection E as E.
    replace (NN p + (t + (i - (NN p + t))))%nat with i in E by lia. exact E.
  - destruct N as [N|(i & Hi & N)]; [|apply N, V; auto]. rewrite Z.div_0_l in U by lia. apply Z.div_small_iff in U; [|lia]. lia.
Qed.

(* ---- the three ways to seed ---- *)
Definition base : nat -> Z := fun q => match init_genrand p 19650218 (mt_start p) with Ok st => nth q (mt st) 0 | _ => 0 end.
Lemma base_ok : base 0 = 19650218 mod 2 ^ w /\ forall i, (0 < i < NN p)%nat -> base i = seed_word p (base (i - 1)) i.
Proof using All.
  unfold base. destruct (start_sane p hm) as [L _]. destruct (init_ok p hm 19650218 (mt_start p) L) as (m & E & Lm & H0 & Hi). rewrite E. cbn [mt]. split; auto.
Qed.
Definition keyed (k : Z) : nat -> Z := sequence p (map (array_word p base k) (seq 0 (NN p))).
Lemma keyed_len k : length (map (array_word p base k) (seq 0 (NN p))) = NN p.
Proof using All. rewrite map_length, seq_length. reflexivity. Qed.
Lemma keyed_first k q : (q < NN p)%nat -> keyed k q = array_word p base k q.
Proof using All. intros H. unfold keyed. rewrite sequence_start by (auto using hm, keyed_len). apply nth_error_nth. apply nth_error_map_seq. auto. Qed.
Lemma keyed_recur k : recur p (keyed k).
Proof using All. apply sequence_recur; auto using hm, keyed_len. Qed.
Lemma keyed_words k : words (keyed k).
Proof using All.
  apply words_all; [apply keyed_recur|]. intros i Hi. rewrite keyed_first by auto. unfold array_word. destruct (i =? 0)%nat; [lia|].
  destruct (i =? 1)%nat; [apply word_mod|apply dd_word]; lia.
Qed.
Lemma array_follows k st : sane p st -> init_by_array p [k] st = Ok (mkMS (map (array_word p base k) (seq 0 (NN p))) (NN p)) /\
  follows p (keyed k) 0 (mkMS (map (array_word p base k) (seq 0 (NN p))) (NN p)).
Proof using All.
  intros Hs. destruct base_ok as [B0 Bi]. split; [apply array1; auto using hm|]. split; [cbn; lia|]. exists 0%nat. split; [|cbn; lia]. cbn [mt].
  unfold keyed. rewrite window_sequence; auto using hm, keyed_len.
Qed.
Lemma keyed_inj k k' : (forall i, (1 <= i)%nat -> keyed k i = keyed k' i) -> k mod 2 ^ w = k' mod 2 ^ w.
Proof using All. intros H. apply (array_inj p HN ltac:(lia) base). intros q Hq. rewrite <- !keyed_first by lia. apply H. lia. Qed.

Definition seeded (s : Z) : nat -> Z := sequence p (match init_genrand p s (mt_start p) with Ok st => mt st | _ => [] end).
Lemma seeded_ok s st : sane p st -> recur p (seeded s) /\ words (seeded s) /\ seeded s 0 = s mod 2 ^ w /\
  (forall i, (0 < i < NN p)%nat -> seeded s i = seed_word p (seeded s (i - 1)) i) /\
  exists st', init_genrand p s st = Ok st' /\ follows p (seeded s) 0 st'.
Proof using All.
  intros Hs. destruct (start_sane p hm) as [L _]. destruct (init_ok p hm s (mt_start p) L) as (m & E & Lm & H0 & Hi).
  assert (Es : seeded s = sequence p m) by (unfold seeded; rewrite E; reflexivity). rewrite Es.
  assert (S0 : forall q, (q < NN p)%nat -> sequence p m q = nth q m 0) by (intros; apply sequence_start; auto using hm).
  assert (R : recur p (sequence p m)) by (apply sequence_recur; auto using hm).
  assert (I1 : forall i, (0 < i < NN p)%nat -> sequence p m i = seed_word p (sequence p m (i - 1)) i) by (intros i Hi'; rewrite !S0 by lia; auto).
  assert (I0 : sequence p m 0 = s mod 2 ^ w) by (rewrite S0 by lia; auto).
  split; [exact R|]. split.
  - apply words_all; auto. intros i Hi'. assert (0 < 2 ^ w) by (apply Z.pow_pos_nonneg; lia). destruct (Nat.eq_dec i 0) as [->|]; [rewrite I0|rewrite I1 by lia; unfold seed_word]; apply Z.mod_pos_bound; auto.
  - split; [exact I0|]. split; [exact I1|]. apply seed_follows; auto using hm.
Qed.

Lemma draw_more x t n st : recur p x -> follows p x t st -> exists l st', draws p n st = Ok (l, st') /\ follows p x (t + n) st'.
Proof using All. intros R F. destruct (draws_ok p hm x n t st R F) as (st' & E & H). eauto. Qed.

(* what any reseeding does *)
Definition seed_word_of (sys : system) (junk bytes : list Z) : Z := word_of (seed_bytes (Z.to_nat (w / 8)) junk bytes).
Lemma reseed_cases sys junk st st' : sane p st -> rand_reseed p sys junk st = Ok st' ->
  exists x t, recur p x /\ words x /\ follows p x t st' /\ (2 ^ 31 <= x 0%nat \/ exists i, (1 <= i)%nat /\ x i <> 0).
Proof using All.
  intros Hs E. unfold rand_reseed in E.
  assert (NZ : forall s, recur p (seeded s) /\ words (seeded s) -> (forall i, (0 < i < NN p)%nat -> seeded s i = seed_word p (seeded s (i - 1)) i) -> exists i, (1 <= i)%nat /\ seeded s i <> 0).
  { intros s _ Hi. destruct (Z.eq_dec (seeded s 1) 0) as [Z1|]; [|exists 1%nat; split; auto]. exists 2%nat. split; [lia|]. rewrite Hi by lia. cbn [Nat.sub]. rewrite Z1. unfold seed_word.
    rewrite Z.shiftr_0_l, Z.lxor_nilpotent, Z.mul_0_r. assert (2 ^ 2 <= 2 ^ w) by (apply Z.pow_le_mono_r; lia). rewrite Z.mod_small; lia. }
  destruct (randseed sys) as [text|].
  - destruct (atoi text) as [s| | |]; try discriminate. cbn [bind] in E. destruct (seeded_ok s st Hs) as (R & Wd & _ & Hi & st1 & E1 & F). rewrite E in E1. injection E1 as <-.
    exists (seeded s), 0%nat. repeat (split; [auto|]). right. apply NZ; auto.
  - destruct (urandom sys) as [bytes|].
    + destruct (array_follows (word_of (seed_bytes (Z.to_nat (w / 8)) junk bytes)) st Hs) as [E1 F]. rewrite E1 in E. cbn [bind] in E.
      destruct (draw_more _ _ (624 * 10) _ (keyed_recur _) F) as (l & st2 & E2 & F2). rewrite E2 in E. cbn [bind] in E. injection E as <-.
      eexists _, _. split; [apply keyed_recur|]. split; [apply keyed_words|]. split; [exact F2|]. left. rewrite keyed_first by lia. unfold array_word. cbn [Nat.eqb]. lia.
    + destruct (seeded_ok (to_int (now sys)) st Hs) as (R & Wd & _ & Hi & st1 & E1 & F). rewrite E1 in E. cbn [bind] in E.
      destruct (draw_more _ _ (624 * 10) _ R F) as (l & st2 & E2 & F2). rewrite E2 in E. cbn [bind] in E. injection E as <-.
      eexists _, _. split; [exact R|]. split; [exact Wd|]. split; [exact F2|]. right. apply NZ; auto.
Qed.
End One.

Lemma mixed64 u v m : 0 <= u < 2 ^ wbits mt64 -> mix mt64 u v m = Z.lxor m (half (MATRIX_A mt64) (u / 2 ^ 31 * 2 ^ 31 + v mod 2 ^ 31)).
Proof. intros H. rewrite mix64_ok by exact H. reflexivity. Qed.
Lemma mixed32 u v m : 0 <= u < 2 ^ wbits mt32 -> mix mt32 u v m = Z.lxor m (half (MATRIX_A mt32) (u / 2 ^ 31 * 2 ^ 31 + v mod 2 ^ 31)).
Proof. intros H. rewrite mix32_ok by exact H. reflexivity. Qed.
Lemma temper_inj64 x y : 0 <= x < 2 ^ wbits mt64 -> 0 <= y < 2 ^ wbits mt64 -> temper mt64 x = temper mt64 y -> x = y.
Proof. cbn [temper mt64]. rewrite !temper64_ok. apply output64_inj. Qed.
Lemma temper_inj32 x y : 0 <= x < 2 ^ wbits mt32 -> 0 <= y < 2 ^ wbits mt32 -> temper mt32 x = temper mt32 y -> x = y.
Proof. cbn [temper mt32]. rewrite !temper32_ok. apply output32_inj. Qed.

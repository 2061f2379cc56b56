(* C49, C50: random numbers. *)
From Verif Require Import Base M_Rand S_Rand L_Rand.
Local Open Scope Z_scope.

(* C49: whatever was done before (seeding, reseeding from the operating system,
   drawing), the generator never leaves its array, and after set_seed s the
   outputs are the published MT19937-64 sequence of s: they depend on s and the
   number of draws only. *)
Theorem C49_sequence : forall (h : list rand_op) (s : Z) (x : nat -> Z) (n : nat),
  Forall (fun o => match o with SeedArray key => key <> [] | _ => True end) h ->
  seeded64 s x -> recurrence64 x ->
  exists st0 st1 st2,
    rand_run mt64 h (mt_start mt64) = Ok st0 /\
    init_genrand mt64 s st0 = Ok st1 /\
    draws mt64 n st1 = Ok (map (fun i => output64 (x (312 + i)%nat)) (seq 0 n), st2).
Proof.
  intros h s x n Hh Hs Hr. destruct (run_sane mt64 hm64 h (mt_start mt64)) as (st0 & E0 & H0); [exact Hh|apply start_sane; cbn; lia|].
  destruct (seed64_draws s x st0 n H0 Hs Hr) as (st1 & st2 & E1 & E2). eauto 6.
Qed.
Theorem C49_sequence_32bits : forall (h : list rand_op) (s : Z) (x : nat -> Z) (n : nat),
  Forall (fun o => match o with SeedArray key => key <> [] | _ => True end) h ->
  seeded32 s x -> recurrence32 x ->
  exists st0 st1 st2,
    rand_run mt32 h (mt_start mt32) = Ok st0 /\
    init_genrand mt32 s st0 = Ok st1 /\
    draws mt32 n st1 = Ok (map (fun i => output32 (x (624 + i)%nat)) (seq 0 n), st2).
Proof.
  intros h s x n Hh Hs Hr. destruct (run_sane mt32 hm32 h (mt_start mt32)) as (st0 & E0 & H0); [exact Hh|apply start_sane; cbn; lia|].
  destruct (seed32_draws s x st0 n H0 Hs Hr) as (st1 & st2 & E1 & E2). eauto 6.
Qed.
(* the sequence of the two theorems exists for every seed *)
Theorem C49_sequence_exists : forall s,
  (exists x, seeded64 s x /\ recurrence64 x) /\ (exists x, seeded32 s x /\ recurrence32 x).
Proof. intros s. split; [apply init64_exists|apply init32_exists]. Qed.

(* a generator that was never seeded behaves as after seed 5489 *)
Theorem C49_default_seed : forall (x : nat -> Z) (n : nat),
  seeded64 5489 x -> recurrence64 x ->
  exists st, (0 < n)%nat -> draws mt64 n (mt_start mt64) = Ok (map (fun i => output64 (x (312 + i)%nat)) (seq 0 n), st).
Proof.
  intros x n Hs Hr. destruct (seed64_draws 5489 x (mt_start mt64) n (start_sane mt64 hm64) Hs Hr) as (st1 & st2 & E1 & E2).
  exists st2. intros Hn. rewrite (unseeded_draws mt64 n st1 hm64 E1 Hn). exact E2.
Qed.

(* raw outputs are words, and the doubles made of them lie in [0, 1): they are
   multiples of 2^-53, here counted in those units *)
Theorem C49_doubles : forall (s : Z) (x : nat -> Z) (i : nat),
  seeded64 s x -> recurrence64 x ->
  0 <= output64 (x i) < 2 ^ 64 /\ 0 <= res53_64 (output64 (x i)) < 2 ^ 53.
Proof.
  intros s x i Hs Hr. assert (H : 0 <= output64 (x i) < 2 ^ 64) by (apply output64_word, word64; auto; eapply seeded64_word; eauto).
  split; [exact H|]. unfold res53_64. rewrite Z.shiftr_div_pow2 by lia. split; [apply Z.div_pos; lia|apply Z.div_lt_upper_bound; lia].
Qed.
Theorem C49_doubles_32bits : forall (s : Z) (x : nat -> Z) (i j : nat),
  seeded32 s x -> recurrence32 x ->
  0 <= output32 (x i) < 2 ^ 32 /\ 0 <= res53_32 (output32 (x i)) (output32 (x j)) < 2 ^ 53.
Proof.
  intros s x i j Hs Hr. assert (H : forall i, 0 <= output32 (x i) < 2 ^ 32) by (intros k; apply output32_word, word32; auto; eapply seeded32_word; eauto).
  split; [apply H|]. unfold res53_32. rewrite !Z.shiftr_div_pow2 by lia. pose proof (H i). pose proof (H j).
  assert (0 <= output32 (x i) / 2 ^ 5 < 2 ^ 27) by (split; [apply Z.div_pos; lia|apply Z.div_lt_upper_bound; lia]).
  assert (0 <= output32 (x j) / 2 ^ 6 < 2 ^ 26) by (split; [apply Z.div_pos; lia|apply Z.div_lt_upper_bound; lia]). lia.
Qed.
(* but rand<float>() rounds them, and the raw output 2^64 - 1 gives 1.0 *)
Theorem C49_float_refuted : ~ (forall x, 0 <= x < 2 ^ 64 -> 0 <= rand_float x < 2 ^ 53).
Proof. intros H. specialize (H (2 ^ 64 - 1) ltac:(lia)). vm_compute in H. destruct H as [_ H]. discriminate. Qed.
(* seeding from an empty array reads outside it *)
Theorem C49_empty_key : forall st, length (mt st) = 312%nat -> init_by_array mt64 [] st = UB.
Proof.
  intros st H. unfold init_by_array. destruct (init_ok mt64 hm64 19650218 st H) as (m & E & Hm & _). rewrite E. cbn [bind]. cbv zeta.
  change (Nat.max (NN mt64) (length (@nil Z))) with (S 311). 
  destruct (nth_error_lt m 1 ltac:(cbn [NN mt64] in Hm; lia)) as (a & Ha). destruct (nth_error_lt m 0 ltac:(cbn [NN mt64] in Hm; lia)) as (b & Hb).
  unfold for_. cbn [for_from mt bind]. rewrite (rd_ok _ _ _ Ha). change (1 - 1)%nat with 0%nat. rewrite (rd_ok _ _ _ Hb). reflexivity.
Qed.

(* C50 *)
Theorem C50_ulong : forall x lower upper, 0 <= x < 2 ^ 64 -> 0 <= lower < upper -> upper < 2 ^ 64 ->
  lower <= rand_ulong x lower upper < upper.
Proof.
  intros x l u Hx Hl Hu. unfold rand_ulong, rand_ulong_upper. rewrite (Z.mod_small (u - l)) by lia. replace (u - l =? 0) with false by lia.
  pose proof (Z.mod_pos_bound x (u - l) ltac:(lia)). rewrite Z.mod_small by lia. lia.
Qed.
(* rand<int> : when the width fits an int *)
Theorem C50_int_partial : forall x lower upper, 0 <= x < 2 ^ 64 -> - 2 ^ 31 <= lower -> lower < upper -> upper < 2 ^ 31 ->
  upper - lower < 2 ^ 31 -> exists r, rand_int x lower upper = Ok r /\ lower <= r < upper.
Proof.
  intros x l u Hx Hl Hlu Hu Hd. unfold rand_int, int_range. replace ((- 2 ^ 31 <=? u - l) && (u - l <? 2 ^ 31)) with true by lia. cbn [bind].
  unfold rand_int_upper, to_int, to_uint. replace (u - l =? 0) with false by lia. rewrite (Z.mod_small (u - l)) by lia.
  pose proof (Z.mod_pos_bound (x mod 2 ^ 32) (u - l) ltac:(lia)) as Hm. set (m := (x mod 2 ^ 32) mod (u - l)) in *.
  rewrite (Z.mod_small m) by lia. replace (m <? 2 ^ 31) with true by lia. replace ((- 2 ^ 31 <=? m + l) && (m + l <? 2 ^ 31)) with true by lia.
  eexists. split; [reflexivity|]. lia.
Qed.
Theorem C50_int_refuted : ~ (forall x lower upper, 0 <= x < 2 ^ 64 -> - 2 ^ 31 <= lower -> lower < upper -> upper < 2 ^ 31 ->
  exists r, rand_int x lower upper = Ok r /\ lower <= r < upper).
Proof.
  intros H. destruct (H 0 (- 2 ^ 31) (2 ^ 31 - 1) ltac:(lia) ltac:(lia) ltac:(lia) ltac:(lia)) as (r & E & _). vm_compute in E. discriminate.
Qed.
(* rand<long> : the result may lie below lower, by less than the width *)
Theorem C50_long_refuted : ~ (forall x lower upper, 0 <= x < 2 ^ 64 -> - 2 ^ 63 <= lower -> lower < upper -> upper < 2 ^ 63 -> upper - lower < 2 ^ 63 ->
  exists r, rand_long x lower upper = Ok r /\ lower <= r < upper).
Proof.
  intros H. destruct (H (2 ^ 64 - 1) 0 10 ltac:(lia) ltac:(lia) ltac:(lia) ltac:(lia) ltac:(lia)) as (r & E & Hr). vm_compute in E. inversion E. lia.
Qed.
Lemma to_long_range x : - 2 ^ 63 <= to_long x < 2 ^ 63.
Proof. unfold to_long. pose proof (Z.mod_pos_bound x (2 ^ 64)). destruct (x mod 2 ^ 64 <? 2 ^ 63) eqn:E; lia. Qed.
Theorem C50_long_partial : forall x lower upper, 0 <= x < 2 ^ 64 -> - 2 ^ 63 <= lower -> lower < upper -> upper < 2 ^ 63 -> upper - lower < 2 ^ 63 ->
  (x < 2 ^ 63 -> exists r, rand_long x lower upper = Ok r /\ lower <= r < upper) /\
  (2 ^ 63 <= x -> - 2 ^ 63 <= 2 * lower - upper -> exists r, rand_long x lower upper = Ok r /\ 2 * lower - upper < r <= lower).
Proof.
  intros x l u Hx Hl Hlu Hu Hd. unfold rand_long, rand_long_upper, long_range. replace ((- 2 ^ 63 <=? u - l) && (u - l <? 2 ^ 63)) with true by lia. cbn [bind].
  replace (u - l =? 0) with false by lia. replace (u - l =? -1) with false by lia. rewrite andb_false_r. cbn [bind].
  unfold to_long. rewrite (Z.mod_small x) by lia. split.
  - intros Hlo. replace (x <? 2 ^ 63) with true by lia. pose proof (Z.rem_bound_pos x (u - l) ltac:(lia) ltac:(lia)).
    set (m := Z.rem x (u - l)) in *. replace ((- 2 ^ 63 <=? m + l) && (m + l <? 2 ^ 63)) with true by lia. eexists. split; [reflexivity|]. lia.
  - intros Hhi Hw. replace (x <? 2 ^ 63) with false by lia. pose proof (Z.rem_bound_pos_neg (x - 2 ^ 64) (u - l) ltac:(lia) ltac:(lia)).
    set (m := Z.rem (x - 2 ^ 64) (u - l)) in *. replace ((- 2 ^ 63 <=? m + l) && (m + l <? 2 ^ 63)) with true by lia. eexists. split; [reflexivity|]. lia.
Qed.

(* concrete cases: the published first outputs of MT19937-64 for the default
   seed and of MT19937 *)
Example C49_case : ('(l, _) <- draws mt64 3 (mt_start mt64) ;; Ok l) = Ok [14514284786278117030; 4620546740167642908; 13109570281517897720].
Proof. vm_compute. reflexivity. Qed.
Example C49_case32 : ('(l, _) <- draws mt32 3 (mt_start mt32) ;; Ok l) = Ok [3499211612; 581869302; 3890346734].
Proof. vm_compute. reflexivity. Qed.
Example C49_history : (st <- rand_run mt64 [Seed 1; Draw; SeedArray [1; 2]; Draw; Draw] (mt_start mt64) ;; Ok (mti st)) = Ok 2%nat.
Proof. vm_compute. reflexivity. Qed.
(* reference output of init_by_array64 with {0x12345, 0x23456, 0x34567, 0x45678} *)
Example C49_array :
  (st <- init_by_array mt64 [0x12345; 0x23456; 0x34567; 0x45678] (mt_start mt64) ;; '(l, _) <- draws mt64 2 st ;; Ok l) = Ok [7266447313870364031; 4946485549665804864].
Proof. vm_compute. reflexivity. Qed.
Example C50_case : rand_int 12345678901234567890 (-10) 10 = Ok (-4) /\ rand_long 12345678901234567890 (-10) 10 = Ok (-16) /\ rand_ulong 12345678901234567890 5 12 = 6.
Proof. vm_compute. auto. Qed.

Print Assumptions C49_sequence.
Print Assumptions C49_sequence_32bits.
Print Assumptions C49_sequence_exists.
Print Assumptions C49_default_seed.
Print Assumptions C49_doubles.
Print Assumptions C49_doubles_32bits.
Print Assumptions C49_float_refuted.
Print Assumptions C49_empty_key.
Print Assumptions C50_ulong.
Print Assumptions C50_int_partial.
Print Assumptions C50_int_refuted.
Print Assumptions C50_long_refuted.
Print Assumptions C50_long_partial.

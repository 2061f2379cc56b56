(* C92: how evenly random numbers are spread, and what their past tells.
   [counts P n c] (S_Fair): exactly c of the numbers 0 .. n-1 satisfy P. *)
From Verif Require Import Base M_Rand S_Rand L_Rand L_RandInj L_Reseed S_Fair L_Fair.
Local Open Scope Z_scope.

(* The output of the generator is a one-to-one function of a word of its state:
   every word is the output of exactly one. *)
Theorem C92_words : forall v,
  (0 <= v < 2 ^ 64 -> counts (fun x => temper64 x = v) (2 ^ 64) 1) /\
  (0 <= v < 2 ^ 32 -> counts (fun x => temper32 x = v) (2 ^ 32) 1).
Proof.
  intros v. split; intros Hv; apply counts_inj; auto; try lia.
  - intros x Hx. rewrite temper64_ok. apply output64_word, Hx.
  - intros x y. apply temper_inj64.
  - intros x Hx. rewrite temper32_ok. apply output32_word, Hx.
  - intros x y. apply temper_inj32.
Qed.
Print Assumptions C92_words.

(* rand<unsigned long>(lower, upper): each of the upper - lower values comes
   from 2^64 / (upper - lower) of the 2^64 outputs, rounded down or up. *)
Theorem C92_ulong : forall lower upper v, 0 <= lower < upper -> upper < 2 ^ 64 -> lower <= v < upper ->
  exists c, counts (fun x => rand_ulong x lower upper = v) (2 ^ 64) c /\ fair_share (2 ^ 64) (upper - lower) c.
Proof.
  intros l u v Hl Hu Hv. destruct (counts_mod (2 ^ 64) (u - l) (v - l)) as (c & Hc & Hf & _); [lia|lia|lia|].
  exists c. split; [|exact Hf]. refine (counts_ext _ _ _ _ _ Hc). intros x Hx. unfold rand_ulong, rand_ulong_upper.
  rewrite (Z.mod_small (u - l)) by lia. replace (u - l =? 0) with false by lia.
  pose proof (Z.mod_pos_bound x (u - l) ltac:(lia)). rewrite (Z.mod_small (x mod (u - l) + l)) by lia. lia.
Qed.
Print Assumptions C92_ulong.

(* rand<int>(lower, upper), when the width fits an int (see C50_int_refuted):
   only 32 bits of the output are used. *)
Theorem C92_int_partial : forall lower upper v, - 2 ^ 31 <= lower -> lower < upper -> upper < 2 ^ 31 -> upper - lower < 2 ^ 31 ->
  lower <= v < upper ->
  exists c, counts (fun x => rand_int x lower upper = Ok v) (2 ^ 64) (2 ^ 32 * c) /\ fair_share (2 ^ 32) (upper - lower) c.
Proof.
  intros l u v Hl Hlu Hu Hd Hv. destruct (counts_mod (2 ^ 32) (u - l) (v - l)) as (c & Hc & Hf & Ec); [lia|lia|lia|].
  exists c. split; [|exact Hf]. assert (0 <= c) by (rewrite Ec; apply Z.div_pos; lia).
  apply (counts_low _ (2 ^ 32) (2 ^ 32)) in Hc; [|lia|lia|lia]. change (2 ^ 64) with (2 ^ 32 * 2 ^ 32).
  refine (counts_ext _ _ _ _ _ Hc). intros x Hx. unfold rand_int, int_range.
  replace ((- 2 ^ 31 <=? u - l) && (u - l <? 2 ^ 31)) with true by lia. cbn [bind].
  unfold rand_int_upper, to_int, to_uint. replace (u - l =? 0) with false by lia. rewrite (Z.mod_small (u - l)) by lia.
  pose proof (Z.mod_pos_bound (x mod 2 ^ 32) (u - l) ltac:(lia)) as Hm. set (m := (x mod 2 ^ 32) mod (u - l)) in *.
  rewrite (Z.mod_small m) by lia. replace (m <? 2 ^ 31) with true by lia.
  replace ((- 2 ^ 31 <=? m + l) && (m + l <? 2 ^ 31)) with true by lia.
  split; [intros E; f_equal; lia|intros E; injection E; lia].
Qed.
Print Assumptions C92_int_partial.

(* So no value is missing, but the shares differ by one word where the width is
   no power of two: 0, 1 and 2 are not equally likely. *)
Theorem C92_even_refuted : ~ (forall lower upper v v' c c', 0 <= lower < upper -> upper < 2 ^ 64 ->
  lower <= v < upper -> lower <= v' < upper ->
  counts (fun x => rand_ulong x lower upper = v) (2 ^ 64) c -> counts (fun x => rand_ulong x lower upper = v') (2 ^ 64) c' -> c = c').
Proof.
  intros H.
  assert (K : forall v, 0 <= v < 3 -> counts (fun x => rand_ulong x 0 3 = v) (2 ^ 64) ((2 ^ 64 - v + 3 - 1) / 3)).
  { intros v Hv. destruct (counts_mod (2 ^ 64) 3 v) as (c & Hc & _ & Ec); [lia|lia|lia|]. rewrite <- Ec.
    refine (counts_ext _ _ _ _ _ Hc). intros x Hx. unfold rand_ulong, rand_ulong_upper. rewrite (Z.mod_small (3 - 0)) by lia.
    change (3 - 0 =? 0) with false. change (3 - 0) with 3. cbv iota. pose proof (Z.mod_pos_bound x 3 ltac:(lia)). rewrite (Z.mod_small (x mod 3 + 0)) by lia. lia. }
  specialize (H 0 3 0 1 _ _ ltac:(lia) ltac:(lia) ltac:(lia) ltac:(lia) (K 0 ltac:(lia)) (K 1 ltac:(lia))). vm_compute in H. discriminate.
Qed.
Print Assumptions C92_even_refuted.

(* rand<double>(): each of the 2^53 multiples of 2^-53 in [0, 1) comes from 2^11
   of the outputs; with the 32-bit generator, of the pairs of outputs. *)
Theorem C92_double : forall k, 0 <= k < 2 ^ 53 ->
  counts (fun x => res53_64 x = k) (2 ^ 64) (2 ^ 11) /\
  counts (fun xy => res53_32 (xy / 2 ^ 32) (xy mod 2 ^ 32) = k) (2 ^ 64) (2 ^ 11).
Proof.
  intros k Hk. split.
  - assert (H := counts_high _ (2 ^ 11) (2 ^ 53) 1 ltac:(lia) ltac:(lia) ltac:(lia) (counts_equal (2 ^ 53) k Hk)).
    change (2 ^ 53 * 2 ^ 11) with (2 ^ 64) in H. change (1 * 2 ^ 11) with (2 ^ 11) in H.
    refine (counts_ext _ _ _ _ _ H). intros x Hx. unfold res53_64. rewrite Z.shiftr_div_pow2 by lia. tauto.
  - set (a := k / 2 ^ 26). set (b := k mod 2 ^ 26).
    assert (Ha : 0 <= a < 2 ^ 27) by (unfold a; split; [apply Z.div_pos; lia|apply Z.div_lt_upper_bound; lia]).
    assert (Hb : 0 <= b < 2 ^ 26) by (apply Z.mod_pos_bound; lia).
    assert (Ek : k = a * 2 ^ 26 + b) by (unfold a, b; pose proof (Z.div_mod k (2 ^ 26) ltac:(lia)); lia).
    apply (counts_map _ _ _ (fun j => (a * 2 ^ 5 + j / 2 ^ 6) * 2 ^ 32 + (b * 2 ^ 6 + j mod 2 ^ 6))); [lia| | |].
    + intros j Hj. assert (J1 : 0 <= j / 2 ^ 6 < 2 ^ 5) by (split; [apply Z.div_pos; lia|apply Z.div_lt_upper_bound; lia]).
      assert (J2 : 0 <= j mod 2 ^ 6 < 2 ^ 6) by (apply Z.mod_pos_bound; lia).
      set (p := j / 2 ^ 6) in *. set (q := j mod 2 ^ 6) in *. split; [lia|].
      rewrite Z.div_add_l, (Z.div_small (b * 2 ^ 6 + q)), Z.add_0_r by lia.
      rewrite (Z.add_comm _ (b * 2 ^ 6 + q)), Z_mod_plus_full, (Z.mod_small (b * 2 ^ 6 + q)) by lia.
      unfold res53_32. rewrite !Z.shiftr_div_pow2 by lia. rewrite !Z.div_add_l by lia. rewrite (Z.div_small p), (Z.div_small q) by lia.
      change 67108864 with (2 ^ 26). lia.
    + intros i j Hi Hj E.
      assert (I1 : 0 <= i / 2 ^ 6 < 2 ^ 5) by (split; [apply Z.div_pos; lia|apply Z.div_lt_upper_bound; lia]).
      assert (J1 : 0 <= j / 2 ^ 6 < 2 ^ 5) by (split; [apply Z.div_pos; lia|apply Z.div_lt_upper_bound; lia]).
      assert (I2 : 0 <= i mod 2 ^ 6 < 2 ^ 6) by (apply Z.mod_pos_bound; lia).
      assert (J2 : 0 <= j mod 2 ^ 6 < 2 ^ 6) by (apply Z.mod_pos_bound; lia).
      rewrite (Z.div_mod i (2 ^ 6)), (Z.div_mod j (2 ^ 6)) by lia. lia.
    + intros x Hx E. unfold res53_32 in E. rewrite !Z.shiftr_div_pow2 in E by lia. change 67108864 with (2 ^ 26) in E.
      set (h := x / 2 ^ 32) in *. set (lo := x mod 2 ^ 32) in *.
      assert (Hh : 0 <= h < 2 ^ 32) by (unfold h; split; [apply Z.div_pos; lia|apply Z.div_lt_upper_bound; lia]).
      assert (Hlo : 0 <= lo < 2 ^ 32) by (apply Z.mod_pos_bound; lia).
      assert (Ex : x = h * 2 ^ 32 + lo) by (unfold h, lo; pose proof (Z.div_mod x (2 ^ 32) ltac:(lia)); lia).
      assert (Y : 0 <= lo / 2 ^ 6 < 2 ^ 26) by (split; [apply Z.div_pos; lia|apply Z.div_lt_upper_bound; lia]).
      exists (h mod 2 ^ 5 * 2 ^ 6 + lo mod 2 ^ 6).
      assert (A1 : 0 <= h mod 2 ^ 5 < 2 ^ 5) by (apply Z.mod_pos_bound; lia).
      assert (A2 : 0 <= lo mod 2 ^ 6 < 2 ^ 6) by (apply Z.mod_pos_bound; lia).
      split; [lia|]. rewrite Z.div_add_l, (Z.div_small (lo mod 2 ^ 6)), Z.add_0_r by lia.
      rewrite (Z.add_comm _ (lo mod 2 ^ 6)), Z_mod_plus_full, (Z.mod_small (lo mod 2 ^ 6)) by lia.
      pose proof (Z.div_mod h (2 ^ 5) ltac:(lia)). pose proof (Z.div_mod lo (2 ^ 6) ltac:(lia)).
      assert (h / 2 ^ 5 = a /\ lo / 2 ^ 6 = b) by lia. lia.
Qed.
Print Assumptions C92_double.

(* The generator keeps no secret: two programs that have used it in any way, and
   then see the same NN consecutive outputs (312 words of 64 bits, 624 of 32),
   see the same outputs from then on. *)
Theorem C92_observed : forall p h h' n l r r' st st' s s',
  p = mt64 \/ p = mt32 ->
  rand_run p h (mt_start p) = Ok st -> rand_run p h' (mt_start p) = Ok st' ->
  Forall op_ok h -> Forall op_ok h' -> length l = NN p ->
  draws p (NN p + n) st = Ok (l ++ r, s) -> draws p (NN p + n) st' = Ok (l ++ r', s') -> r = r'.
Proof.
  intros p h h' n l r r' st st' s s' Hp E E' Hh Hh' HL D D'.
  assert (HM : (0 < MM p < NN p)%nat) by (destruct Hp; subst p; cbn; lia).
  assert (Hb : 0 <= wbits p) by (destruct Hp; subst p; cbn; lia).
  assert (HK : 0 <= key_first p < 2 ^ wbits p) by (destruct Hp; subst p; cbn; lia).
  assert (HX : forall u v m, 0 <= u < 2 ^ wbits p -> 0 <= m < 2 ^ wbits p -> 0 <= mix p u v m < 2 ^ wbits p).
  { destruct Hp; subst p; intros u v m Hu Hm; [rewrite mix64_ok by exact Hu|rewrite mix32_ok by exact Hu]; apply twist_word; cbn [wbits mt64 mt32] in *; lia. }
  assert (HI : forall a b, 0 <= a < 2 ^ wbits p -> 0 <= b < 2 ^ wbits p -> temper p a = temper p b -> a = b).
  { destruct Hp; subst p; [exact temper_inj64|exact temper_inj32]. }
  destruct (run_sane p HM h (mt_start p) Hh (start_sane p HM)) as (q & Eq & Sq). rewrite E in Eq. injection Eq as <-.
  destruct (run_sane p HM h' (mt_start p) Hh' (start_sane p HM)) as (q' & Eq' & Sq'). rewrite E' in Eq'. injection Eq' as <-.
  pose proof (wordy_run p HM Hb HK HX h _ _ E (wordy_start p HM Hb HK HX)) as W.
  pose proof (wordy_run p HM Hb HK HX h' _ _ E' (wordy_start p HM Hb HK HX)) as W'.
  exact (observed p HM Hb HK HX HI st st' n l r r' s s' Sq W Sq' W' HL D D').
Qed.
Print Assumptions C92_observed.

(* concrete cases *)
Example C92_case_share : fair_share (2 ^ 64) 10 1844674407370955161 /\ fair_share (2 ^ 64) 10 1844674407370955162 /\ ~ fair_share (2 ^ 64) 10 1844674407370955163.
Proof. unfold fair_share. lia. Qed.
Example C92_case_count : counts (fun x => x mod 3 = 1) 8 3.
Proof.
  exists [1; 4; 7]. split; [repeat constructor; simpl; lia|]. split; [|reflexivity]. intros x. simpl. split.
  - intros [<-|[<-|[<-|[]]]]; split; try lia; reflexivity.
  - intros [Hx E]. assert (x = 0 \/ x = 1 \/ x = 2 \/ x = 3 \/ x = 4 \/ x = 5 \/ x = 6 \/ x = 7) as K by lia.
    destruct K as [->|[->|[->|[->|[->|[->|[->| ->]]]]]]]; try discriminate E; tauto.
Qed.
(* two different histories that meet: seeding wipes the past *)
Example C92_case_observed :
  (st <- rand_run mt64 [Draw; Seed 7; Draw] (mt_start mt64) ;; st' <- rand_run mt64 [SeedArray [1]; Seed 7; Draw] (mt_start mt64) ;;
   '(a, _) <- draws mt64 314 st ;; '(b, _) <- draws mt64 314 st' ;; Ok (forallb (fun q => fst q =? snd q) (combine a b) && (length a =? 314)%nat)) = Ok true.
Proof. vm_compute. reflexivity. Qed.

(* C88: seeding.  Vocabulary: S_Rand.v, S_Reseed.v.  mt64 and mt32 are the two
   configurations of the library. *)
From Verif Require Import Base M_Rand S_Rand L_Rand L_RandInj L_RandArray S_Reseed M_Reseed L_Reseed.
Local Open Scope Z_scope.

(* a program that has used the generator in any way *)
Definition history_ok (h : list rand_op) : Prop := Forall (fun o => match o with SeedArray key => key <> [] | _ => True end) h.

(* With RANDSEED set to a decimal number (an int), the numbers after rand_reseed
   are those of the published generator with that seed, whatever happened before. *)
Theorem C88_randseed_partial : forall h sys junk text sg digits x n,
  history_ok h -> randseed sys = Some text -> is_text text sg digits -> - 2 ^ 31 <= number sg digits < 2 ^ 31 ->
  seeded64 (number sg digits) x -> recurrence64 x ->
  exists st0 st1 st2, rand_run mt64 h (mt_start mt64) = Ok st0 /\ rand_reseed mt64 sys junk st0 = Ok st1 /\
    draws mt64 n st1 = Ok (map (fun i => output64 (x (312 + i)%nat)) (seq 0 n), st2).
Proof.
  intros h sys junk text sg ds x n Hh Hr Ht Hi Hs Hx. destruct (run_sane mt64 hm64 h (mt_start mt64)) as (st0 & E0 & H0); [exact Hh|apply start_sane, hm64|].
  destruct (seed64_draws (number sg ds) x st0 n H0 Hs Hx) as (st1 & st2 & E1 & E2). exists st0, st1, st2. split; [auto|]. split; [|auto].
  unfold rand_reseed. rewrite Hr, (atoi_ok _ _ _ Ht). unfold int_range. replace ((- 2 ^ 31 <=? number sg ds) && (number sg ds <? 2 ^ 31)) with true by lia. exact E1.
Qed.
Print Assumptions C88_randseed_partial.
Theorem C88_randseed_32bits_partial : forall h sys junk text sg digits x n,
  history_ok h -> randseed sys = Some text -> is_text text sg digits -> - 2 ^ 31 <= number sg digits < 2 ^ 31 ->
  seeded32 (number sg digits) x -> recurrence32 x ->
  exists st0 st1 st2, rand_run mt32 h (mt_start mt32) = Ok st0 /\ rand_reseed mt32 sys junk st0 = Ok st1 /\
    draws mt32 n st1 = Ok (map (fun i => output32 (x (624 + i)%nat)) (seq 0 n), st2).
Proof.
  intros h sys junk text sg ds x n Hh Hr Ht Hi Hs Hx. destruct (run_sane mt32 hm32 h (mt_start mt32)) as (st0 & E0 & H0); [exact Hh|apply start_sane, hm32|].
  destruct (seed32_draws (number sg ds) x st0 n H0 Hs Hx) as (st1 & st2 & E1 & E2). exists st0, st1, st2. split; [auto|]. split; [|auto].
  unfold rand_reseed. rewrite Hr, (atoi_ok _ _ _ Ht). unfold int_range. replace ((- 2 ^ 31 <=? number sg ds) && (number sg ds <? 2 ^ 31)) with true by lia. exact E1.
Qed.
Print Assumptions C88_randseed_32bits_partial.

(* A number that is no int (set_seed takes an unsigned long) is undefined. *)
Theorem C88_randseed_refuted : forall p sys junk text sg digits st,
  randseed sys = Some text -> is_text text sg digits -> number sg digits < - 2 ^ 31 \/ 2 ^ 31 <= number sg digits ->
  rand_reseed p sys junk st = UB.
Proof.
  intros p sys junk text sg ds st Hr Ht Hi. unfold rand_reseed. rewrite Hr, (atoi_ok _ _ _ Ht). unfold int_range.
  replace ((- 2 ^ 31 <=? number sg ds) && (number sg ds <? 2 ^ 31)) with false by lia. reflexivity.
Qed.
Print Assumptions C88_randseed_refuted.

(* A text without digits is taken for 0, silently. *)
Theorem C88_randseed_text_refuted : forall p sys junk text st,
  randseed sys = Some text -> Forall (fun c => c < 48 \/ 57 < c) text ->
  rand_reseed p sys junk st = rand_reseed p (mkSys (Some [48]) (urandom sys) (now sys)) junk st.
Proof.
  intros p sys junk text st Hr Ht. unfold rand_reseed. rewrite Hr. cbn [randseed].
  assert (R : forall l, Forall (fun c => c < 48 \/ 57 < c) l -> read_digits 0 l = 0).
  { intros [|c l] H; [reflexivity|]. inversion H; subst. cbn [read_digits]. replace ((48 <=? c) && (c <=? 57)) with false by lia. reflexivity. }
  assert (S0 : Forall (fun c => c < 48 \/ 57 < c) (skip_spaces text)).
  { clear Hr. induction text as [|c l IH]; [constructor|]. inversion Ht; subst. cbn [skip_spaces]. destruct (is_space c); auto. }
  assert (E : atoi text = Ok 0).
  { unfold atoi. revert S0. generalize (skip_spaces text). intros [|c l] H; [reflexivity|]. pose proof (R _ H) as R1. inversion H as [|? ? Hc Hl]; subst. pose proof (R _ Hl) as R2.
    destruct (Z.eq_dec c 45) as [->|N1]; [rewrite R2; reflexivity|]. destruct (Z.eq_dec c 43) as [->|N2]; [rewrite R2; reflexivity|].
    transitivity (int_range (read_digits 0 (c :: l))); [|rewrite R1; reflexivity].
    destruct c as [|q|q]; try reflexivity. do 6 (destruct q as [q|q|]; try reflexivity; try contradiction). }
  rewrite E. reflexivity.
Qed.
Print Assumptions C88_randseed_text_refuted.

Lemma config p : p = mt64 \/ p = mt32 ->
  (2 <= MM p < NN p)%nat /\ (4 <= NN p)%nat /\ 31 < wbits p /\ 2 ^ (wbits p - 1) <= MATRIX_A p < 2 ^ wbits p /\
  (forall u v m, 0 <= u < 2 ^ wbits p -> mix p u v m = Z.lxor m (half (MATRIX_A p) (u / 2 ^ 31 * 2 ^ 31 + v mod 2 ^ 31))) /\
  (forall x y, 0 <= x < 2 ^ wbits p -> 0 <= y < 2 ^ wbits p -> temper p x = temper p y -> x = y) /\ temper p 0 = 0 /\ 2 ^ 31 <= key_first p < 2 ^ wbits p.
Proof.
  intros [-> | ->].
  - split; [cbn; lia|]. split; [cbn; lia|]. split; [cbn; lia|]. split; [cbn; lia|]. split; [apply mixed64|]. split; [apply temper_inj64|]. split; [reflexivity|]. cbn; lia.
  - split; [cbn; lia|]. split; [cbn; lia|]. split; [cbn; lia|]. split; [cbn; lia|]. split; [apply mixed32|]. split; [apply temper_inj32|]. split; [reflexivity|]. cbn; lia.
Qed.

(* Without RANDSEED, and if /dev/urandom gives a word's worth of bytes, the state
   after rand_reseed depends on these bytes only: not on what happened before, nor
   on uninitialised memory. *)
Theorem C88_urandom : forall p h h' sys sys' junk junk' bytes bytes',
  p = mt64 \/ p = mt32 -> history_ok h -> history_ok h' -> randseed sys = None -> randseed sys' = None ->
  urandom sys = Some bytes -> urandom sys' = Some bytes' ->
  let n := Z.to_nat (wbits p / 8) in
  (n <= length bytes)%nat -> (n <= length bytes')%nat -> firstn n bytes = firstn n bytes' ->
  exists st0 st0' st, rand_run p h (mt_start p) = Ok st0 /\ rand_run p h' (mt_start p) = Ok st0' /\
    rand_reseed p sys junk st0 = Ok st /\ rand_reseed p sys' junk' st0' = Ok st.
Proof.
  intros p h h' sys sys' junk junk' bytes bytes' Hp Hh Hh' Hr Hr' Hu Hu' n Hl Hl' E. destruct (config p Hp) as (c1 & c2 & c3 & c4 & c5 & c6 & c7 & c8).
  assert (Hm : (0 < MM p < NN p)%nat) by lia.
  destruct (run_sane p Hm h (mt_start p)) as (st0 & E0 & H0); [exact Hh|apply start_sane, Hm|].
  destruct (run_sane p Hm h' (mt_start p)) as (st0' & E0' & H0'); [exact Hh'|apply start_sane, Hm|].
  set (k := word_of (firstn n bytes)).
  destruct (array_follows p c1 c2 c3 c4 c5 c6 c7 c8 k st0 H0) as [E1 F]. destruct (array_follows p c1 c2 c3 c4 c5 c6 c7 c8 k st0' H0') as [E1' _].
  destruct (draw_more p c1 c2 c3 c4 c5 c6 c7 c8 _ _ (624 * 10) _ (keyed_recur p c1 c2 c3 c4 c5 c6 c7 c8 k) F) as (l & st2 & E2 & F2).
  exists st0, st0', st2. split; [auto|]. split; [auto|]. unfold rand_reseed. rewrite Hr, Hr', Hu, Hu'. fold n.
  rewrite !seed_bytes_full by auto. rewrite <- E. fold k. rewrite E1, E1'. cbn [bind]. rewrite E2. cbn [bind]. auto.
Qed.
Print Assumptions C88_urandom.

(* Different bytes give different numbers, within the first 312 (624) of them. *)
Theorem C88_urandom_differ : forall p h h' sys sys' junk junk' bytes bytes',
  p = mt64 \/ p = mt32 -> history_ok h -> history_ok h' -> randseed sys = None -> randseed sys' = None ->
  urandom sys = Some bytes -> urandom sys' = Some bytes' -> Forall is_byte bytes -> Forall is_byte bytes' ->
  let n := Z.to_nat (wbits p / 8) in
  (n <= length bytes)%nat -> (n <= length bytes')%nat -> firstn n bytes <> firstn n bytes' ->
  exists st0 st0' st1 st1' l l' st2 st2', rand_run p h (mt_start p) = Ok st0 /\ rand_run p h' (mt_start p) = Ok st0' /\
    rand_reseed p sys junk st0 = Ok st1 /\ rand_reseed p sys' junk' st0' = Ok st1' /\
    draws p (NN p) st1 = Ok (l, st2) /\ draws p (NN p) st1' = Ok (l', st2') /\ l <> l'.
Proof.
  intros p h h' sys sys' junk junk' bytes bytes' Hp Hh Hh' Hr Hr' Hu Hu' B B' n Hl Hl' NE. destruct (config p Hp) as (c1 & c2 & c3 & c4 & c5 & c6 & c7 & c8).
  assert (Hm : (0 < MM p < NN p)%nat) by lia.
  destruct (run_sane p Hm h (mt_start p)) as (st0 & E0 & H0); [exact Hh|apply start_sane, Hm|].
  destruct (run_sane p Hm h' (mt_start p)) as (st0' & E0' & H0'); [exact Hh'|apply start_sane, Hm|].
  set (k := word_of (firstn n bytes)). set (k' := word_of (firstn n bytes')).
  pose proof (keyed_recur p c1 c2 c3 c4 c5 c6 c7 c8 k) as R. pose proof (keyed_recur p c1 c2 c3 c4 c5 c6 c7 c8 k') as R'.
  pose proof (keyed_words p c1 c2 c3 c4 c5 c6 c7 c8 k) as Wd. pose proof (keyed_words p c1 c2 c3 c4 c5 c6 c7 c8 k') as Wd'.
  destruct (array_follows p c1 c2 c3 c4 c5 c6 c7 c8 k st0 H0) as [E1 F]. destruct (array_follows p c1 c2 c3 c4 c5 c6 c7 c8 k' st0' H0') as [E1' F'].
  destruct (draw_more p c1 c2 c3 c4 c5 c6 c7 c8 _ _ (624 * 10) _ R F) as (l & st2 & E2 & F2).
  destruct (draw_more p c1 c2 c3 c4 c5 c6 c7 c8 _ _ (624 * 10) _ R' F') as (l' & st2' & E2' & F2').
  destruct (draw_more p c1 c2 c3 c4 c5 c6 c7 c8 _ _ (NN p) _ R F2) as (m & st3 & E3 & _).
  destruct (draw_more p c1 c2 c3 c4 c5 c6 c7 c8 _ _ (NN p) _ R' F2') as (m' & st3' & E3' & _).
  exists st0, st0', st2, st2', m, m', st3, st3'. split; [auto|]. split; [auto|]. unfold rand_reseed. rewrite Hr, Hr', Hu, Hu'. fold n.
  rewrite !seed_bytes_full by auto. fold k k'. rewrite E1, E1'. cbn [bind]. rewrite E2, E2'. cbn [bind]. split; [auto|]. split; [auto|]. split; [auto|]. split; [auto|].
  intros Em. destruct (outputs_inj p c1 c2 c3 c4 c5 c6 c7 c8 _ _ _ _ _ _ R Wd R' Wd' F2 F2' m st3 st3' E3 E3' Em) as [_ V].
  apply NE. apply word_of_inj.
  - rewrite <- (firstn_skipn n bytes) in B. apply Forall_app in B. tauto.
  - rewrite <- (firstn_skipn n bytes') in B'. apply Forall_app in B'. tauto.
  - rewrite !firstn_length_le by auto. reflexivity.
  - pose proof (keyed_inj p c1 c2 c3 c4 c5 c6 c7 c8 k k' V) as Ek.
    assert (Rng : forall b, Forall is_byte b -> (n <= length b)%nat -> 0 <= word_of (firstn n b) < 2 ^ wbits p).
    { intros b Hb Lb. assert (Fb : Forall is_byte (firstn n b)) by (rewrite <- (firstn_skipn n b) in Hb; apply Forall_app in Hb; tauto).
      pose proof (word_of_range _ Fb) as Rb. rewrite firstn_length_le in Rb by auto. replace (2 ^ wbits p) with (256 ^ Z.of_nat n); [exact Rb|]. unfold n. destruct Hp as [-> | ->]; reflexivity. }
    rewrite !Z.mod_small in Ek by (apply Rng; auto). exact Ek.
Qed.
Print Assumptions C88_urandom_differ.

(* Different seeds (unsigned long) give different numbers. *)
Theorem C88_seeds_differ : forall p h h' s s', p = mt64 \/ p = mt32 -> history_ok h -> history_ok h' ->
  s mod 2 ^ wbits p <> s' mod 2 ^ wbits p ->
  exists st0 st0' st1 st1' l l' st2 st2', rand_run p h (mt_start p) = Ok st0 /\ rand_run p h' (mt_start p) = Ok st0' /\
    init_genrand p s st0 = Ok st1 /\ init_genrand p s' st0' = Ok st1' /\
    draws p (NN p) st1 = Ok (l, st2) /\ draws p (NN p) st1' = Ok (l', st2') /\ l <> l'.
Proof.
  intros p h h' s s' Hp Hh Hh' NE. destruct (config p Hp) as (c1 & c2 & c3 & c4 & c5 & c6 & c7 & c8).
  assert (Hm : (0 < MM p < NN p)%nat) by lia.
  destruct (run_sane p Hm h (mt_start p)) as (st0 & E0 & H0); [exact Hh|apply start_sane, Hm|].
  destruct (run_sane p Hm h' (mt_start p)) as (st0' & E0' & H0'); [exact Hh'|apply start_sane, Hm|].
  destruct (seeded_ok p c1 c2 c3 c4 c5 c6 c7 c8 s st0 H0) as (R & Wd & S0 & Si & st1 & E1 & F).
  destruct (seeded_ok p c1 c2 c3 c4 c5 c6 c7 c8 s' st0' H0') as (R' & Wd' & S0' & Si' & st1' & E1' & F').
  destruct (draw_more p c1 c2 c3 c4 c5 c6 c7 c8 _ _ (NN p) _ R F) as (m & st3 & E3 & _).
  destruct (draw_more p c1 c2 c3 c4 c5 c6 c7 c8 _ _ (NN p) _ R' F') as (m' & st3' & E3' & _).
  exists st0, st0', st1, st1', m, m', st3, st3'. repeat (split; [auto|]). intros Em.
  destruct (outputs_inj p c1 c2 c3 c4 c5 c6 c7 c8 _ _ _ _ _ _ R Wd R' Wd' F F' m st3 st3' E3 E3' Em) as [_ V].
  apply NE. rewrite <- S0, <- S0'. specialize (V 1%nat (Nat.le_refl 1)). rewrite Si, Si' in V by lia. cbn [Nat.sub] in V. unfold seed_word in V.
  set (x := seeded p s 0) in *. set (y := seeded p s' 0) in *. assert (Hx : 0 <= x < 2 ^ wbits p) by apply Wd. assert (Hy : 0 <= y < 2 ^ wbits p) by apply Wd'.
  apply add_cancel in V; [|lia]. 
  assert (Sh : 0 < init_shift p) by (clear - Hp; destruct Hp as [-> | ->]; reflexivity).
  assert (MI : forall a b, (init_mul p * a) mod 2 ^ wbits p = (init_mul p * b) mod 2 ^ wbits p -> a mod 2 ^ wbits p = b mod 2 ^ wbits p).
  { clear - Hp. intros a b. destruct Hp as [-> | ->]; [apply (mul_inj (init_mul mt64) 13877824140714322085)|apply (mul_inj (init_mul mt32) 2520285293)]; try reflexivity; discriminate. }
  apply (inj_right1 (init_shift p)); [exact Sh|apply Hx|apply Hy|].
  assert (P2 : forall z, 0 <= z < 2 ^ wbits p -> 0 <= Z.lxor z (Z.shiftr z (init_shift p)) < 2 ^ wbits p).
  { intros z Hz. apply lxor_word; [clear - c3; lia|exact Hz|]. apply shiftr_word; [clear - Sh; lia|exact Hz]. }
  rewrite <- !Z.shiftr_div_pow2 by (clear - Sh; lia).
  rewrite <- (Z.mod_small _ _ (P2 x Hx)), <- (Z.mod_small _ _ (P2 y Hy)).
  apply MI. exact V.
Qed.
Print Assumptions C88_seeds_differ.

(* However the generator was seeded, it never gets stuck: among any 312 (624)
   successive words, at any later time, there is one that is not 0. *)
Theorem C88_never_stuck : forall p h sys junk st0 st1 l st2 t,
  p = mt64 \/ p = mt32 -> history_ok h -> rand_run p h (mt_start p) = Ok st0 ->
  (exists s, init_genrand p s st0 = Ok st1) \/ rand_reseed p sys junk st0 = Ok st1 ->
  draws p t st1 = Ok (l, st2) ->
  exists l' st3, draws p (NN p) st2 = Ok (l', st3) /\ l' <> repeat 0 (NN p).
Proof.
  intros p h sys junk st0 st1 l st2 t Hp Hh E0 E1 Et. destruct (config p Hp) as (c1 & c2 & c3 & c4 & c5 & c6 & c7 & c8).
  assert (Hm : (0 < MM p < NN p)%nat) by lia.
  destruct (run_sane p Hm h (mt_start p)) as (st0' & E0' & H0); [exact Hh|apply start_sane, Hm|]. rewrite E0 in E0'. injection E0' as <-.
  assert (K : exists x t, recur p x /\ words p x /\ follows p x t st1 /\ (2 ^ 31 <= x 0%nat \/ exists i, (1 <= i)%nat /\ x i <> 0)).
  { destruct E1 as [(s & E1)|E1]; [|eapply reseed_cases; eauto].
    destruct (seeded_ok p c1 c2 c3 c4 c5 c6 c7 c8 s st0 H0) as (R & Wd & S0 & Si & st1' & E1' & F). rewrite E1 in E1'. injection E1' as <-.
    exists (seeded p s), 0%nat. repeat (split; [auto|]). right. destruct (Z.eq_dec (seeded p s 1) 0) as [Z1|]; [|exists 1%nat; split; auto]. exists 2%nat. split; [lia|].
    rewrite Si by lia. cbn [Nat.sub]. rewrite Z1. unfold seed_word. rewrite Z.shiftr_0_l, Z.lxor_nilpotent, Z.mul_0_r.
    assert (2 ^ 2 <= 2 ^ wbits p) by (apply Z.pow_le_mono_r; lia). rewrite Z.mod_small; lia. }
  destruct K as (x & u & R & Wd & F & N). destruct (draw_more p c1 c2 c3 c4 c5 c6 c7 c8 x u t st1 R F) as (l1 & st2' & E2 & F2). rewrite Et in E2. injection E2 as <- <-.
  eapply not_zero; eauto.
Qed.
Print Assumptions C88_never_stuck.

(* Without RANDSEED and /dev/urandom the seed is the clock, in seconds: two
   programs that start in the same second draw the same numbers. *)
Theorem C88_clock_refuted : forall p h h' sys sys' junk junk',
  p = mt64 \/ p = mt32 -> history_ok h -> history_ok h' -> randseed sys = None -> randseed sys' = None -> urandom sys = None -> urandom sys' = None -> now sys = now sys' ->
  forall n, exists st0 st0' st1 st1' l st2 st2', rand_run p h (mt_start p) = Ok st0 /\ rand_run p h' (mt_start p) = Ok st0' /\
    rand_reseed p sys junk st0 = Ok st1 /\ rand_reseed p sys' junk' st0' = Ok st1' /\
    draws p n st1 = Ok (l, st2) /\ draws p n st1' = Ok (l, st2').
Proof.
  intros p h h' sys sys' junk junk' Hp Hh Hh' Hr Hr' Hu Hu' Hn n. destruct (config p Hp) as (c1 & c2 & c3 & c4 & c5 & c6 & c7 & c8).
  assert (Hm : (0 < MM p < NN p)%nat) by lia.
  destruct (run_sane p Hm h (mt_start p)) as (st0 & E0 & H0); [exact Hh|apply start_sane, Hm|].
  destruct (run_sane p Hm h' (mt_start p)) as (st0' & E0' & H0'); [exact Hh'|apply start_sane, Hm|].
  destruct (seeded_ok p c1 c2 c3 c4 c5 c6 c7 c8 (to_int (now sys)) st0 H0) as (R & _ & _ & _ & st1 & E1 & F).
  destruct (seeded_ok p c1 c2 c3 c4 c5 c6 c7 c8 (to_int (now sys)) st0' H0') as (_ & _ & _ & _ & st1' & E1' & F').
  destruct (draw_more p c1 c2 c3 c4 c5 c6 c7 c8 _ _ (624 * 10) _ R F) as (l & st2 & E2 & F2).
  destruct (draw_more p c1 c2 c3 c4 c5 c6 c7 c8 _ _ (624 * 10) _ R F') as (l' & st2' & E2' & F2').
  destruct (draws_ok p Hm _ n _ _ R F2) as (st3 & E3 & _). destruct (draws_ok p Hm _ n _ _ R F2') as (st3' & E3' & _).
  eexists st0, st0', st2, st2', _, st3, st3'. split; [auto|]. split; [auto|]. unfold rand_reseed. rewrite Hr, Hr', Hu, Hu', <- Hn, E1, E1'. cbn [bind]. rewrite E2, E2'. cbn [bind].
  split; [auto|]. split; [auto|]. split; [exact E3|exact E3'].
Qed.
Print Assumptions C88_clock_refuted.

(* rand<int>(), rand<unsigned int>() and rand<unsigned long>() cover the whole
   range of the type, as documented (64 bits) ... *)
Theorem C88_integers : forall v,
  (- 2 ^ 31 <= v < 2 ^ 31 <-> exists x, 0 <= x < 2 ^ 64 /\ rand_int64_any x = v) /\
  (0 <= v < 2 ^ 32 <-> exists x, 0 <= x < 2 ^ 64 /\ rand_uint64_any x = v) /\
  (0 <= v < 2 ^ 64 <-> exists x, 0 <= x < 2 ^ 64 /\ rand_ulong64_any x = v) /\
  (0 <= v < 2 ^ 32 <-> exists x, 0 <= x < 2 ^ 32 /\ rand_uint32_any x = v).
Proof.
  intros v. unfold rand_int64_any, rand_uint64_any, rand_ulong64_any, rand_uint32_any, to_int, to_uint. split; [|split; [|split]].
  - split.
    + intros H. exists (2 * (v mod 2 ^ 32)). pose proof (Z.mod_pos_bound v (2 ^ 32)). split; [lia|]. rewrite Z.shiftr_div_pow2 by lia. change (2 ^ 1) with 2.
      rewrite Z.mul_comm, Z.div_mul, Z.mod_mod by lia. destruct (Z.ltb_spec (v mod 2 ^ 32) (2 ^ 31)); lia.
    + intros (x & Hx & <-). cbv zeta. pose proof (Z.mod_pos_bound (Z.shiftr x 1) (2 ^ 32)). destruct (Z.ltb_spec (Z.shiftr x 1 mod 2 ^ 32) (2 ^ 31)); lia.
  - split; [intros H; exists v; split; [lia|apply Z.mod_small; lia]|]. intros (x & Hx & <-). apply Z.mod_pos_bound. lia.
  - split; [intros H; exists v; auto|]. intros (x & Hx & <-). auto.
  - split; [intros H; exists v; auto|]. intros (x & Hx & <-). auto.
Qed.
Print Assumptions C88_integers.
(* ... but rand<long>() is never negative, nor is rand<int>() with 32 bits. *)
Theorem C88_long_refuted : (forall x, 0 <= x < 2 ^ 64 -> 0 <= rand_long64_any x < 2 ^ 63) /\ (forall x, 0 <= x < 2 ^ 32 -> 0 <= rand_int32_any x < 2 ^ 31).
Proof.
  split; intros x Hx.
  - unfold rand_long64_any, to_long. cbv zeta. rewrite Z.shiftr_div_pow2 by lia. change (2 ^ 1) with 2. rewrite Z.mod_small by lia. destruct (Z.ltb_spec (x / 2) (2 ^ 63)); lia.
  - unfold rand_int32_any, to_int. cbv zeta. rewrite Z.shiftr_div_pow2 by lia. change (2 ^ 1) with 2. rewrite Z.mod_small by lia. destruct (Z.ltb_spec (x / 2) (2 ^ 31)); lia.
Qed.
Print Assumptions C88_long_refuted.

(* Non-vacuity: RANDSEED=" -17x" is the number -17; two texts of bytes; the seeds 1 and 2. *)
Example C88_nonvacuous :
  is_text [32; 45; 49; 55; 120] Minus [1; 7] /\ number Minus [1; 7] = -17 /\ atoi [32; 45; 49; 55; 120] = Ok (-17) /\
  is_text [51; 48; 48; 48; 48; 48; 48; 48; 48; 48] NoSign [3; 0; 0; 0; 0; 0; 0; 0; 0; 0] /\ 2 ^ 31 <= number NoSign [3; 0; 0; 0; 0; 0; 0; 0; 0; 0] /\
  Forall is_byte [1; 2; 3; 4; 5; 6; 7; 8; 9] /\ firstn 8 [1; 2; 3; 4; 5; 6; 7; 8; 9] <> firstn 8 [1; 2; 3; 4; 5; 6; 7; 7] /\
  word_of (seed_bytes 4 [9; 9; 9; 9] [1; 2]) = 1 + 256 * 2 + 65536 * 9 + 16777216 * 9 /\ 1 mod 2 ^ wbits mt64 <> 2 mod 2 ^ wbits mt64.
Proof.
  repeat split; try discriminate; try reflexivity; try (cbn; lia).
  - repeat constructor; lia.
  - exists [32], [120]. split; [repeat constructor|split; [reflexivity|lia]].
  - repeat constructor; lia.
  - exists [], []. split; [constructor|split; [reflexivity|exact I]].
  - repeat constructor; unfold is_byte; lia.
Qed.

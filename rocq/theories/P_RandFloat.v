(* C49 and C50: floats, and ranges without numbers. *)
From Verif Require Import Base M_Rand S_Rand.
From Coq Require Import Reals Lra.
From Flocq Require Import Core.
Local Open Scope Z_scope.

Lemma nearest_div x p : 0 < p -> 0 <= x ->
  ZnearestE (IZR x / IZR p) = (if 2 * (x mod p) <? p then x / p else if p <? 2 * (x mod p) then x / p + 1 else if Z.even (x / p) then x / p else x / p + 1).
Proof.
  intros Hp Hx. pose proof (Z.div_mod x p ltac:(lia)) as E. pose proof (Z.mod_pos_bound x p Hp) as B. set (q := x / p) in *. set (r := x mod p) in *.
  assert (P : (0 < IZR p)%R) by (apply IZR_lt; lia).
  assert (EF : Zfloor (IZR x / IZR p) = q).
  { apply Zfloor_imp. rewrite E, plus_IZR, mult_IZR, plus_IZR. assert (0 <= IZR r)%R by (apply IZR_le; lia). assert (IZR r < IZR p)%R by (apply IZR_lt; lia).
    replace ((IZR p * IZR q + IZR r) / IZR p)%R with (IZR q + IZR r / IZR p)%R by (field; lra).
    split; [assert (0 <= IZR r / IZR p)%R by (apply Rmult_le_pos; [auto|left; apply Rinv_0_lt_compat; auto]); lra|].
    assert (IZR r / IZR p < 1)%R by (apply Rmult_lt_reg_r with (IZR p); [auto|]; unfold Rdiv; rewrite Rmult_assoc, Rinv_l by lra; lra). lra. }
  assert (EX : (IZR x / IZR p = IZR q + IZR r / IZR p)%R) by (rewrite E, plus_IZR, mult_IZR; field; lra).
  assert (EC : r <> 0 -> Zceil (IZR x / IZR p) = q + 1).
  { intros Hr. rewrite Zceil_floor_neq; rewrite EF; [reflexivity|]. rewrite EX. intros C. assert (0 < IZR r / IZR p)%R; [|lra].
    apply Rmult_lt_0_compat; [apply IZR_lt; lia|apply Rinv_0_lt_compat; auto]. }
  unfold Znearest. rewrite EF. replace (IZR x / IZR p - IZR q)%R with (IZR r / IZR p)%R by lra.
  destruct (Z.ltb_spec (2 * r) p) as [L|L].
  - rewrite Rcompare_Lt; [reflexivity|]. apply Rmult_lt_reg_r with (IZR p); [auto|]. unfold Rdiv. rewrite Rmult_assoc, Rinv_l by lra. apply (IZR_lt (2 * r)) in L. rewrite mult_IZR in L. lra.
  - destruct (Z.ltb_spec p (2 * r)) as [G|G].
    + rewrite Rcompare_Gt; [apply EC; lia|]. apply Rmult_lt_reg_r with (IZR p); [auto|]. unfold Rdiv. rewrite (Rmult_assoc (IZR r)), Rinv_l by lra. apply IZR_lt in G. rewrite mult_IZR in G. lra.
    + assert (2 * r = p) as H2 by lia. rewrite Rcompare_Eq; [|rewrite <- H2, mult_IZR; field; apply IZR_neq; lia]. rewrite EC by lia. destruct (Z.even q); reflexivity.
Qed.

(* (float) of a double below 1: rounding to nearest, ties to even, in the format
   of floats *)
Lemma round_float_ok x : 0 <= x ->
  (IZR (round_float x) * bpow radix2 (-53) = round radix2 (FLT_exp (-149) 24) ZnearestE (IZR x * bpow radix2 (-53)))%R.
Proof.
  intros Hx. destruct (Z.eq_dec x 0) as [->|N0]; [change (round_float 0) with 0; rewrite !Rmult_0_l, round_0; auto with typeclass_instances|].
  assert (Hm : mag radix2 (IZR x * bpow radix2 (-53))%R = (Z.log2 x + 1 - 53) :> Z).
  { rewrite mag_mult_bpow by (apply IZR_neq; auto). enough (mag radix2 (IZR x) = (Z.log2 x + 1) :> Z) by lia. apply mag_unique_pos. pose proof (Z.log2_spec x ltac:(lia)) as [L1 L2].
    rewrite <- !IZR_Zpower by (pose proof (Z.log2_nonneg x); lia). change (Zaux.radix_val radix2) with 2. replace (Z.log2 x + 1 - 1) with (Z.log2 x) by lia. replace (Z.log2 x + 1) with (Z.succ (Z.log2 x)) by lia.
    split; [apply IZR_le; auto|apply IZR_lt; auto]. }
  pose proof (Z.log2_nonneg x) as L0. unfold round, scaled_mantissa, cexp. rewrite Hm. unfold FLT_exp.
  replace (Z.max (Z.log2 x + 1 - 53 - 24) (-149)) with (Z.log2 x - 23 - 53) by lia. set (e := Z.log2 x - 23).
  rewrite Rmult_assoc, <- bpow_plus. replace (-53 + - (e - 53)) with (- e) by lia. unfold F2R. cbn [Fnum Fexp]. unfold round_float. fold e.
  destruct (Z.leb_spec e 0) as [E|E].
  - rewrite <- (IZR_Zpower radix2 (- e)) by lia. rewrite <- mult_IZR. rewrite (@Zrnd_IZR ZnearestE (valid_rnd_N _)). rewrite mult_IZR, (IZR_Zpower radix2 (- e)) by lia. rewrite Rmult_assoc, <- bpow_plus. do 2 f_equal. lia.
  - rewrite bpow_opp. rewrite <- (IZR_Zpower radix2 e) by lia. change (Zaux.radix_val radix2) with 2. fold (IZR x / IZR (2 ^ e))%R. rewrite nearest_div by lia. cbv zeta.
    rewrite mult_IZR, Rmult_assoc. f_equal. change 2 with (Zaux.radix_val radix2). rewrite (IZR_Zpower radix2 e), <- bpow_plus by lia. f_equal.
Qed.

(* from units of 2^-53 to units of 2^-53 *)
Definition nearest_float (y r : Z) : Prop :=
  (IZR r * bpow radix2 (-53) = round radix2 (FLT_exp (-149) 24) ZnearestE (IZR y * bpow radix2 (-53)))%R.
Lemma float_units y : 0 <= y < 2 ^ 53 ->
  nearest_float y (round_float y) /\ 0 <= round_float y <= 2 ^ 53 /\ (round_float y = 2 ^ 53 <-> 2 ^ 53 - 2 ^ 28 <= y).
Proof.
  intros H. split; [apply round_float_ok; lia|]. unfold round_float. cbv zeta.
  destruct (Z.leb_spec (Z.log2 y - 23) 0) as [E|E].
  - assert (y < 2 ^ 24). { destruct (Z.eq_dec y 0) as [->|]; [lia|]. pose proof (Z.log2_spec y ltac:(lia)) as [_ L]. assert (2 ^ Z.succ (Z.log2 y) <= 2 ^ 24) by (apply Z.pow_le_mono_r; lia). lia. }
    lia.
  - assert (y <> 0) by (intros ->; cbn in E; lia). pose proof (Z.log2_spec y ltac:(lia)) as [L1 L2]. set (e := Z.log2 y - 23) in *.
    assert (e <= 29). { destruct (Z.le_gt_cases e 29) as [|G]; [auto|]. assert (2 ^ 53 <= 2 ^ Z.log2 y) by (apply Z.pow_le_mono_r; lia). lia. }
    pose proof (Z.div_mod y (2 ^ e) ltac:(lia)) as D. pose proof (Z.mod_pos_bound y (2 ^ e) ltac:(apply Z.pow_pos_nonneg; lia)) as B. set (q := y / 2 ^ e) in *. set (r := y mod 2 ^ e) in *.
    replace (Z.succ (Z.log2 y)) with (24 + e) in L2 by lia. rewrite Z.pow_add_r in L2 by lia.
    assert (0 <= q) by (apply Z.div_pos; lia).
    assert (q < 2 ^ 24) by nia.
    assert (P53 : 2 ^ 24 * 2 ^ e = 2 ^ (24 + e)) by (rewrite Z.pow_add_r by lia; reflexivity).
    assert (PE : e < 29 -> 2 ^ (24 + e) <= 2 ^ 52) by (intros; apply Z.pow_le_mono_r; lia).
    assert (Hcases : e = 29 \/ e < 29) by lia. destruct Hcases as [He|He].
    + clearbody e. subst e. change (2 ^ 29) with 536870912 in *. change (2 ^ 24) with 16777216 in *. change (2 ^ 53) with 9007199254740992 in *. change (2 ^ 28) with 268435456 in *.
      destruct (Z.ltb_spec (2 * r) 536870912); [lia|]. destruct (Z.ltb_spec 536870912 (2 * r)); [lia|]. destruct (Z.even q) eqn:Ev; [|lia].
      assert (q <> 16777215) by (intros ->; discriminate). lia.
    + specialize (PE He). change (2 ^ 52) with 4503599627370496 in *. change (2 ^ 53) with 9007199254740992 in *. change (2 ^ 28) with 268435456 in *.
      assert ((q + 1) * 2 ^ e <= 4503599627370496) by nia. assert (0 <= q * 2 ^ e) by nia. assert (q * 2 ^ e <= 4503599627370496) by nia.
      destruct (2 * r <? 2 ^ e); [nia|]. destruct (2 ^ e <? 2 * r); [nia|]. destruct (Z.even q); nia.
Qed.

(* rand<float>() is the float nearest to the double that genrand_res53 makes of
   the same output (of the same two outputs, with 32 bits).  It lies in [0, 1],
   and it is 1 for one output in 2^25. *)
Theorem C49_float_partial : forall x, 0 <= x < 2 ^ 64 ->
  nearest_float (res53_64 x) (rand_float x) /\
  0 <= rand_float x <= 2 ^ 53 /\ (rand_float x = 2 ^ 53 <-> 2 ^ 64 - 2 ^ 39 <= x).
Proof.
  intros x Hx. unfold rand_float, res53_64. rewrite Z.shiftr_div_pow2 by lia. assert (H : 0 <= x / 2 ^ 11 < 2 ^ 53) by (split; [apply Z.div_pos; lia|apply Z.div_lt_upper_bound; lia]).
  assert (K : 2 ^ 64 - 2 ^ 39 <= x <-> 2 ^ 53 - 2 ^ 28 <= x / 2 ^ 11).
  { split; intros K; [apply Z.div_le_lower_bound; lia|]. pose proof (Z.mul_div_le x (2 ^ 11) ltac:(lia)). lia. }
  rewrite K. apply float_units, H.
Qed.
Theorem C49_float_32bits_partial : forall x y, 0 <= x < 2 ^ 32 -> 0 <= y < 2 ^ 32 ->
  nearest_float (res53_32 x y) (round_float (res53_32 x y)) /\ 0 <= round_float (res53_32 x y) <= 2 ^ 53 /\
  (round_float (res53_32 x y) = 2 ^ 53 <-> 2 ^ 32 - 2 ^ 7 <= x).
Proof.
  intros x y Hx Hy. unfold res53_32. rewrite !Z.shiftr_div_pow2 by lia.
  assert (A : 0 <= x / 2 ^ 5 < 2 ^ 27) by (split; [apply Z.div_pos; lia|apply Z.div_lt_upper_bound; lia]).
  assert (B : 0 <= y / 2 ^ 6 < 2 ^ 26) by (split; [apply Z.div_pos; lia|apply Z.div_lt_upper_bound; lia]).
  assert (K : 2 ^ 32 - 2 ^ 7 <= x <-> 2 ^ 53 - 2 ^ 28 <= x / 2 ^ 5 * 67108864 + y / 2 ^ 6).
  { pose proof (Z.mul_div_le x (2 ^ 5) ltac:(lia)). pose proof (Z.mul_succ_div_gt x (2 ^ 5) ltac:(lia)). lia. }
  rewrite K. apply float_units. lia.
Qed.
Print Assumptions C49_float_partial.
Print Assumptions C49_float_32bits_partial.

(* A range without numbers: lower, whatever is drawn. *)
Theorem C50_empty_range : forall x l, 0 <= x < 2 ^ 64 ->
  (0 <= l < 2 ^ 64 -> rand_ulong x l l = l) /\ (- 2 ^ 31 <= l < 2 ^ 31 -> rand_int x l l = Ok l) /\ (- 2 ^ 63 <= l < 2 ^ 63 -> rand_long x l l = Ok l).
Proof.
  intros x l Hx. split; [|split]; intros Hl.
  - unfold rand_ulong, rand_ulong_upper. rewrite Z.sub_diag. cbn [Z.eqb]. change (0 mod 2 ^ 64 =? 0) with true. cbv iota. rewrite Z.add_0_l, Z.mod_small by lia. reflexivity.
  - unfold rand_int, rand_int_upper, int_range. rewrite Z.sub_diag. change ((- 2 ^ 31 <=? 0) && (0 <? 2 ^ 31)) with true. cbn [bind]. change (0 =? 0) with true. cbv iota. rewrite Z.add_0_l. replace ((- 2 ^ 31 <=? l) && (l <? 2 ^ 31)) with true by lia. reflexivity.
  - unfold rand_long, rand_long_upper, long_range. rewrite Z.sub_diag. change ((- 2 ^ 63 <=? 0) && (0 <? 2 ^ 63)) with true. cbn [bind]. change (0 =? 0) with true. cbv iota. cbn [bind]. rewrite Z.add_0_l. replace ((- 2 ^ 63 <=? l) && (l <? 2 ^ 63)) with true by lia. reflexivity.
Qed.
Print Assumptions C50_empty_range.

(* Non-vacuity: a tie, rounded to even. *)
Example C49_float_case : rand_float ((2 ^ 52 + 2 ^ 28) * 2 ^ 11) = 2 ^ 52 /\ rand_float ((2 ^ 52 + 3 * 2 ^ 28) * 2 ^ 11) = 2 ^ 52 + 2 ^ 30.
Proof. split; vm_compute; reflexivity. Qed.

(* Lemmas for P_RandSeed: the Mersenne Twister can be run backwards. *)
From Verif Require Import Base M_Rand S_Rand L_Rand.
Local Open Scope Z_scope.

(* ---- the output function is one to one ---- *)
Lemma lxor_cancel a b c d : Z.lxor a b = Z.lxor c d -> Z.lxor a c = Z.lxor b d.
Proof.
  intros H. apply Z.bits_inj'. intros i Hi. apply (f_equal (fun z => Z.testbit z i)) in H. rewrite !Z.lxor_spec in *.
  destruct (Z.testbit a i), (Z.testbit b i), (Z.testbit c i), (Z.testbit d i); cbn in *; congruence.
Qed.
Lemma land_lxor a b m : Z.lxor (Z.land a m) (Z.land b m) = Z.land (Z.lxor a b) m.
Proof.
  apply Z.bits_inj'. intros i Hi. rewrite ?Z.lxor_spec, ?Z.land_spec, ?Z.lxor_spec.
  destruct (Z.testbit a i), (Z.testbit b i), (Z.testbit m i); reflexivity.
Qed.
Lemma inj_right k m x y : 0 < k -> 0 <= x -> 0 <= y ->
  Z.lxor x (Z.land (x / 2 ^ k) m) = Z.lxor y (Z.land (y / 2 ^ k) m) -> x = y.
Proof.
  intros Hk Hx Hy H. apply lxor_cancel in H. rewrite land_lxor in H. rewrite <- !Z.shiftr_div_pow2, <- Z.shiftr_lxor in H by lia.
  apply Z.lxor_eq. set (d := Z.lxor x y) in *. assert (D0 : 0 <= d) by (apply Z.lxor_nonneg; lia).
  destruct (Z.eq_dec d 0) as [|D]; auto. exfalso.
  assert (B : Z.testbit d (Z.log2 d) = true) by (apply Z.bit_log2; lia). rewrite H in B at 1.
  rewrite Z.land_spec, Z.shiftr_spec in B by apply Z.log2_nonneg. rewrite (Z.bits_above_log2 d (Z.log2 d + k)) in B by lia. discriminate.
Qed.
Lemma inj_right1 k x y : 0 < k -> 0 <= x -> 0 <= y -> Z.lxor x (x / 2 ^ k) = Z.lxor y (y / 2 ^ k) -> x = y.
Proof.
  intros Hk Hx Hy H. apply (inj_right k (-1)); auto. rewrite !Z.land_m1_r. exact H.
Qed.
Lemma inj_left n k m x y : 0 < k -> 0 <= n -> 0 <= x -> 0 <= y ->
  Z.lxor x (Z.land (x * 2 ^ k mod 2 ^ n) m) = Z.lxor y (Z.land (y * 2 ^ k mod 2 ^ n) m) -> x = y.
Proof.
  intros Hk Hn Hx Hy H. apply lxor_cancel in H. rewrite land_lxor in H. apply Z.lxor_eq.
  assert (Sh : forall i, 0 <= i -> (forall j, 0 <= j < i -> Z.testbit (Z.lxor x y) j = false) -> Z.testbit (Z.lxor x y) i = false).
  { intros i Hi IH. rewrite H, Z.land_spec, Z.lxor_spec. destruct (Z.lt_ge_cases i n).
    - rewrite !Z.mod_pow2_bits_low by lia. rewrite !Z.mul_pow2_bits by lia. rewrite <- Z.lxor_spec.
      destruct (Z.lt_ge_cases i k); [rewrite Z.testbit_neg_r by lia; reflexivity|]. rewrite IH by lia. reflexivity.
    - rewrite !Z.mod_pow2_bits_high by lia. reflexivity. }
  apply Z.bits_inj'. intros i Hi. rewrite Z.bits_0. revert i Hi. apply (Zlt_0_ind (fun i => Z.testbit (Z.lxor x y) i = false)).
  intros i IH Hi. apply Sh; auto.
Qed.

Lemma lxor_word' n a b : 0 <= n -> 0 <= a < 2 ^ n -> 0 <= b -> b < 2 ^ n -> 0 <= Z.lxor a b < 2 ^ n.
Proof. intros. apply lxor_word; lia. Qed.
Lemma land_le n a b : 0 <= n -> 0 <= a < 2 ^ n -> 0 <= b -> 0 <= Z.land a b < 2 ^ n.
Proof. intros Hn Ha Hb. rewrite Z.land_comm. apply land_word; lia. Qed.

Lemma output64_inj x y : 0 <= x < 2 ^ 64 -> 0 <= y < 2 ^ 64 -> output64 x = output64 y -> x = y.
Proof.
  intros Hx Hy H. unfold output64 in H. cbv zeta in H.
  assert (W1 : forall z, 0 <= z < 2 ^ 64 -> 0 <= Z.lxor z (Z.land (z / 2 ^ 29) 6148914691236517205) < 2 ^ 64).
  { intros z Hz. apply lxor_word; [lia|lia|]. apply land_word; lia. }
  assert (W2 : forall z, 0 <= z < 2 ^ 64 -> 0 <= Z.lxor z (Z.land (z * 2 ^ 17 mod 2 ^ 64) 8202884508482404352) < 2 ^ 64).
  { intros z Hz. apply lxor_word; [lia|lia|]. apply land_le; lia. }
  assert (W3 : forall z, 0 <= z < 2 ^ 64 -> 0 <= Z.lxor z (Z.land (z * 2 ^ 37 mod 2 ^ 64) 18444473444759240704) < 2 ^ 64).
  { intros z Hz. apply lxor_word; [lia|lia|]. apply land_le; lia. }
  apply inj_right1 in H; [|lia|apply W3, W2, W1; auto|apply W3, W2, W1; auto].
  apply inj_left in H; [|lia|lia|apply W2, W1; auto|apply W2, W1; auto].
  apply inj_left in H; [|lia|lia|apply W1; auto|apply W1; auto].
  apply inj_right in H; lia.
Qed.
Lemma output32_inj x y : 0 <= x < 2 ^ 32 -> 0 <= y < 2 ^ 32 -> output32 x = output32 y -> x = y.
Proof.
  intros Hx Hy H. unfold output32 in H. cbv zeta in H.
  assert (W1 : forall z, 0 <= z < 2 ^ 32 -> 0 <= Z.lxor z (z / 2 ^ 11) < 2 ^ 32).
  { intros z Hz. apply lxor_word; [lia|lia|]. split; [apply Z.div_pos; lia|apply Z.div_lt_upper_bound; lia]. }
  assert (W2 : forall z, 0 <= z < 2 ^ 32 -> 0 <= Z.lxor z (Z.land (z * 2 ^ 7 mod 2 ^ 32) 2636928640) < 2 ^ 32).
  { intros z Hz. apply lxor_word; [lia|lia|]. apply land_le; lia. }
  assert (W3 : forall z, 0 <= z < 2 ^ 32 -> 0 <= Z.lxor z (Z.land (z * 2 ^ 15 mod 2 ^ 32) 4022730752) < 2 ^ 32).
  { intros z Hz. apply lxor_word; [lia|lia|]. apply land_le; lia. }
  apply inj_right1 in H; [|lia|apply W3, W2, W1; auto|apply W3, W2, W1; auto].
  apply inj_left in H; [|lia|lia|apply W2, W1; auto|apply W2, W1; auto].
  apply inj_left in H; [|lia|lia|apply W1; auto|apply W1; auto].
  apply inj_right1 in H; lia.
Qed.
Lemma output64_0 : output64 0 = 0. Proof. reflexivity. Qed.
Lemma output32_0 : output32 0 = 0. Proof. reflexivity. Qed.

(* ---- the recurrence is one to one, but for the low bits of the first word ---- *)
Section Back.
Context (n m : nat) (w A : Z) (Hm : (2 <= m < n)%nat) (Hw : 31 < w) (HA : 2 ^ (w - 1) <= A < 2 ^ w).

Definition half (y : Z) : Z := Z.lxor (y / 2) (if Z.odd y then A else 0).
Lemma half_inj y z : 0 <= y < 2 ^ w -> 0 <= z < 2 ^ w -> half y = half z -> y = z.
Proof using Hw HA.
  clear Hm. intros Hy Hz H. unfold half in H.
  assert (P : 2 ^ w = 2 * 2 ^ (w - 1)) by (rewrite <- Z.pow_succ_r by lia; f_equal; lia).
  assert (T : forall y, 0 <= y < 2 ^ w -> Z.testbit (Z.lxor (y / 2) (if Z.odd y then A else 0)) (w - 1) = Z.odd y).
  { intros v Hv. rewrite Z.lxor_spec. replace (Z.testbit (v / 2) (w - 1)) with false.
    - destruct (Z.odd v); [|rewrite Z.bits_0; reflexivity]. replace (w - 1) with (Z.log2 A); [rewrite Z.bit_log2; [reflexivity|]|].
      + pose proof (Z.pow_pos_nonneg 2 (w - 1)). lia.
      + apply Z.log2_unique; try lia. replace (Z.succ (w - 1)) with w by lia. lia.
    - symmetry. destruct (Z.eq_dec (v / 2) 0) as [->|]; [apply Z.bits_0|]. apply Z.bits_above_log2; [apply Z.div_pos; lia|].
      apply Z.log2_lt_pow2; [|apply Z.div_lt_upper_bound; lia]. pose proof (Z.div_pos v 2). lia. }
  assert (O : Z.odd y = Z.odd z) by (rewrite <- (T y Hy), <- (T z Hz), H; reflexivity).
  rewrite O in H. assert (D : y / 2 = z / 2).
  { apply lxor_cancel in H. rewrite Z.lxor_nilpotent in H. apply Z.lxor_eq in H. exact H. }
  pose proof (Z.div_mod y 2). pose proof (Z.div_mod z 2). rewrite !Zmod_odd in *. rewrite O in *. lia.
Qed.

Definition runs (x : nat -> Z) : Prop := forall k, x (k + n)%nat = Z.lxor (x (k + m)%nat) (half (x k / 2 ^ 31 * 2 ^ 31 + x (k + 1)%nat mod 2 ^ 31)).

Lemma glue_word a b : 0 <= a < 2 ^ w -> 0 <= a / 2 ^ 31 * 2 ^ 31 + b mod 2 ^ 31 < 2 ^ w.
Proof using Hw.
  clear Hm HA. intros Ha. pose proof (Z.mod_pos_bound b (2 ^ 31) ltac:(lia)). assert (0 <= a / 2 ^ 31 < 2 ^ (w - 31)).
  { split; [apply Z.div_pos; lia|]. apply Z.div_lt_upper_bound; [lia|]. rewrite <- Z.pow_add_r by lia. replace (31 + (w - 31)) with w by lia. lia. }
  assert (2 ^ w = 2 ^ (w - 31) * 2 ^ 31) by (rewrite <- Z.pow_add_r by lia; f_equal; lia). nia.
Qed.

Lemma one_back x y k : (forall i, 0 <= x i < 2 ^ w) -> (forall i, 0 <= y i < 2 ^ w) -> runs x -> runs y ->
  x (k + n)%nat = y (k + n)%nat -> x (k + m)%nat = y (k + m)%nat ->
  x k / 2 ^ 31 = y k / 2 ^ 31 /\ x (k + 1)%nat mod 2 ^ 31 = y (k + 1)%nat mod 2 ^ 31.
Proof using Hw HA.
  clear Hm. intros Wx Wy Rx Ry En Em. rewrite (Rx k), (Ry k), Em in En. apply lxor_cancel in En. rewrite Z.lxor_nilpotent in En. symmetry in En. apply Z.lxor_eq in En.
  apply half_inj in En; try (apply glue_word; auto). pose proof (Z.mod_pos_bound (x (k + 1)%nat) (2 ^ 31) ltac:(lia)). pose proof (Z.mod_pos_bound (y (k + 1)%nat) (2 ^ 31) ltac:(lia)). lia.
Qed.

(* two sequences that agree on n words agree on all words before them, but for
   the low bits of the first *)
Lemma back x y t : (forall i, 0 <= x i < 2 ^ w) -> (forall i, 0 <= y i < 2 ^ w) -> runs x -> runs y ->
  (forall i, (t <= i < t + n)%nat -> x i = y i) ->
  x 0%nat / 2 ^ 31 = y 0%nat / 2 ^ 31 /\ forall i, (1 <= i)%nat -> x i = y i.
Proof using Hm Hw HA.
  intros Wx Wy Rx Ry E.
  assert (F : forall i, (t <= i)%nat -> x i = y i).
  { intros i. induction i as [i IH] using lt_wf_ind. intros Hi. destruct (Nat.lt_ge_cases i (t + n)); [apply E; lia|].
    replace i with (i - n + n)%nat by lia. rewrite (Rx (i - n)%nat), (Ry (i - n)%nat). rewrite !IH by lia. reflexivity. }
  assert (B : forall j, (j <= t)%nat -> x (t - j)%nat / 2 ^ 31 = y (t - j)%nat / 2 ^ 31 /\ forall i, (t - j < i)%nat -> x i = y i).
  { induction j as [|j IH]; intros Hj.
    - rewrite Nat.sub_0_r. split; [rewrite F by lia; reflexivity|intros; apply F; lia].
    - destruct (IH ltac:(lia)) as [U Ae]. set (k := (t - S j)%nat). assert (Ek : (t - j = k + 1)%nat) by lia. rewrite Ek in *.
      destruct (one_back x y k Wx Wy Rx Ry) as [Uk Lk]; [apply Ae; lia|apply Ae; lia|]. split; [exact Uk|].
      intros i Hi. destruct (Nat.eq_dec i (k + 1)) as [->|]; [|apply Ae; lia].
      rewrite (Z.div_mod (x (k + 1)%nat) (2 ^ 31)), (Z.div_mod (y (k + 1)%nat) (2 ^ 31)), U, Lk by lia. reflexivity. }
  destruct (B t (Nat.le_refl t)) as [U Ae]. rewrite Nat.sub_diag in *. split; [exact U|]. intros i Hi. apply Ae. lia.
Qed.

Lemma zero_runs : runs (fun _ => 0).
Proof using. intros k. reflexivity. Qed.
End Back.

Lemma runs64 x : recurrence64 x <-> runs 312 156 13043109905998158313 x. Proof. reflexivity. Qed.
Lemma runs32 x : recurrence32 x <-> runs 624 397 2567483615 x. Proof. reflexivity. Qed.

(* multiplication by an odd number is one to one modulo a power of two *)
Lemma mul_inj c d n a b : 0 <= n -> (c * d) mod 2 ^ n = 1 mod 2 ^ n -> (c * a) mod 2 ^ n = (c * b) mod 2 ^ n -> a mod 2 ^ n = b mod 2 ^ n.
Proof.
  intros Hn Hc H. assert (P : 2 ^ n <> 0) by (pose proof (Z.pow_pos_nonneg 2 n); lia).
  assert (K : forall z, (d * ((c * z) mod 2 ^ n)) mod 2 ^ n = z mod 2 ^ n).
  { intros z. rewrite Z.mul_mod_idemp_r by auto. replace (d * (c * z)) with (c * d * z) by ring. rewrite <- Z.mul_mod_idemp_l by auto. rewrite Hc.
    rewrite Z.mul_mod_idemp_l by auto. f_equal. ring. }
  rewrite <- (K a), <- (K b), H. reflexivity.
Qed.

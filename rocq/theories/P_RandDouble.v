(* C49, C50: random doubles with all their roundings. *)
From Coq Require Import Reals Lra.
From Flocq Require Import Core BinarySingleNaN Relative Plus_error.
From Verif Require Import Base M_Rand M_Double S_Double L_Double M_RandDouble.
Local Open Scope R_scope.

Lemma inv53_ok : finite inv53 /\ value inv53 = bpow radix2 (-53).
Proof.
  unfold inv53. destruct (dofZ_ok 1) as [A1 A2]; [lia|]. destruct (dofZ_ok 9007199254740992) as [B1 B2]; [lia|].
  assert (E : value (dofZ 1) / value (dofZ 9007199254740992) = bpow radix2 (-53)) by (rewrite A2, B2; cbn; lra).
  destruct (ddiv_ok (dofZ 1) (dofZ 9007199254740992)) as [C1 C2]; auto.
  - rewrite B2. lra.
  - rewrite E. apply (fits_lt _ (-53)); [lia|]. rewrite Rabs_pos_eq by apply bpow_ge_0. apply Rle_refl.
  - split; [exact C1|]. rewrite C2, E. apply RN_id, rep_bpow. lia.
Qed.
Lemma times_inv53 d k : (0 <= k < 2 ^ 53)%Z -> finite d -> value d = IZR k ->
  finite (dmul d inv53) /\ value (dmul d inv53) = IZR k * bpow radix2 (-53).
Proof.
  intros Hk Hd Ed. destruct inv53_ok as [I1 I2]. destruct (dmul_ok d inv53) as [C1 C2]; auto.
  - rewrite Ed, I2. apply (fits_lt _ 0); [lia|]. rewrite Rabs_pos_eq by (apply Rmult_le_pos; [apply IZR_le; lia|apply bpow_ge_0]).
    apply Rle_trans with (bpow radix2 53 * bpow radix2 (-53)); [|rewrite <- bpow_plus; cbn; lra].
    apply Rmult_le_compat_r; [apply bpow_ge_0|]. change (bpow radix2 53) with (IZR (2 ^ 53)). apply IZR_le. lia.
  - split; [exact C1|]. rewrite C2, Ed, I2. apply RN_id, rep_int; lia.
Qed.

(* the doubles are exactly k 2^-53 *)
Theorem C49_doubles_exact : forall x, (0 <= x < 2 ^ 64)%Z ->
  finite (rand_double_64 x) /\ value (rand_double_64 x) = IZR (res53_64 x) * bpow radix2 (-53) /\ 0 <= value (rand_double_64 x) < 1.
Proof.
  intros x Hx. assert (Hk : (0 <= res53_64 x < 2 ^ 53)%Z).
  { unfold res53_64. rewrite Z.shiftr_div_pow2 by lia. split; [apply Z.div_pos; lia|apply Z.div_lt_upper_bound; lia]. }
  destruct (dofZ_ok (res53_64 x)) as [A1 A2]; [lia|]. destruct (times_inv53 _ _ Hk A1 A2) as [B1 B2]. unfold rand_double_64. fold (res53_64 x).
  split; [exact B1|]. split; [exact B2|]. rewrite B2. split.
  - apply Rmult_le_pos; [apply IZR_le; lia|apply bpow_ge_0].
  - apply Rlt_le_trans with (IZR (2 ^ 53) * bpow radix2 (-53)); [apply Rmult_lt_compat_r; [apply bpow_gt_0|apply IZR_lt; lia]|]. change (IZR (2 ^ 53)) with (bpow radix2 53). rewrite <- bpow_plus. apply Rle_refl.
Qed.
Print Assumptions C49_doubles_exact.
Theorem C49_doubles_exact_32bits : forall x y, (0 <= x < 2 ^ 32)%Z -> (0 <= y < 2 ^ 32)%Z ->
  finite (rand_double_32 x y) /\ value (rand_double_32 x y) = IZR (res53_32 x y) * bpow radix2 (-53).
Proof.
  intros x y Hx Hy. assert (Ha : (0 <= Z.shiftr x 5 < 2 ^ 27)%Z).
  { rewrite Z.shiftr_div_pow2 by lia. split; [apply Z.div_pos; lia|apply Z.div_lt_upper_bound; lia]. }
  assert (Hb : (0 <= Z.shiftr y 6 < 2 ^ 26)%Z).
  { rewrite Z.shiftr_div_pow2 by lia. split; [apply Z.div_pos; lia|apply Z.div_lt_upper_bound; lia]. }
  assert (Exact : forall z : Z, (0 <= z <= 2 ^ 53)%Z -> fits (IZR z) /\ RN (IZR z) = IZR z).
  { intros z Hz. split; [|apply RN_id; rewrite <- (Rmult_1_r (IZR z)); apply (rep_int z 0); lia].
    apply (fits_lt _ 53); [lia|]. rewrite <- abs_IZR. change (bpow radix2 53) with (IZR (2 ^ 53)). apply IZR_le. lia. }
  unfold rand_double_32, res53_32. set (a := Z.shiftr x 5) in *. set (b := Z.shiftr y 6) in *.
  destruct (dofZ_ok a) as [A1 A2]; [lia|]. destruct (dofZ_ok 67108864) as [M1 M2]; [lia|]. destruct (dofZ_ok b) as [B1 B2]; [lia|].
  destruct (Exact (a * 67108864)%Z) as [X1 X2]; [lia|]. destruct (dmul_ok (dofZ a) (dofZ 67108864)) as [P1 P2]; auto. { rewrite A2, M2, <- mult_IZR. exact X1. }
  rewrite A2, M2, <- mult_IZR, X2 in P2.
  destruct (Exact (a * 67108864 + b)%Z) as [Y1 Y2]; [lia|]. destruct (dadd_ok (dmul (dofZ a) (dofZ 67108864)) (dofZ b)) as [S1 S2]; auto. { rewrite P2, B2, <- plus_IZR. exact Y1. }
  rewrite P2, B2, <- plus_IZR, Y2 in S2. apply times_inv53; auto. lia.
Qed.
Print Assumptions C49_doubles_exact_32bits.

(* ---- C50 ---- *)
Notation pred_ := (pred radix2 fx).
(* the largest r rand<double>() gives, 1 - 2^-53, times x rounds below x *)
Lemma below x : rep x -> bpow radix2 (-1022) < x -> RN (x * (1 - bpow radix2 (-53))) <= pred_ x.
Proof.
  intros Hx Hb. assert (Hx0 : 0 < x) by (pose proof (bpow_gt_0 radix2 (-1022)); lra).
  apply round_N_le_midp; [typeclasses eauto|apply generic_format_pred; [typeclasses eauto|exact Hx]|]. rewrite succ_pred by (try exact Hx; typeclasses eauto).
  pose proof (pred_plus_ulp radix2 fx x Hx0 Hx) as Hu.
  assert (Hp : bpow radix2 (-1022) <= pred_ x) by (apply pred_ge_gt; auto; [typeclasses eauto|apply rep_bpow; lia]).
  assert (Hl : ulp radix2 fx (pred_ x) <= Rabs (pred_ x) * bpow radix2 (1 - 53)).
  { rewrite fx_FLT. apply ulp_FLT_le. rewrite <- fx_FLT. rewrite Rabs_pos_eq; [exact Hp|]. pose proof (bpow_gt_0 radix2 (-1022)); lra. }
  rewrite Rabs_pos_eq in Hl by (pose proof (bpow_gt_0 radix2 (-1022)); lra).
  assert (Hlt : pred_ x < x) by (apply pred_lt_id; lra).
  replace (bpow radix2 (1 - 53)) with (2 * bpow radix2 (-53)) in Hl by (cbn; lra). pose proof (bpow_gt_0 radix2 (-53)) as U. nra.
Qed.
Lemma rand_range r : 0 <= r <= 1 - bpow radix2 (-53) -> forall x, rep x -> bpow radix2 (-1022) < x -> 0 <= RN (x * r) <= pred_ x.
Proof.
  intros Hr x Hx Hb. assert (Hx0 : 0 < x) by (pose proof (bpow_gt_0 radix2 (-1022)); lra). split; [rewrite <- RN_0; apply RN_le; nra|].
  eapply Rle_trans; [|apply below; auto]. apply RN_le. nra.
Qed.
(* the numbers rand<double>() returns *)
Definition drawn (r : double) : Prop := finite r /\ 0 <= value r <= 1 - bpow radix2 (-53).
Lemma drawn_64 x : (0 <= x < 2 ^ 64)%Z -> drawn (rand_double_64 x).
Proof.
  intros Hx. destruct (C49_doubles_exact x Hx) as (H1 & H2 & H3). split; [exact H1|]. split; [lra|]. rewrite H2.
  assert (Hk : (res53_64 x <= 2 ^ 53 - 1)%Z). { unfold res53_64. rewrite Z.shiftr_div_pow2 by lia. assert (x / 2 ^ 11 < 2 ^ 53)%Z by (apply Z.div_lt_upper_bound; lia). lia. }
  apply IZR_le in Hk. rewrite minus_IZR in Hk. change (IZR (2 ^ 53)) with (bpow radix2 53) in Hk.
  apply Rle_trans with ((bpow radix2 53 - 1) * bpow radix2 (-53)); [apply Rmult_le_compat_r; [apply bpow_ge_0|exact Hk]|].
  rewrite Rmult_minus_distr_r, <- bpow_plus. cbn. lra.
Qed.

Lemma res53_32_range x y : (0 <= x < 2 ^ 32)%Z -> (0 <= y < 2 ^ 32)%Z -> (0 <= res53_32 x y <= 2 ^ 53 - 1)%Z.
Proof.
  intros Hx Hy. unfold res53_32. rewrite !Z.shiftr_div_pow2 by lia.
  assert (0 <= x / 2 ^ 5 < 2 ^ 27)%Z by (split; [apply Z.div_pos; lia|apply Z.div_lt_upper_bound; lia]).
  assert (0 <= y / 2 ^ 6 < 2 ^ 26)%Z by (split; [apply Z.div_pos; lia|apply Z.div_lt_upper_bound; lia]). lia.
Qed.
Lemma drawn_32 x y : (0 <= x < 2 ^ 32)%Z -> (0 <= y < 2 ^ 32)%Z -> drawn (rand_double_32 x y).
Proof.
  intros Hx Hy. destruct (C49_doubles_exact_32bits x y Hx Hy) as (H1 & H2). destruct (res53_32_range x y Hx Hy) as [K0 Hk]. split; [exact H1|]. rewrite H2.
  apply IZR_le in Hk, K0. rewrite minus_IZR in Hk. change (IZR (2 ^ 53)) with (bpow radix2 53) in Hk. split; [apply Rmult_le_pos; [exact K0|apply bpow_ge_0]|].
  apply Rle_trans with ((bpow radix2 53 - 1) * bpow radix2 (-53)); [apply Rmult_le_compat_r; [apply bpow_ge_0|exact Hk]|].
  rewrite Rmult_minus_distr_r, <- bpow_plus. cbn. lra.
Qed.
(* the numbers rand<double>() returns, from any output of either generator *)
Inductive random_double : double -> Prop :=
| from_64 x : (0 <= x < 2 ^ 64)%Z -> random_double (rand_double_64 x)
| from_32 x y : (0 <= x < 2 ^ 32)%Z -> (0 <= y < 2 ^ 32)%Z -> random_double (rand_double_32 x y).
Lemma random_drawn r : random_double r -> drawn r.
Proof. intros [x Hx|x y Hx Hy]; [apply drawn_64|apply drawn_32]; auto. Qed.

(* rand(upper) is in [0, upper) for every normal upper except the least *)
Theorem C50_double_upper_partial : forall r upper, random_double r -> finite upper -> bpow radix2 (-1022) < value upper ->
  finite (rand_upper r upper) /\ 0 <= value (rand_upper r upper) < value upper.
Proof.
  intros r up Hx Fu Hu. destruct (random_drawn r Hx) as [F0 Hr]. pose proof (value_rep up) as Ru.
  destruct (rand_range (value r) Hr (value up) Ru Hu) as [B1 B2]. assert (Hlt : pred_ (value up) < value up) by (apply pred_lt_id; pose proof (bpow_gt_0 radix2 (-1022)); lra).
  assert (Hfit : fits (value up * value r)).
  { unfold fits. rewrite Rabs_pos_eq by exact B1. eapply Rle_lt_trans; [exact B2|]. eapply Rlt_trans; [exact Hlt|].
    pose proof (abs_B2R_lt_emax 53 1024 up) as G. eapply Rle_lt_trans; [apply Rle_abs|exact G]. }
  destruct (dmul_ok up r Fu F0 Hfit) as [M1 M2]. unfold rand_upper. split; [exact M1|]. rewrite M2. lra.
Qed.
Print Assumptions C50_double_upper_partial.
Lemma same_value (x y : double) : B2SF x = B2SF y -> value x = value y.
Proof. intros H. unfold value. rewrite <- !SF2R_B2SF, H. reflexivity. Qed.
(* for upper = 2^-1022 the largest draw gives upper *)
Theorem C50_double_upper_refuted : exists x upper, (0 <= x < 2 ^ 64)%Z /\ finite upper /\ dlt (dofZ 0) upper = true /\
  value (rand_upper (rand_double_64 x) upper) = value upper.
Proof. exists (2 ^ 64 - 1)%Z, (dmake 1 (-1022)). split; [lia|]. split; [reflexivity|]. split; [reflexivity|]. apply same_value. vm_compute. reflexivity. Qed.
Print Assumptions C50_double_upper_refuted.

(* rand(lower, upper) is in [lower, upper], for all numbers up to 2^1022 *)
Theorem C50_double_partial : forall r lower upper, random_double r -> finite lower -> finite upper ->
  value lower <= value upper -> Rabs (value lower) <= bpow radix2 1022 -> Rabs (value upper) <= bpow radix2 1022 ->
  finite (rand_between r lower upper) /\ value lower <= value (rand_between r lower upper) <= value upper.
Proof.
  intros r lo up Hx Fl Fu Hlu Bl Bu. destruct (random_drawn r Hx) as [F0 Hr].
  pose proof (value_rep up) as Ru. pose proof (value_rep lo) as Rl.
  assert (Hdiff : Rabs (value up - value lo) <= bpow radix2 1023).
  { apply Rabs_le_inv in Bl, Bu. apply Rabs_le. replace (bpow radix2 1023) with (2 * bpow radix2 1022) by (change 1023%Z with (1 + 1022)%Z; rewrite bpow_plus; reflexivity). lra. }
  destruct (dsub_ok up lo Fu Fl) as [D1 D2]; [apply (fits_lt _ 1023); [lia|exact Hdiff]|].
  set (z := value up - value lo) in *. assert (Hz : 0 <= z) by (unfold z; lra).
  assert (X : 0 <= RN (RN z * value r) <= z).
  { destruct (Rle_or_lt (RN z) (bpow radix2 (-1022))) as [Hs|Hs].
    - assert (Ez : RN z = z).
      { apply RN_id. rewrite fx_FLT. unfold z. unfold Rminus. rewrite fx_FLT in Ru, Rl. apply FLT_format_plus_small; [reflexivity|exact Ru|apply generic_format_opp, Rl|].
        change (value up + - value lo) with z. rewrite Rabs_pos_eq by exact Hz. destruct (Rle_or_lt z (bpow radix2 (53 + -1074))) as [|Hc]; auto. exfalso.
        assert (G : bpow radix2 (53 + -1074) <= RN z) by (apply RN_ge_rep; [apply rep_bpow; lia|lra]).
        assert (L : bpow radix2 (-1022) < bpow radix2 (53 + -1074)) by (apply bpow_lt; lia). lra. }
      rewrite Ez. pose proof (bpow_gt_0 radix2 (-53)). split; [rewrite <- RN_0; apply RN_le; nra|].
      rewrite <- Ez at 2. apply RN_le. nra.
    - destruct (rand_range (value r) Hr (RN z) (RN_rep z) Hs) as [B1 B2]. split; [exact B1|]. eapply Rle_trans; [exact B2|].
      apply pred_round_le_id; typeclasses eauto. }
  assert (Hz' : z <= bpow radix2 1023) by (apply Rabs_le_inv in Hdiff; lra).
  destruct (dmul_ok (dsub up lo) r D1 F0) as [M1 M2].
  { rewrite D2. unfold fits. rewrite Rabs_pos_eq by lra. apply Rle_lt_trans with (bpow radix2 1023); [lra|apply bpow_lt; lia]. }
  rewrite D2 in M2.
  assert (Lo : value lo <= RN (RN (RN z * value r) + value lo)) by (apply RN_ge_rep; auto; lra).
  assert (Up : RN (RN (RN z * value r) + value lo) <= value up) by (apply RN_le_rep; auto; assert (z = value up - value lo) by reflexivity; lra).
  destruct (dadd_ok (dmul (dsub up lo) r) lo M1 Fl) as [S1 S2].
  { rewrite M2. unfold fits. apply Rle_lt_trans with (bpow radix2 1022); [apply Rabs_le; apply Rabs_le_inv in Bl, Bu; lra|apply bpow_lt; lia]. }
  unfold rand_between, rand_upper. split; [exact S1|]. rewrite S2, M2. auto.
Qed.
Print Assumptions C50_double_partial.
(* and upper is returned, for instance by rand(1.0, 1.0 + 2^-52) *)
Theorem C50_double_refuted : exists x lower upper, (0 <= x < 2 ^ 64)%Z /\ finite lower /\ finite upper /\ dlt lower upper = true /\
  value (rand_between (rand_double_64 x) lower upper) = value upper.
Proof.
  exists (2 ^ 64 - 1)%Z, (dofZ 1), (dadd (dofZ 1) (dmake 1 (-52))). split; [lia|]. split; [reflexivity|]. split; [vm_compute; reflexivity|]. split; [vm_compute; reflexivity|].
  apply same_value. vm_compute. reflexivity.
Qed.
Print Assumptions C50_double_refuted.
(* even in an interval of ordinary size *)
Theorem C50_double_wide_refuted : exists x, (0 <= x < 2 ^ 64)%Z /\ value (rand_between (rand_double_64 x) (dofZ 1) (dofZ 2)) = 2.
Proof.
  exists (2 ^ 64 - 1)%Z. split; [lia|]. destruct (dofZ_ok 2) as [_ E]; [lia|]. rewrite <- E. apply same_value. vm_compute. reflexivity.
Qed.
Print Assumptions C50_double_wide_refuted.

Example C50_double_meets : random_double (rand_double_64 5000) /\ finite (dofZ 1) /\ bpow radix2 (-1022) < value (dofZ 1) /\
  finite (dofZ (-3)) /\ value (dofZ (-3)) <= value (dofZ 1) /\ Rabs (value (dofZ (-3))) <= bpow radix2 1022 /\ Rabs (value (dofZ 1)) <= bpow radix2 1022.
Proof.
  destruct (dofZ_ok 1) as [A1 A2]; [lia|]. destruct (dofZ_ok (-3)) as [B1 B2]; [lia|]. rewrite A2, B2.
  assert (L : IZR 4 <= bpow radix2 1022) by (change (IZR 4) with (bpow radix2 2); apply bpow_le; lia).
  split; [constructor; lia|]. repeat split; auto; try lra.
  - change 1 with (bpow radix2 0). apply bpow_lt. lia.
  - rewrite Rabs_left; lra.
  - rewrite Rabs_right; lra.
Qed.

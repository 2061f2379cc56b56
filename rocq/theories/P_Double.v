(* C81: linspace in double arithmetic. *)
From Coq Require Import Reals Lra.
From Flocq Require Import Core BinarySingleNaN.
From Verif Require Import Base Spec L_Lin M_Tensor M_Linspace L_Linspace M_Double S_Double L_Double.
Local Open Scope R_scope.

(* the i-th of n equally spaced numbers from a to b *)
Definition spaced (a b : R) (n i : nat) : R := a + (b - a) * (INR i / (INR n - 1)).

(* ---- one element ---- *)
Definition step (a b m : R) : R := RN (RN (b - a) / m).
Definition point (a b m i : R) : R := RN (RN (step a b m * i) + a).

Lemma abs_le_mult x y a b : Rabs x <= a -> Rabs y <= b -> Rabs (x * y) <= a * b.
Proof. intros H1 H2. rewrite Rabs_mult. apply Rmult_le_compat; auto using Rabs_pos. Qed.
Lemma three_roundings d1 d2 d3 : Rabs d1 <= uro -> Rabs d2 <= uro -> Rabs d3 <= uro ->
  Rabs ((1 + d1) * (1 + d2) * (1 + d3) - 1) <= 3.1 * uro.
Proof.
  intros H1 H2 H3. pose proof uro_small as U.
  assert (P12 := abs_le_mult _ _ _ _ H1 H2). assert (P13 := abs_le_mult _ _ _ _ H1 H3). assert (P23 := abs_le_mult _ _ _ _ H2 H3).
  assert (P123 := abs_le_mult _ _ _ _ P12 H3).
  assert (S2 : uro * uro <= / 1000000 * uro) by (apply Rmult_le_compat_r; lra).
  assert (S3 : uro * uro * uro <= / 1000000 * uro) by (apply Rmult_le_compat_r; nra).
  replace ((1 + d1) * (1 + d2) * (1 + d3) - 1) with (d1 + d2 + d3 + d1 * d2 + d1 * d3 + d2 * d3 + d1 * d2 * d3) by ring.
  apply Rabs_le_inv in H1, H2, H3, P12, P13, P23, P123. apply Rabs_le. lra.
Qed.

Lemma part_le i m : 1 <= m -> 0 <= i <= m -> 0 <= i / m <= 1.
Proof.
  intros Hm Hi. split; [apply Rmult_le_pos; [lra|]; apply Rlt_le, Rinv_0_lt_compat; lra|].
  apply (Rmult_le_reg_r m); [lra|]. unfold Rdiv. rewrite Rmult_assoc, Rinv_l by lra. lra.
Qed.
(* the product before the last addition *)
Lemma product_error a b m i : rep a -> rep b -> 1 <= m -> 0 <= i <= m ->
  Rabs (RN (step a b m * i) - (b - a) * (i / m)) <= Rabs (b - a) * (3.1 * uro) + tiny * m * (1 + uro) + tiny.
Proof.
  intros Ha Hb Hm Hi. pose proof uro_small as U. pose proof tiny_pos as T.
  destruct (RN_plus_error b (- a) Hb (rep_opp _ Ha)) as (d1 & H1 & E1). change (b + - a) with (b - a) in E1.
  destruct (RN_error (RN (b - a) / m)) as (d2 & e2 & H2 & H2' & E2). fold (step a b m) in E2.
  destruct (RN_error (step a b m * i)) as (d3 & e3 & H3 & H3' & E3).
  set (D := b - a) in *. set (f := i / m). set (x := RN (step a b m * i)) in *.
  assert (Hf : 0 <= f <= 1) by (apply part_le; auto).
  assert (Ex : x - D * f = D * f * ((1 + d1) * (1 + d2) * (1 + d3) - 1) + e2 * i * (1 + d3) + e3).
  { rewrite E3, E2, E1. unfold f. field. lra. }
  assert (B1 := three_roundings d1 d2 d3 H1 H2 H3).
  assert (B2 : Rabs (D * f) <= Rabs D) by (rewrite Rabs_mult, (Rabs_pos_eq f) by lra; pose proof (Rabs_pos D); nra).
  assert (B3 := abs_le_mult _ _ _ _ B2 B1).
  assert (B4 : Rabs (e2 * i * (1 + d3)) <= tiny * m * (1 + uro)).
  { apply abs_le_mult; [apply abs_le_mult; [auto|rewrite Rabs_pos_eq; lra]|]. apply Rabs_le_inv in H3. apply Rabs_le. lra. }
  rewrite Ex. eapply Rle_trans; [apply Rabs_triang|]. apply Rplus_le_compat; [|exact H3']. eapply Rle_trans; [apply Rabs_triang|]. apply Rplus_le_compat; auto.
Qed.
Lemma point_error a b m i : rep a -> rep b -> 1 <= m -> 0 <= i <= m ->
  Rabs (point a b m i - (a + (b - a) * (i / m))) <= uro * (4 * Rabs (b - a) + Rabs (a + (b - a) * (i / m))) + 2 * (m + 1) * tiny.
Proof.
  intros Ha Hb Hm Hi. pose proof uro_small as U. pose proof tiny_pos as T. assert (B5 := product_error a b m i Ha Hb Hm Hi).
  destruct (RN_plus_error (RN (step a b m * i)) a (RN_rep _) Ha) as (d4 & H4 & E4). fold (point a b m i) in E4.
  set (D := b - a) in *. set (f := i / m) in *. set (x := RN (step a b m * i)) in *.
  set (e := a + D * f). assert (Ey : point a b m i - e = (x - D * f) * (1 + d4) + e * d4) by (rewrite E4; unfold e; ring).
  rewrite Ey. eapply Rle_trans; [apply Rabs_triang|].
  assert (B6 : Rabs ((x - D * f) * (1 + d4)) <= (Rabs D * (3.1 * uro) + tiny * m * (1 + uro) + tiny) * (1 + uro)).
  { apply abs_le_mult; [exact B5|]. apply Rabs_le_inv in H4. apply Rabs_le. lra. }
  assert (B7 : Rabs (e * d4) <= Rabs e * uro) by (apply abs_le_mult; [apply Rle_refl|auto]).
  pose proof (Rabs_pos D) as PD. assert (Tm : 0 < tiny * m) by nra.
  assert (S1 : Rabs D * (3.1 * uro) * (1 + uro) <= Rabs D * (4 * uro)).
  { rewrite Rmult_assoc. apply Rmult_le_compat_l; auto. rewrite Rmult_comm. replace (4 * uro) with (4 * uro) by ring. nra. }
  assert (S2 : (tiny * m * (1 + uro) + tiny) * (1 + uro) <= 2 * (m + 1) * tiny).
  { apply Rle_trans with (tiny * (m + 1) * (1 + uro) * (1 + uro)); [nra|]. assert ((1 + uro) * (1 + uro) <= 2) by nra. assert (0 < tiny * (m + 1)) by nra. nra. }
  lra.
Qed.

Lemma point_zero a b m : rep a -> point a b m 0 = a.
Proof. intros Ha. unfold point. rewrite Rmult_0_r, RN_0, Rplus_0_l. apply RN_id, Ha. Qed.
Lemma point_up a b m i j : a <= b -> 0 < m -> i <= j -> point a b m i <= point a b m j.
Proof.
  intros Hab Hm Hij. assert (Hs : 0 <= step a b m).
  { rewrite <- RN_0. apply RN_le. apply Rmult_le_pos; [|apply Rlt_le, Rinv_0_lt_compat; auto]. rewrite <- RN_0. apply RN_le. lra. }
  apply RN_le. apply Rplus_le_compat_r. apply RN_le. apply Rmult_le_compat_l; auto.
Qed.
Lemma point_down a b m i j : b <= a -> 0 < m -> i <= j -> point a b m j <= point a b m i.
Proof.
  intros Hab Hm Hij. assert (Hs : step a b m <= 0).
  { rewrite <- RN_0. apply RN_le. assert (RN (b - a) <= 0) by (rewrite <- RN_0; apply RN_le; lra).
    assert (0 < / m) by (apply Rinv_0_lt_compat; auto). unfold Rdiv. nra. }
  apply RN_le. apply Rplus_le_compat_r. apply RN_le. nra.
Qed.

(* bounds below the overflow threshold, in units of 2^971, the distance of the
   largest doubles *)
Definition wide : R := bpow radix2 1024 - bpow radix2 975.
Definition top : R := bpow radix2 971.
Lemma b1024 : bpow radix2 1024 = 9007199254740992 * top.
Proof. unfold top. replace 1024%Z with (53 + 971)%Z by lia. rewrite bpow_plus. reflexivity. Qed.
Lemma wide_top : wide = 9007199254740976 * top.
Proof. unfold wide. rewrite b1024. unfold top. replace 975%Z with (4 + 971)%Z by lia. rewrite bpow_plus. change (bpow radix2 4) with 16. lra. Qed.
Lemma top_big : 8 < top.
Proof. unfold top. apply Rlt_le_trans with (bpow radix2 4); [change (bpow radix2 4) with 16; lra|apply bpow_le; lia]. Qed.
Lemma rep_wide : rep wide.
Proof. rewrite wide_top. apply (rep_int 9007199254740976 971); lia. Qed.
Lemma rep_over : rep (9007199254740984 * top).
Proof. apply (rep_int 9007199254740984 971); lia. Qed.
Lemma uro_top : uro * (9007199254740992 * top) = top.
Proof. rewrite <- b1024. unfold uro, top. rewrite <- bpow_plus. reflexivity. Qed.
Lemma wide_fits x : Rabs x <= wide -> fits x.
Proof.
  intros H. unfold fits. apply Rle_lt_trans with wide; [apply RN_abs_le; [exact rep_wide|exact H]|]. rewrite wide_top, b1024. pose proof top_big. lra.
Qed.
Lemma over_fits x : Rabs x <= 9007199254740984 * top -> fits x.
Proof.
  intros H. unfold fits. apply Rle_lt_trans with (9007199254740984 * top); [apply RN_abs_le; [exact rep_over|exact H]|]. rewrite b1024. pose proof top_big. lra.
Qed.

Lemma element a b n i : finite a -> finite b -> Rabs (value a) <= wide -> Rabs (value b) <= wide -> Rabs (value b - value a) <= wide ->
  (1 < n)%nat -> (Z.of_nat n <= 2 ^ 53)%Z -> (i < n)%nat ->
  finite (linval Dlin a b n i) /\ value (linval Dlin a b n i) = point (value a) (value b) (INR n - 1) (INR i).
Proof.
  intros Fa Fb Ba Bb BD Hn Hn' Hi. unfold linval, Dlin. cbn [ladd lmul ldiv lsub lpred lnat].
  pose proof top_big as Ht. pose proof uro_small as U. pose proof tiny_pos as T. pose proof uro_top as UT. pose proof wide_top as WT.
  destruct (dofZ_ok (Z.of_nat n)) as [N1 N2]; [lia|]. destruct (dofZ_ok 1) as [O1 O2]; [lia|]. destruct (dofZ_ok (Z.of_nat i)) as [I1 I2]; [lia|].
  assert (Em : value (dofZ (Z.of_nat n)) - value (dofZ 1) = INR n - 1) by (rewrite N2, O2, INR_IZR_INZ; reflexivity).
  assert (Rm : rep (INR n - 1)).
  { rewrite INR_IZR_INZ. replace (IZR (Z.of_nat n) - 1) with (IZR (Z.of_nat n - 1) * bpow radix2 0) by (rewrite minus_IZR; cbn; ring). apply rep_int; lia. }
  assert (Hm : 1 <= INR n - 1) by (assert (G : (2 <= n)%nat) by lia; apply le_INR in G; change (INR 2) with 2 in G; lra).
  assert (Hm' : INR n - 1 <= bpow radix2 53).
  { change (bpow radix2 53) with (IZR (2 ^ 53)). rewrite INR_IZR_INZ. apply IZR_le in Hn'. lra. }
  destruct (dsub_ok (dofZ (Z.of_nat n)) (dofZ 1)) as [M1 M2]; auto.
  { rewrite Em. apply (fits_lt _ 53); [lia|]. rewrite Rabs_pos_eq by lra. exact Hm'. }
  rewrite Em, RN_id in M2 by exact Rm.
  destruct (dsub_ok b a) as [D1 D2]; auto. { apply wide_fits, BD. }
  assert (Bd : Rabs (RN (value b - value a)) <= wide) by (apply RN_abs_le; [exact rep_wide|exact BD]).
  set (m := INR n - 1) in *. set (d := RN (value b - value a)) in *.
  assert (Bq : Rabs (d / m) <= wide).
  { unfold Rdiv. rewrite Rabs_mult, (Rabs_pos_eq (/ m)) by (apply Rlt_le, Rinv_0_lt_compat; lra).
    assert (/ m <= 1) by (rewrite <- Rinv_1; apply Rinv_le; lra). assert (0 < / m) by (apply Rinv_0_lt_compat; lra). pose proof (Rabs_pos d). nra. }
  destruct (ddiv_ok (dsub b a) (dsub (dofZ (Z.of_nat n)) (dofZ 1))) as [Q1 Q2]; auto. { rewrite M2. lra. } { rewrite M2, D2. apply wide_fits, Bq. }
  rewrite M2, D2 in Q2. change (RN (d / m)) with (step (value a) (value b) m) in Q2.
  assert (Hi' : 0 <= INR i <= m).
  { split; [apply pos_INR|]. unfold m. assert (INR (S i) <= INR n) by (apply le_INR; lia). rewrite S_INR in H. lra. }
  assert (Hf := part_le (INR i) m Hm Hi'). set (f := INR i / m) in *.
  assert (Tm : tiny * m <= 1).
  { apply Rle_trans with (tiny * bpow radix2 53); [apply Rmult_le_compat_l; lra|]. unfold tiny. rewrite <- bpow_plus. apply (bpow_le radix2 _ 0). lia. }
  assert (T1 : tiny <= 1) by (unfold tiny; apply (bpow_le radix2 _ 0); lia).
  assert (UW : uro * wide <= top) by (rewrite <- UT, WT; apply Rmult_le_compat_l; lra).
  assert (Bx : Rabs (step (value a) (value b) m * INR i) <= 9007199254740984 * top).
  { unfold step. fold d. destruct (RN_error (d / m)) as (d2 & e2 & H2 & H2' & E2). rewrite E2.
    assert (A1 : Rabs (d * f) <= wide) by (rewrite Rabs_mult, (Rabs_pos_eq f) by lra; pose proof (Rabs_pos d); nra).
    assert (A2 : Rabs (e2 * INR i) <= 1).
    { apply Rle_trans with (tiny * m); [|exact Tm]. apply abs_le_mult; auto. rewrite Rabs_pos_eq; lra. }
    replace ((d / m * (1 + d2) + e2) * INR i) with (d * f * (1 + d2) + e2 * INR i) by (unfold f; field; lra).
    assert (A3 : Rabs (d * f * (1 + d2)) <= wide * (1 + uro)).
    { apply abs_le_mult; auto. apply Rabs_le_inv in H2. apply Rabs_le. lra. }
    eapply Rle_trans; [apply Rabs_triang|]. lra. }
  destruct (dmul_ok (ddiv (dsub b a) (dsub (dofZ (Z.of_nat n)) (dofZ 1))) (dofZ (Z.of_nat i))) as [X1 X2]; auto.
  { rewrite Q2, I2, <- INR_IZR_INZ. apply over_fits, Bx. }
  rewrite Q2, I2, <- INR_IZR_INZ in X2.
  assert (PE := product_error (value a) (value b) m (INR i) (value_rep a) (value_rep b) Hm Hi'). fold f in PE.
  destruct (dadd_ok (dmul (ddiv (dsub b a) (dsub (dofZ (Z.of_nat n)) (dofZ 1))) (dofZ (Z.of_nat i))) a) as [Y1 Y2]; auto.
  { rewrite X2. apply over_fits.
    replace (RN (step (value a) (value b) m * INR i) + value a)
      with ((RN (step (value a) (value b) m * INR i) - (value b - value a) * f) + (value a * (1 - f) + value b * f)) by ring.
    eapply Rle_trans; [apply Rabs_triang|].
    assert (C1 : Rabs (value a * (1 - f) + value b * f) <= wide).
    { eapply Rle_trans; [apply Rabs_triang|]. rewrite !Rabs_mult, (Rabs_pos_eq f), (Rabs_pos_eq (1 - f)) by lra. nra. }
    assert (C2 : Rabs (value b - value a) * (3.1 * uro) <= 3.1 * top).
    { apply Rle_trans with (wide * (3.1 * uro)); [apply Rmult_le_compat_r; lra|]. lra. }
    assert (C3 : tiny * m * (1 + uro) <= 2) by (assert (0 < tiny * m) by nra; nra).
    lra. }
  split; [exact Y1|]. rewrite Y2, X2. reflexivity.
Qed.

(* ---- C81 ---- *)

Lemma linspace_elements {A} (O : linops A) junk (a b : A) n : (1 < n)%nat ->
  exists t, (exists F, forall fuel, (F <= fuel)%nat -> linspace_number_with O fuel junk a b n = Ok t) /\ wf t /\ dims t = [n] /\
    forall i, (i < n)%nat -> elt t [i] = Some (linval O a b n i).
Proof.
  intros Hn. destruct (linspace_with_ok O junk (mkT [1%nat] [a]) (mkT [1%nat] [b]) n) as (t & (F & HF) & Hw & Hd & Hl & H); try reflexivity; auto.
  cbn [data length] in *. simpl in Hd. exists t. split; [exists F; intros fuel Hf; exact (HF fuel Hf)|]. split; [auto|]. split; [auto|].
  intros i Hi. rewrite elt_valid by (rewrite Hd; repeat constructor; auto). rewrite Hd, lin_cons, lin_nil.
  replace (i + n * 0)%nat with (0 + 1 * i)%nat by lia. rewrite H by auto. reflexivity.
Qed.

(* linspace(a, b, n) of doubles with 2 <= n <= 2^53, where a, b and b - a are at
   most 2^1024 - 2^975, all but the largest doubles: all the elements are finite, the first is a, they go up if a <= b and down if b <= a,
   and each is within the stated error of the number it stands for.  Missing from
   the property: that the last is b, which is refuted. *)
Theorem C81_linspace_partial : forall junk (a b : double) n,
  finite a -> finite b ->
  (let limit := bpow radix2 1024 - bpow radix2 975 in Rabs (value a) <= limit /\ Rabs (value b) <= limit /\ Rabs (value b - value a) <= limit) ->
  (1 < n)%nat -> (Z.of_nat n <= 2 ^ 53)%Z ->
  exists t, (exists F, forall fuel, (F <= fuel)%nat -> linspace_double fuel junk a b n = Ok t) /\ wf t /\ dims t = [n] /\
  exists e : nat -> double,
    (forall i, (i < n)%nat -> elt t [i] = Some (e i) /\ finite (e i)) /\
    value (e 0%nat) = value a /\
    (forall i j, (i <= j < n)%nat -> (value a <= value b -> value (e i) <= value (e j)) /\ (value b <= value a -> value (e j) <= value (e i))) /\
    (forall i, (i < n)%nat -> Rabs (value (e i) - spaced (value a) (value b) n i) <=
       uro * (4 * Rabs (value b - value a) + Rabs (spaced (value a) (value b) n i)) + 2 * INR n * tiny).
Proof.
  intros junk a b n Fa Fb (Ba & Bb & BD) Hn Hn'. destruct (linspace_elements Dlin junk a b n Hn) as (t & HF & Hw & Hd & H).
  exists t. split; [exact HF|]. split; [exact Hw|]. split; [exact Hd|]. exists (linval Dlin a b n).
  assert (G := fun i => element a b n i Fa Fb Ba Bb BD Hn Hn'). pose proof (value_rep a) as Ra. pose proof (value_rep b) as Rb.
  assert (Hm : 1 <= INR n - 1) by (assert (X : (2 <= n)%nat) by lia; apply le_INR in X; change (INR 2) with 2 in X; lra).
  split; [|split; [|split]].
  - intros i Hi. split; [apply H, Hi|apply G, Hi].
  - destruct (G 0%nat) as [_ ->]; [lia|]. apply point_zero, Ra.
  - intros i j Hij. destruct (G i) as [_ ->]; [lia|]. destruct (G j) as [_ ->]; [lia|]. assert (Hle : INR i <= INR j) by (apply le_INR; lia).
    split; intros Hab; [apply point_up|apply point_down]; auto; lra.
  - intros i Hi. destruct (G i Hi) as [_ ->]. unfold spaced. replace (2 * INR n * tiny) with (2 * (INR n - 1 + 1) * tiny) by ring.
    apply point_error; auto. split; [apply pos_INR|]. assert (X : (S i <= n)%nat) by lia. apply le_INR in X. rewrite S_INR in X. lra.
Qed.
Print Assumptions C81_linspace_partial.

(* Integers are exact: from the integer a in steps of the integer h, as long as all
   numbers are below 2^53 *)
Theorem C81_integers : forall junk (a h : Z) n, (1 < n)%nat -> (Z.of_nat n <= 2 ^ 53)%Z -> (Z.abs a + Z.abs h * (Z.of_nat n - 1) <= 2 ^ 53)%Z ->
  exists t, (exists F, forall fuel, (F <= fuel)%nat -> linspace_double fuel junk (dofZ a) (dofZ (a + h * (Z.of_nat n - 1))) n = Ok t) /\ wf t /\ dims t = [n] /\
    forall i, (i < n)%nat -> exists e, elt t [i] = Some e /\ finite e /\ value e = IZR (a + h * Z.of_nat i).
Proof.
  intros junk a h n Hn Hn' Hb. set (b := (a + h * (Z.of_nat n - 1))%Z).
  destruct (linspace_elements Dlin junk (dofZ a) (dofZ b) n Hn) as (t & HF & Hw & Hd & H).
  exists t. split; [exact HF|]. split; [exact Hw|]. split; [exact Hd|]. intros i Hi. exists (linval Dlin (dofZ a) (dofZ b) n i). split; [apply H, Hi|].
  assert (Ab : (Z.abs b <= 2 ^ 53)%Z) by (unfold b; pose proof (Z.abs_triangle a (h * (Z.of_nat n - 1))); rewrite Z.abs_mul in *; nia).
  destruct (dofZ_ok a) as [A1 A2]; [nia|]. destruct (dofZ_ok b Ab) as [B1 B2].
  assert (Small : forall z : Z, (Z.abs z <= 2 ^ 53)%Z -> Rabs (IZR z) <= wide).
  { intros z Hz. rewrite <- abs_IZR. apply Rle_trans with (IZR (2 ^ 53)); [apply IZR_le, Hz|]. rewrite wide_top. pose proof top_big. change (2 ^ 53)%Z with 9007199254740992%Z. lra. }
  destruct (element (dofZ a) (dofZ b) n i) as [E1 E2]; auto;
    [rewrite A2; apply Small; nia|rewrite B2; apply Small, Ab|
     rewrite A2, B2, <- minus_IZR; apply Small; unfold b; replace (a + h * (Z.of_nat n - 1) - a)%Z with (h * (Z.of_nat n - 1))%Z by lia; rewrite Z.abs_mul; nia|].
  split; [exact E1|]. rewrite E2, A2, B2. unfold point, step.
  assert (Rint : forall z : Z, (Z.abs z <= 2 ^ 53)%Z -> RN (IZR z) = IZR z).
  { intros z Hz. apply RN_id. rewrite <- (Rmult_1_r (IZR z)). apply (rep_int z 0); lia. }
  assert (Hm : IZR (Z.of_nat n - 1) <> 0) by (apply not_0_IZR; lia).
  rewrite <- minus_IZR, Rint by (unfold b; replace (a + h * (Z.of_nat n - 1) - a)%Z with (h * (Z.of_nat n - 1))%Z by lia; rewrite Z.abs_mul; nia).
  replace (INR n - 1) with (IZR (Z.of_nat n - 1)) by (rewrite minus_IZR, INR_IZR_INZ; reflexivity).
  replace (IZR (b - a) / IZR (Z.of_nat n - 1)) with (IZR h).
  2:{ unfold b. replace (a + h * (Z.of_nat n - 1) - a)%Z with (h * (Z.of_nat n - 1))%Z by lia. rewrite mult_IZR. field. exact Hm. }
  rewrite Rint by nia. rewrite INR_IZR_INZ, <- mult_IZR, Rint, <- plus_IZR, Rint by nia. f_equal. lia.
Qed.
Print Assumptions C81_integers.

(* The last element need not be b: linspace(0, 1, 50) ends before 1 and
   linspace(5, 30, 12) after 30 *)
Theorem C81_last_refuted : forall junk,
  (exists t e F, (forall fuel, (F <= fuel)%nat -> linspace_double fuel junk (dofZ 0) (dofZ 1) 50 = Ok t) /\ elt t [49%nat] = Some e /\ dlt e (dofZ 1) = true) /\
  (exists t e F, (forall fuel, (F <= fuel)%nat -> linspace_double fuel junk (dofZ 5) (dofZ 30) 12 = Ok t) /\ elt t [11%nat] = Some e /\ dlt (dofZ 30) e = true).
Proof.
  intros junk. split.
  - destruct (linspace_elements Dlin junk (dofZ 0) (dofZ 1) 50) as (t & (F & HF) & _ & _ & H); [lia|].
    exists t, (linval Dlin (dofZ 0) (dofZ 1) 50 49), F. split; [exact HF|]. split; [apply H; lia|]. vm_compute. reflexivity.
  - destruct (linspace_elements Dlin junk (dofZ 5) (dofZ 30) 12) as (t & (F & HF) & _ & _ & H); [lia|].
    exists t, (linval Dlin (dofZ 5) (dofZ 30) 12 11), F. split; [exact HF|]. split; [apply H; lia|]. vm_compute. reflexivity.
Qed.
Print Assumptions C81_last_refuted.

(* Beyond that limit an element can overflow although the interval does not:
   linspace(0, m, 4) with the largest double m ends with infinity *)
Theorem C81_largest_refuted : forall junk,
  exists t e F, (forall fuel, (F <= fuel)%nat -> linspace_double fuel junk (dofZ 0) (dmake 9007199254740991 971) 4 = Ok t) /\
    elt t [3%nat] = Some e /\ e = B754_infinity false /\ finite (dmake 9007199254740991 971).
Proof.
  intros junk. destruct (linspace_elements Dlin junk (dofZ 0) (dmake 9007199254740991 971) 4) as (t & (F & HF) & _ & _ & H); [lia|].
  exists t, (linval Dlin (dofZ 0) (dmake 9007199254740991 971) 4 3), F. split; [exact HF|]. split; [apply H; lia|]. split.
  - assert (K : match linval Dlin (dofZ 0) (dmake 9007199254740991 971) 4 3 with B754_infinity false => true | _ => false end = true) by (vm_compute; reflexivity).
    destruct (linval Dlin (dofZ 0) (dmake 9007199254740991 971) 4 3) as [|[]| |]; try discriminate K. reflexivity.
  - unfold finite. vm_compute. reflexivity.
Qed.
Print Assumptions C81_largest_refuted.

(* An interval wider than the largest double: the first number is a NaN and the
   others are infinite *)
Lemma dsub_overflow (x y : double) : finite x -> finite y -> bpow radix2 1024 <= Rabs (value x - value y) -> exists s, dsub x y = B754_infinity s.
Proof.
  intros Hx Hy H. pose proof (@Bminus_correct 53 1024 prec53 prec53_1024 mode_NE x y Hx Hy) as C.
  rewrite Rlt_bool_false in C.
  - destruct C as [C _]. unfold dsub. destruct (@Bminus 53 1024 prec53 prec53_1024 mode_NE x y) as [s|s| |s m e He]; try discriminate C. eauto.
  - rewrite <- round_NE_abs by (apply (fexp_correct 53 1024 prec53)). apply round_ge_generic; [apply (fexp_correct 53 1024 prec53)|apply valid_rnd_N| |exact H].
    apply generic_format_bpow. vm_compute. discriminate.
Qed.
Theorem C81_wide_refuted : forall junk (a b : double) n,
  finite a -> finite b -> bpow radix2 1024 <= Rabs (value b - value a) -> (1 < n)%nat -> (Z.of_nat n <= 2 ^ 53)%Z ->
  exists t e, (exists F, forall fuel, (F <= fuel)%nat -> linspace_double fuel junk a b n = Ok t) /\ wf t /\ dims t = [n] /\
    (forall i, (i < n)%nat -> elt t [i] = Some (e i)) /\ is_nan (e 0%nat) = true /\
    (forall i, (0 < i < n)%nat -> exists s, e i = B754_infinity s).
Proof.
  intros junk a b n Fa Fb Hw Hn Hn'. destruct (linspace_elements Dlin junk a b n Hn) as (t & HF & Wt & Dt & H).
  exists t, (linval Dlin a b n). split; [exact HF|]. split; [exact Wt|]. split; [exact Dt|]. split; [exact H|].
  destruct (dsub_overflow b a Fb Fa Hw) as (s & Es). unfold linval. cbn [Dlin ladd lmul ldiv lsub lpred lnat]. rewrite Es.
  destruct (dofZ_ok (Z.of_nat n)) as [N1 N2]; [lia|]. destruct (dofZ_ok 1) as [O1 O2]; [lia|].
  destruct (dsub_ok (dofZ (Z.of_nat n)) (dofZ 1) N1 O1) as [P1 P2].
  { rewrite N2, O2, <- minus_IZR. apply (fits_lt _ 53); [lia|]. rewrite <- abs_IZR. change (bpow radix2 53) with (IZR (2 ^ 53)). apply IZR_le. lia. }
  rewrite N2, O2, <- minus_IZR, RN_id in P2 by (rewrite <- (Rmult_1_r (IZR _)); apply (rep_int _ 0); lia).
  assert (Pn : value (dsub (dofZ (Z.of_nat n)) (dofZ 1)) <> 0) by (rewrite P2; apply not_0_IZR; lia).
  assert (Ed : exists s', ddiv (B754_infinity s) (dsub (dofZ (Z.of_nat n)) (dofZ 1)) = B754_infinity s').
  { destruct (dsub (dofZ (Z.of_nat n)) (dofZ 1)) as [z|z| |z m e He]; try discriminate P1; [exfalso; apply Pn; reflexivity|]. exists (xorb s z). reflexivity. }
  destruct Ed as (s' & ->). split.
  - change (dofZ (Z.of_nat 0)) with (B754_zero false : double). reflexivity.
  - intros i Hi. destruct (dofZ_ok (Z.of_nat i)) as [I1 I2]; [lia|].
    assert (In : value (dofZ (Z.of_nat i)) <> 0) by (rewrite I2; apply not_0_IZR; lia).
    destruct (dofZ (Z.of_nat i)) as [z|z| |z m e He]; try discriminate I1; [exfalso; apply In; reflexivity|].
    exists (xorb s' z). destruct a; try discriminate Fa; reflexivity.
Qed.
Print Assumptions C81_wide_refuted.
Example C81_wide_meets : finite (dmake (-1) 1023) /\ finite (dmake 1 1023) /\ bpow radix2 1024 <= Rabs (value (dmake 1 1023) - value (dmake (-1) 1023)).
Proof.
  assert (F : forall z, z = 1%Z \/ z = (-1)%Z -> finite (dmake z 1023) /\ value (dmake z 1023) = IZR z * bpow radix2 1023).
  { intros z Hz. destruct (dmake_ok z 1023) as [H1 H2].
    - apply (fits_lt _ 1023); [lia|]. rewrite Rabs_mult, (Rabs_pos_eq (bpow radix2 1023)) by apply bpow_ge_0.
      destruct Hz as [-> | ->]; [rewrite (Rabs_pos_eq 1) by lra|rewrite Rabs_left by lra]; lra.
    - split; [exact H1|]. rewrite H2. apply RN_id. apply rep_int; destruct Hz as [-> | ->]; lia. }
  destruct (F 1%Z) as [A1 A2]; [auto|]. destruct (F (-1)%Z) as [B1 B2]; [auto|]. split; [exact B1|]. split; [exact A1|].
  rewrite A2, B2. replace (1 * bpow radix2 1023 - -1 * bpow radix2 1023) with (bpow radix2 1024).
  - rewrite Rabs_pos_eq by apply bpow_ge_0. lra.
  - replace 1024%Z with (1023 + 1)%Z by lia. rewrite bpow_plus. change (bpow radix2 1) with 2. lra.
Qed.

(* an interval and a number of points for C81_linspace_partial, and for C81_integers *)
Example C81_meets :
  (finite (dmake 1 (-3)) /\ finite (dofZ 7) /\
   (let limit := bpow radix2 1024 - bpow radix2 975 in
    Rabs (value (dmake 1 (-3))) <= limit /\ Rabs (value (dofZ 7)) <= limit /\ Rabs (value (dofZ 7) - value (dmake 1 (-3))) <= limit) /\
   (1 < 100)%nat /\ (Z.of_nat 100 <= 2 ^ 53)%Z) /\
  (Z.abs (-5) + Z.abs 3 * (Z.of_nat 100 - 1) <= 2 ^ 53)%Z.
Proof.
  assert (G : 8 <= wide) by (rewrite wide_top; pose proof top_big; lra).
  split; [|lia]. destruct (dofZ_ok 7) as [A1 A2]; [lia|].
  destruct (dmake_ok 1 (-3)) as [B1 B2].
  { apply (fits_lt _ 0); [lia|]. cbn. rewrite Rabs_pos_eq; lra. }
  rewrite RN_id in B2 by (apply rep_int; lia).
  split; [exact B1|]. split; [exact A1|]. split; [|split; lia]. cbv zeta. fold wide.
  assert (B3 : value (dmake 1 (-3)) = / 8) by (rewrite B2; cbn; lra). rewrite A2, B3. repeat split; rewrite Rabs_pos_eq; lra.
Qed.

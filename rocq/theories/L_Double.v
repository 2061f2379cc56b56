(* Lemmas about doubles *)
From Coq Require Import Reals Lra.
From Flocq Require Import Core BinarySingleNaN Relative Plus_error.
From Verif Require Import Base M_Double S_Double.
Local Open Scope R_scope.

Definition fx : Z -> Z := SpecFloat.fexp 53 1024.
Definition RN (x : R) : R := round radix2 fx ZnearestE x.
Notation rep := (generic_format radix2 fx).
Lemma fx_FLT : fx = FLT_exp (-1074) 53. Proof. reflexivity. Qed.
Global Instance fx_valid : Valid_exp fx. Proof. rewrite fx_FLT. apply FLT_exp_valid. reflexivity. Qed.
Global Instance fx_mono : Monotone_exp fx. Proof. rewrite fx_FLT. apply FLT_exp_monotone. Qed.

Lemma value_rep x : rep (value x). Proof. apply generic_format_B2R. Qed.
Lemma RN_rep x : rep (RN x). Proof. apply generic_format_round; typeclasses eauto. Qed.
Lemma RN_id x : rep x -> RN x = x. Proof. intros; apply round_generic; auto; typeclasses eauto. Qed.
Lemma RN_le x y : x <= y -> RN x <= RN y. Proof. intros; apply round_le; auto; typeclasses eauto. Qed.
Lemma RN_0 : RN 0 = 0. Proof. apply round_0; typeclasses eauto. Qed.
Lemma rep_bpow e : (-1074 <= e)%Z -> rep (bpow radix2 e).
Proof. intros H. rewrite fx_FLT. apply generic_format_bpow. unfold FLT_exp. lia. Qed.
Lemma rep_opp x : rep x -> rep (- x). Proof. apply generic_format_opp. Qed.
Lemma RN_ge_rep x y : rep x -> x <= y -> x <= RN y. Proof. intros H H1. rewrite <- (RN_id x H). apply RN_le, H1. Qed.
Lemma RN_le_rep x y : rep y -> x <= y -> RN x <= y. Proof. intros H H1. rewrite <- (RN_id y H). apply RN_le, H1. Qed.
Lemma RN_abs_le x b : rep b -> Rabs x <= b -> Rabs (RN x) <= b.
Proof.
  intros Hb H. apply Rabs_le_inv in H. apply Rabs_le. split; [apply RN_ge_rep; [apply rep_opp; auto|lra]|apply RN_le_rep; auto; lra].
Qed.

(* the relative error of a rounding, with the absolute one of the subnormal range *)
Lemma RN_error x : exists d e, Rabs d <= uro /\ Rabs e <= tiny /\ RN x = x * (1 + d) + e.
Proof.
  destruct (error_N_FLT radix2 (-1074) 53 eq_refl (fun n => negb (Z.even n)) x) as (d & e & Hd & He & _ & E).
  exists d, e. split; [|split].
  - eapply Rle_trans; [exact Hd|]. unfold uro. replace (bpow radix2 (-53)) with (/ 2 * bpow radix2 (-52)) by (cbn; lra). apply Rle_refl.
  - eapply Rle_trans; [exact He|]. unfold tiny. replace (-1074)%Z with (1 + -1075)%Z by lia. rewrite bpow_plus. replace (bpow radix2 1) with 2 by reflexivity.
    lra.
  - unfold RN. rewrite fx_FLT. exact E.
Qed.
(* sums have no absolute error *)
Lemma RN_plus_error x y : rep x -> rep y -> exists d, Rabs d <= uro /\ RN (x + y) = (x + y) * (1 + d).
Proof.
  intros Hx Hy. rewrite fx_FLT in Hx, Hy. destruct (@FLT_plus_error_N_ex radix2 (-1074) 53 prec53 (fun n => negb (Z.even n)) x y Hx Hy) as (d & Hd & E).
  exists d. split; [|unfold RN; rewrite fx_FLT; exact E]. eapply Rle_trans; [exact Hd|]. eapply Rle_trans; [apply u_rod1pu_ro_le_u_ro|].
  unfold u_ro, uro. replace (bpow radix2 (-53)) with (/ 2 * bpow radix2 (-52)) by (cbn; lra). apply Rle_refl.
Qed.
Lemma uro_small : 0 < uro < / 1000000. Proof. unfold uro. cbn. lra. Qed.
Lemma tiny_pos : 0 < tiny. Proof. apply bpow_gt_0. Qed.

(* ---- the operations ---- *)
Definition fits (x : R) : Prop := Rabs (RN x) < bpow radix2 1024.
Lemma fits_lt x e : (-1074 <= e < 1024)%Z -> Rabs x <= bpow radix2 e -> fits x.
Proof.
  intros He H. unfold fits. apply Rle_lt_trans with (bpow radix2 e); [apply RN_abs_le; auto; apply rep_bpow; lia|apply bpow_lt; lia].
Qed.
Lemma dadd_ok x y : finite x -> finite y -> fits (value x + value y) -> finite (dadd x y) /\ value (dadd x y) = RN (value x + value y).
Proof.
  intros Hx Hy H. pose proof (@Bplus_correct 53 1024 prec53 prec53_1024 mode_NE x y Hx Hy) as C. unfold fits, RN, value in H.
  change (round_mode mode_NE) with ZnearestE in C. change (SpecFloat.fexp 53 1024) with fx in C. rewrite Rlt_bool_true in C by exact H. unfold finite, value, dadd. tauto.
Qed.
Lemma dsub_ok x y : finite x -> finite y -> fits (value x - value y) -> finite (dsub x y) /\ value (dsub x y) = RN (value x - value y).
Proof.
  intros Hx Hy H. pose proof (@Bminus_correct 53 1024 prec53 prec53_1024 mode_NE x y Hx Hy) as C. unfold fits, RN, value in H.
  change (round_mode mode_NE) with ZnearestE in C. change (SpecFloat.fexp 53 1024) with fx in C. rewrite Rlt_bool_true in C by exact H. unfold finite, value, dsub. tauto.
Qed.
Lemma dmul_ok x y : finite x -> finite y -> fits (value x * value y) -> finite (dmul x y) /\ value (dmul x y) = RN (value x * value y).
Proof.
  intros Hx Hy H. pose proof (@Bmult_correct 53 1024 prec53 prec53_1024 mode_NE x y) as C. unfold fits, RN, value in H.
  change (round_mode mode_NE) with ZnearestE in C. change (SpecFloat.fexp 53 1024) with fx in C. rewrite Rlt_bool_true in C by exact H.
  unfold finite, value, dmul in *. destruct C as (C1 & C2 & _). rewrite C2, Hx, Hy. auto.
Qed.
Lemma ddiv_ok x y : finite x -> value y <> 0 -> fits (value x / value y) -> finite (ddiv x y) /\ value (ddiv x y) = RN (value x / value y).
Proof.
  intros Hx Hy H. pose proof (@Bdiv_correct 53 1024 prec53 prec53_1024 mode_NE x y Hy) as C. unfold fits, RN, value in H.
  change (round_mode mode_NE) with ZnearestE in C. change (SpecFloat.fexp 53 1024) with fx in C. rewrite Rlt_bool_true in C by exact H.
  unfold finite, value, ddiv in *. destruct C as (C1 & C2 & _). rewrite C2, Hx. auto.
Qed.
Lemma dsqrt_ok x : finite x -> 0 <= value x -> finite (dsqrt x) /\ value (dsqrt x) = RN (sqrt (value x)).
Proof.
  intros Hx H. pose proof (@Bsqrt_correct 53 1024 prec53 prec53_1024 mode_NE x) as (C1 & C2 & _).
  split; [|exact C1]. unfold finite, dsqrt. rewrite C2. unfold finite, value in *. destruct x as [s|s| |s m e Hm]; try discriminate; auto.
  destruct s; auto. exfalso. revert H. cbn. apply Rlt_not_le. apply F2R_lt_0. reflexivity.
Qed.
Lemma dmake_ok m e : fits (IZR m * bpow radix2 e) -> finite (dmake m e) /\ value (dmake m e) = RN (IZR m * bpow radix2 e).
Proof.
  intros H. pose proof (@binary_normalize_correct 53 1024 prec53 prec53_1024 mode_NE m e false) as C. unfold fits, RN in H.
  change (round_mode mode_NE) with ZnearestE in C. change (SpecFloat.fexp 53 1024) with fx in C. cbv zeta in C.
  replace (F2R (Float radix2 m e)) with (IZR m * bpow radix2 e) in C by reflexivity.
  rewrite Rlt_bool_true in C by exact H. unfold finite, value, dmake. tauto.
Qed.
Lemma rep_int m e : (Z.abs m <= 2 ^ 53)%Z -> (-1074 <= e)%Z -> rep (IZR m * bpow radix2 e).
Proof.
  intros Hm He. rewrite fx_FLT. destruct (Z.eq_dec (Z.abs m) (2 ^ 53)) as [E|E].
  - assert (G : rep (bpow radix2 (53 + e))) by (apply rep_bpow; lia). rewrite fx_FLT in G. rewrite bpow_plus in G.
    assert (Em : m = (2 ^ 53)%Z \/ m = (- 2 ^ 53)%Z) by lia. change (bpow radix2 53) with (IZR (2 ^ 53)) in G.
    destruct Em as [->| ->]; [exact G|]. replace (IZR (- 2 ^ 53) * bpow radix2 e) with (- (IZR (2 ^ 53) * bpow radix2 e)) by (rewrite opp_IZR; ring).
    apply generic_format_opp, G.
  - apply generic_format_FLT. exists (Float radix2 m e); [reflexivity| |exact He]. cbn [Fnum]. change (Z.pow radix2 53) with (2 ^ 53)%Z. lia.
Qed.
Lemma dofZ_ok z : (Z.abs z <= 2 ^ 53)%Z -> finite (dofZ z) /\ value (dofZ z) = IZR z.
Proof.
  intros H. destruct (dmake_ok z 0) as [H1 H2].
  - apply (fits_lt _ 53); [lia|]. cbn [bpow]. rewrite Rmult_1_r, <- abs_IZR. change (bpow radix2 53) with (IZR (2 ^ 53)). apply IZR_le, H.
  - split; [exact H1|]. unfold dofZ. rewrite H2, RN_id by (apply rep_int; lia). cbn [bpow]. ring.
Qed.

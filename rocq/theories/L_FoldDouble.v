(* Lemmas about sums of products of doubles. *)
From Coq Require Import Reals Lra Permutation.
From Flocq Require Import Core BinarySingleNaN.
From Verif Require Import Base Spec S_Reduce M_Tensor M_Reduce M_Double S_Double L_Double S_DoubleReduce M_DoubleReduce L_DoubleReduce S_FoldDouble M_FoldDouble.
Local Open Scope R_scope.

Lemma dopp_finite x : finite (dopp x) <-> finite x.
Proof. unfold finite, dopp. rewrite is_finite_Bopp. tauto. Qed.
Lemma dopp_value x : value (dopp x) = - value x.
Proof. apply B2R_Bopp. Qed.
Lemma dopp_dopp x : dopp (dopp x) = x.
Proof. apply Bopp_involutive. Qed.

Lemma dfma_ok x y z : finite x -> finite y -> finite z -> fits (value x * value y + value z) ->
  finite (dfma x y z) /\ value (dfma x y z) = RN (value x * value y + value z).
Proof.
  intros Fx Fy Fz H. pose proof (@Bfma_correct 53 1024 prec53 prec53_1024 mode_NE x y z Fx Fy Fz) as C. cbv zeta in C.
  rewrite Rlt_bool_true in C by exact H. destruct C as (C1 & C2 & _). split; [exact C2|exact C1].
Qed.
Lemma dfma_inv x y z : finite (dfma x y z) -> finite x /\ finite y /\ finite z /\ value (dfma x y z) = RN (value x * value y + value z).
Proof.
  intros H. assert (F : finite x /\ finite y /\ finite z).
  { unfold finite in *. destruct x as [sx|sx| |sx mx ex Hx], y as [sy|sy| |sy my ey Hy], z as [sz|sz| |sz mz ez Hz]; auto; try discriminate;
    unfold dfma in H; cbn in H; try discriminate; destruct (Bool.eqb _ _); discriminate. }
  destruct F as (Fx & Fy & Fz). do 3 (split; [assumption|]).
  pose proof (@Bfma_correct 53 1024 prec53 prec53_1024 mode_NE x y z Fx Fy Fz) as C. cbv zeta in C.
  change (round_mode mode_NE) with ZnearestE in C. change (SpecFloat.fexp 53 1024) with fx in C.
  destruct (Rlt_bool (Rabs _) _); [apply C|]. exfalso. unfold finite, dfma in H.
  rewrite <- is_finite_SF_B2SF in H. rewrite C in H. unfold binary_overflow in H. destruct (Rlt_bool _ _); discriminate.
Qed.

(* ---- sums of real numbers ---- *)
Lemma Rsum_app l m : Rsum (l ++ m) = Rsum l + Rsum m.
Proof. induction l as [|x l IH]; cbn; [unfold Rsum; cbn; lra|]. unfold Rsum in *. rewrite IH. lra. Qed.
Lemma Rsum_perm l m : Permutation l m -> Rsum l = Rsum m.
Proof. intros H. unfold Rsum. induction H; cbn; try lra. Qed.
Lemma exact_app l m : exact (l ++ m) = exact l + exact m.
Proof. unfold exact. rewrite map_app, Rsum_app. reflexivity. Qed.
Lemma exact_abs_app l m : exact_abs (l ++ m) = exact_abs l + exact_abs m.
Proof. unfold exact_abs. rewrite map_app, Rsum_app. reflexivity. Qed.
Lemma exact_abs_nonneg' l : 0 <= exact_abs l.
Proof. apply Rsum_nonneg. intros x H. apply in_map_iff in H as (y & <- & _). apply Rabs_pos. Qed.
Lemma exact_le l : Rabs (exact l) <= exact_abs l.
Proof.
  induction l as [|x l IH]; unfold exact, exact_abs in *; cbn; [rewrite Rabs_R0; lra|].
  eapply Rle_trans; [apply Rabs_triang|]. unfold Rsum in IH. lra.
Qed.
Lemma exact_cons x y l : exact ((x, y) :: l) = value x * value y + exact l. Proof. reflexivity. Qed.
Lemma exact_abs_cons x y l : exact_abs ((x, y) :: l) = Rabs (value x * value y) + exact_abs l. Proof. reflexivity. Qed.

(* ---- how errors add up ---- *)
Lemma growth_0 : growth 0 = 0. Proof. unfold growth. cbn. ring. Qed.
Lemma under_0 : underflow 0 = 0. Proof. unfold underflow. cbn [INR]. ring. Qed.
Lemma under_1 : underflow 1 = tiny. Proof. unfold underflow. change (1 - 1)%nat with 0%nat. cbn [INR]. rewrite growth_0. ring. Qed.
Lemma under_eq n : underflow n = (1 + uro) ^ (n - 1) * INR n * tiny.
Proof. unfold underflow, growth. ring. Qed.
Lemma pow_mono k m : (k <= m)%nat -> (1 + uro) ^ k <= (1 + uro) ^ m.
Proof. intros H. pose proof uro_small. apply Rle_pow; [lra|exact H]. Qed.
Lemma pow_ge_1 k : 1 <= (1 + uro) ^ k.
Proof. pose proof uro_small. apply pow_R1_Rle; lra. Qed.
Lemma under_nonneg n : 0 <= underflow n.
Proof. rewrite under_eq. pose proof (pow_ge_1 (n - 1)). pose proof (pos_INR n). pose proof tiny_pos. apply Rmult_le_pos; [apply Rmult_le_pos|]; lra. Qed.
Lemma under_mono k m : (k <= m)%nat -> underflow k <= underflow m.
Proof.
  intros H. rewrite !under_eq. pose proof (pow_mono (k - 1) (m - 1) ltac:(lia)). pose proof (pow_ge_1 (k - 1)). pose proof (le_INR _ _ H). pose proof (pos_INR k). pose proof tiny_pos.
  apply Rmult_le_compat_r; [lra|]. apply Rmult_le_compat; lra.
Qed.
Lemma under_S q : (1 + uro) * underflow q + tiny <= underflow (S q).
Proof.
  rewrite !under_eq. replace (S q - 1)%nat with q by lia. rewrite S_INR. pose proof tiny_pos as T. pose proof (pow_ge_1 q) as P.
  destruct q as [|q]; [cbn [INR pow]; lra|]. replace (S q - 1)%nat with q by lia. change ((1 + uro) ^ S q) with ((1 + uro) * (1 + uro) ^ q) in *.
  set (g := (1 + uro) * (1 + uro) ^ q) in *. set (n := INR (S q)). replace ((1 + uro) * ((1 + uro) ^ q * n * tiny)) with (g * n * tiny) by (unfold g; ring). nra.
Qed.
Lemma under_add p q : (0 < p)%nat -> (0 < q)%nat -> (1 + uro) * (underflow p + underflow q) <= underflow (p + q).
Proof.
  intros Hp Hq. rewrite !under_eq, plus_INR. pose proof tiny_pos as T.
  assert (A : (1 + uro) * (1 + uro) ^ (p - 1) <= (1 + uro) ^ (p + q - 1)) by (rewrite tech_pow_Rmult; apply pow_mono; lia).
  assert (B : (1 + uro) * (1 + uro) ^ (q - 1) <= (1 + uro) ^ (p + q - 1)) by (rewrite tech_pow_Rmult; apply pow_mono; lia).
  pose proof (pos_INR p) as P. pose proof (pos_INR q) as Q. set (a := (1 + uro) * (1 + uro) ^ (p - 1)) in *. set (b := (1 + uro) * (1 + uro) ^ (q - 1)) in *. set (c := (1 + uro) ^ (p + q - 1)) in *.
  replace ((1 + uro) * ((1 + uro) ^ (p - 1) * INR p * tiny + (1 + uro) ^ (q - 1) * INR q * tiny)) with ((a * INR p + b * INR q) * tiny) by (unfold a, b; ring).
  apply Rmult_le_compat_r; [lra|]. nra.
Qed.

(* v is close to E, a sum of n products with moduli adding to A *)
Definition close (n : nat) (E A v : R) : Prop := Rabs (v - E) <= growth n * A + underflow n.
Lemma close_zero E A v : close 0 E A v -> v = E.
Proof. unfold close. rewrite growth_0, under_0. intros H. pose proof (Rabs_pos (v - E)). assert (Rabs (v - E) = 0) by lra. destruct (Req_dec (v - E) 0) as [Z|Z]; [lra|]. apply Rabs_no_R0 in Z. contradiction. Qed.
Lemma close_le n E A v : Rabs E <= A -> close n E A v -> Rabs v <= (1 + growth n) * A + underflow n.
Proof. unfold close. intros H1 H2. replace v with (E + (v - E)) by ring. eapply Rle_trans; [apply Rabs_triang|]. lra. Qed.
Lemma close_add p q E1 A1 E2 A2 v w : rep v -> rep w -> Rabs E1 <= A1 -> Rabs E2 <= A2 -> (p = 0%nat -> A1 = 0) -> (q = 0%nat -> A2 = 0) ->
  close p E1 A1 v -> close q E2 A2 w -> close (p + q) (E1 + E2) (A1 + A2) (RN (v + w)).
Proof.
  intros Rv Rw B1 B2 Z1 Z2 C1 C2. destruct p as [|p].
  - apply close_zero in C1. rewrite (Z1 eq_refl) in *. assert (E1 = 0) by (apply Rabs_le_inv in B1; lra). subst E1 v. rewrite !Rplus_0_l, RN_id by exact Rw. exact C2.
  - destruct q as [|q].
    + apply close_zero in C2. rewrite (Z2 eq_refl) in *. assert (E2 = 0) by (apply Rabs_le_inv in B2; lra). subst E2 w. rewrite !Rplus_0_r, RN_id by exact Rv. rewrite Nat.add_0_r. exact C1.
    + destruct (RN_plus_error v w Rv Rw) as (d & Hd & ->). pose proof (under_add (S p) (S q) ltac:(lia) ltac:(lia)) as T.
      assert (G1 : growth (S p) * (1 + uro) + uro <= growth (S p + S q)) by (rewrite <- growth_S; apply growth_mono; lia).
      assert (G2 : growth (S q) * (1 + uro) + uro <= growth (S p + S q)) by (rewrite <- growth_S; apply growth_mono; lia).
      unfold close in *. set (g1 := growth (S p)) in *. set (g2 := growth (S q)) in *. set (g := growth (S p + S q)) in *.
      set (t1 := underflow (S p)) in *. set (t2 := underflow (S q)) in *. set (t := underflow (S p + S q)) in *.
      pose proof uro_small as U. assert (P1 : 0 <= A1) by (pose proof (Rabs_pos E1); lra). assert (P2 : 0 <= A2) by (pose proof (Rabs_pos E2); lra).
      replace ((v + w) * (1 + d) - (E1 + E2)) with (((v - E1) + (w - E2)) * (1 + d) + (E1 + E2) * d) by ring.
      eapply Rle_trans; [apply Rabs_triang|]. rewrite !Rabs_mult.
      assert (D1 : Rabs (1 + d) <= 1 + uro) by (apply Rabs_le_inv in Hd; apply Rabs_le; lra).
      assert (X1 : Rabs ((v - E1) + (w - E2)) * Rabs (1 + d) <= (g1 * A1 + t1 + (g2 * A2 + t2)) * (1 + uro)).
      { apply Rmult_le_compat; auto using Rabs_pos. eapply Rle_trans; [apply Rabs_triang|]. lra. }
      assert (X2 : Rabs (E1 + E2) * Rabs d <= (A1 + A2) * uro).
      { apply Rmult_le_compat; auto using Rabs_pos. eapply Rle_trans; [apply Rabs_triang|]. lra. }
      assert (X3 : (g1 * (1 + uro) + uro) * A1 <= g * A1) by (apply Rmult_le_compat_r; auto).
      assert (X4 : (g2 * (1 + uro) + uro) * A2 <= g * A2) by (apply Rmult_le_compat_r; auto). lra.
Qed.
Lemma close_fma q E A p v : Rabs E <= A -> close q E A v -> close (S q) (p + E) (Rabs p + A) (RN (p + v)).
Proof.
  intros B C. destruct (RN_error (p + v)) as (d & e & Hd & He & ->). pose proof (under_S q) as T. pose proof (growth_S q) as G. unfold close in *. rewrite G.
  set (g := growth q) in *. set (t := underflow q) in *. set (t' := underflow (S q)) in *. pose proof uro_small as U. pose proof (growth_nonneg q) as Gn. fold g in Gn.
  assert (P1 : 0 <= A) by (pose proof (Rabs_pos E); lra). pose proof (Rabs_pos p) as P2.
  replace ((p + v) * (1 + d) + e - (p + E)) with ((v - E) * (1 + d) + (p + E) * d + e) by ring.
  eapply Rle_trans; [apply Rabs_triang|]. apply Rle_trans with (Rabs ((v - E) * (1 + d)) + Rabs ((p + E) * d) + Rabs e); [apply Rplus_le_compat_r, Rabs_triang|]. rewrite !Rabs_mult.
  assert (D1 : Rabs (1 + d) <= 1 + uro) by (apply Rabs_le_inv in Hd; apply Rabs_le; lra).
  assert (X1 : Rabs (v - E) * Rabs (1 + d) <= (g * A + t) * (1 + uro)) by (apply Rmult_le_compat; auto using Rabs_pos).
  assert (X2 : Rabs (p + E) * Rabs d <= (Rabs p + A) * uro).
  { apply Rmult_le_compat; auto using Rabs_pos. eapply Rle_trans; [apply Rabs_triang|]. lra. }
  assert (X3 : 0 <= g * (1 + uro) * Rabs p) by (apply Rmult_le_pos; [apply Rmult_le_pos|]; lra). lra.
Qed.

(* ---- every way to add up is accurate ---- *)
Lemma evaluates_close l v : evaluates l v -> finite v -> all_finite l /\ close (length l) (exact l) (exact_abs l) (value v).
Proof.
  intros H. induction H as [s|x y|l m v w H1 IH1 H2 IH2|x y l v H IH|l v H IH|l m v P H IH]; intros F.
  - split; [constructor|]. unfold close. change (value (B754_zero s)) with 0. unfold exact, exact_abs. cbn. rewrite growth_0, under_0, Rminus_0_r, Rabs_R0. lra.
  - apply dmul_inv in F as (Fx & Fy & V). split; [repeat constructor; auto|]. rewrite V. rewrite exact_cons, exact_abs_cons. cbn [length].
    rewrite <- (Rplus_0_r (value x * value y)) at 3. apply close_fma; [unfold exact, exact_abs; cbn; rewrite Rabs_R0; lra|].
    unfold close, exact, exact_abs. cbn. rewrite growth_0, under_0, Rminus_0_r, Rabs_R0. lra.
  - apply dadd_inv in F as (Fv & Fw & V). destruct (IH1 Fv) as [A1 C1]. destruct (IH2 Fw) as [A2 C2]. split; [apply Forall_app; auto|].
    rewrite V, exact_app, exact_abs_app, app_length. apply close_add; auto using value_rep, exact_le; intros E; apply length_zero_iff_nil in E; rewrite E; reflexivity.
  - apply dfma_inv in F as (Fx & Fy & Fv & V). destruct (IH Fv) as [A C]. split; [constructor; auto|]. rewrite V, exact_cons, exact_abs_cons. cbn [length]. apply close_fma; auto using exact_le.
  - apply (proj1 (dopp_finite v)) in F. destruct (IH F) as [A C]. split.
    + unfold all_finite in *. rewrite Forall_map. eapply Forall_impl; [|exact A]. intros [x y] [Fx Fy]. cbn in *. rewrite dopp_finite. auto.
    + rewrite map_length, dopp_value. assert (E1 : exact (map (fun p => (dopp (fst p), snd p)) l) = - exact l).
      { clear. induction l as [|[x y] l IH]; unfold exact in *; cbn; [lra|]. unfold Rsum in IH. rewrite IH, dopp_value. lra. }
      assert (E2 : exact_abs (map (fun p => (dopp (fst p), snd p)) l) = exact_abs l).
      { clear. induction l as [|[x y] l IH]; unfold exact_abs in *; cbn; [lra|]. unfold Rsum in IH. rewrite IH, dopp_value, <- Rabs_Ropp. do 2 f_equal. lra. }
      rewrite E1, E2. unfold close in *. replace (- value v - - exact l) with (- (value v - exact l)) by ring. rewrite Rabs_Ropp. exact C.
  - destruct (IH F) as [A C]. split; [unfold all_finite in *; rewrite <- P; exact A|]. unfold exact, exact_abs in *.
    rewrite <- (Permutation_length P). rewrite <- (Rsum_perm _ _ (Permutation_map (fun p => value (fst p) * value (snd p)) P)), <- (Rsum_perm _ _ (Permutation_map (fun p => Rabs (value (fst p) * value (snd p))) P)). exact C.
Qed.

Definition bound (l : terms) : R := (1 + growth (length l)) * exact_abs l + underflow (length l).
Lemma bound_mono l m : (length l <= length m)%nat -> exact_abs l <= exact_abs m -> bound l <= bound m.
Proof.
  intros H1 H2. unfold bound. pose proof (growth_mono _ _ H1). pose proof (under_mono _ _ H1). pose proof (growth_nonneg (length l)). pose proof (exact_abs_nonneg' l).
  assert ((1 + growth (length l)) * exact_abs l <= (1 + growth (length m)) * exact_abs m) by (apply Rmult_le_compat; lra). lra.
Qed.
Lemma close_fits l x : close (length l) (exact l) (exact_abs l) (RN x) -> bound l < bpow radix2 1024 -> fits x.
Proof. intros C B. eapply Rle_lt_trans; [|exact B]. apply (close_le _ _ _ _ (exact_le l) C). Qed.
Lemma evaluates_finite l v : evaluates l v -> no_overflow l v.
Proof.
  unfold no_overflow. intros H. induction H as [s|x y|l m v w H1 IH1 H2 IH2|x y l v H IH|l v H IH|l m v P H IH]; intros A B.
  - reflexivity.
  - inversion A as [|? ? [Fx Fy] _]; subst. cbn [fst snd] in *. apply dmul_ok; auto. eapply (close_fits [(x, y)]); [|exact B].
    rewrite exact_cons, exact_abs_cons. cbn [length].
    rewrite <- (Rplus_0_r (value x * value y)) at 3. apply close_fma; [unfold exact, exact_abs; cbn; rewrite Rabs_R0; lra|].
    unfold close, exact, exact_abs. cbn. rewrite growth_0, under_0, Rminus_0_r, Rabs_R0. lra.
  - apply Forall_app in A as [A1 A2]. fold (bound (l ++ m)) in B. pose proof (exact_abs_nonneg' l). pose proof (exact_abs_nonneg' m).
    assert (Fv : finite v). { apply IH1; auto. eapply Rle_lt_trans; [|exact B]. apply bound_mono; [rewrite app_length; lia|rewrite exact_abs_app; lra]. }
    assert (Fw : finite w). { apply IH2; auto. eapply Rle_lt_trans; [|exact B]. apply bound_mono; [rewrite app_length; lia|rewrite exact_abs_app; lra]. }
    destruct (evaluates_close _ _ H1 Fv) as [_ C1]. destruct (evaluates_close _ _ H2 Fw) as [_ C2].
    apply dadd_ok; auto. apply (close_fits (l ++ m)); [|exact B].
    rewrite exact_app, exact_abs_app, app_length. apply close_add; auto using value_rep, exact_le; intros E; apply length_zero_iff_nil in E; rewrite E; reflexivity.
  - inversion A as [|? ? [Fx Fy] Al]; subst. cbn [fst snd] in *. fold (bound ((x, y) :: l)) in B. pose proof (Rabs_pos (value x * value y)).
    assert (Fv : finite v). { apply IH; auto. eapply Rle_lt_trans; [|exact B]. apply bound_mono; [cbn [length]; lia|rewrite exact_abs_cons; lra]. }
    destruct (evaluates_close _ _ H Fv) as [_ C]. apply dfma_ok; auto. apply (close_fits ((x, y) :: l)); [|exact B]. rewrite exact_cons, exact_abs_cons. cbn [length]. apply close_fma; auto using exact_le.
  - apply (proj2 (dopp_finite v)). apply IH.
    + unfold all_finite in *. rewrite Forall_map in A. eapply Forall_impl; [|exact A]. intros [x y] [Fx Fy]. cbn in *. rewrite dopp_finite in Fx. auto.
    + rewrite map_length in B. assert (E2 : exact_abs (map (fun p => (dopp (fst p), snd p)) l) = exact_abs l).
      { clear. induction l as [|[x y] l IH]; unfold exact_abs in *; cbn; [lra|]. unfold Rsum in IH. rewrite IH, dopp_value, <- Rabs_Ropp. do 2 f_equal. lra. }
      rewrite E2 in B. exact B.
  - apply IH; [unfold all_finite in *; rewrite P; exact A|]. unfold exact_abs in *.
    rewrite (Permutation_length P). rewrite (Rsum_perm _ _ (Permutation_map (fun p => Rabs (value (fst p) * value (snd p))) P)). exact B.
Qed.

(* ---- integers ---- *)
Lemma whole_fma x y v a b c : whole x a -> whole y b -> whole v c -> (Z.abs (a * b + c) <= 2 ^ 53)%Z -> whole (dfma x y v) (a * b + c).
Proof.
  intros [Fx Vx] [Fy Vy] [Fv Vv] H. assert (E : RN (value x * value y + value v) = IZR (a * b + c)).
  { rewrite Vx, Vy, Vv, <- mult_IZR, <- plus_IZR. apply RN_id. rewrite <- (Rmult_1_r (IZR (a * b + c))). apply (rep_int (a * b + c) 0); [exact H|lia]. }
  destruct (dfma_ok x y v Fx Fy Fv) as [F V].
  - unfold fits. rewrite E, <- abs_IZR. apply Rle_lt_trans with (IZR (2 ^ 53)); [apply IZR_le, H|]. change (IZR (2 ^ 53)) with (bpow radix2 53). apply bpow_lt. lia.
  - split; [exact F|]. rewrite V. exact E.
Qed.
Notation zprod zs := (fold_right Z.add 0%Z (map (fun p => (fst p * snd p)%Z) zs)).
Notation zabs zs := (fold_right Z.add 0%Z (map (fun p => Z.abs (fst p * snd p)) zs)).
Lemma zabs_prod zs : (Z.abs (zprod zs) <= zabs zs)%Z.
Proof. induction zs as [|p zs IH]; cbn; lia. Qed.
Lemma zprod_app a b : zprod (a ++ b) = (zprod a + zprod b)%Z.
Proof. induction a as [|p a IH]; cbn; lia. Qed.
Lemma zabs_app a b : zabs (a ++ b) = (zabs a + zabs b)%Z.
Proof. induction a as [|p a IH]; cbn; lia. Qed.
Lemma zsum_perm (l m : list Z) : Permutation l m -> fold_right Z.add 0%Z l = fold_right Z.add 0%Z m.
Proof. intros H. induction H; cbn; lia. Qed.
Lemma evaluates_whole l v : evaluates l v -> integer_exact l v.
Proof.
  unfold integer_exact. intros H. induction H as [s|x y|l m v w H1 IH1 H2 IH2|x y l v H IH|l v H IH|l m v P H IH]; intros zs HF B.
  - inversion HF; subst. split; reflexivity.
  - inversion HF as [|? z ? zs' Hz HF']; subst. inversion HF'; subst. destruct z as [a b], Hz as (F1 & V1 & F2 & V2). cbn in *. rewrite Z.add_0_r in *. apply whole_mul; [split| split|]; auto.
  - apply Forall2_app_inv_l in HF as (z1 & z2 & HF1 & HF2 & ->). rewrite zabs_app in B. rewrite zprod_app. pose proof (zabs_prod z1). pose proof (zabs_prod z2).
    apply whole_add; [apply IH1| apply IH2|]; auto; lia.
  - inversion HF as [|? z ? zs' Hz HF']; subst. destruct z as [a b], Hz as (F1 & V1 & F2 & V2). cbn [map fold_right fst snd] in *. pose proof (zabs_prod zs').
    apply whole_fma; [split|split|apply IH|]; auto; lia.
  - assert (HF' : Forall2 integer_pair l (map (fun z => (- fst z, snd z)%Z) zs)).
    { clear - HF. revert zs HF. induction l as [|[x y] l IH]; intros [|[a b] zs] HF; inversion HF as [|? ? ? ? Hz HF']; subst; constructor; auto.
      destruct Hz as (F1 & V1 & F2 & V2). cbn [fst snd] in *. rewrite dopp_finite in F1. rewrite dopp_value in V1. split; [exact F1|]. split; [|auto]. cbn [fst]. rewrite opp_IZR. lra. }
    destruct (IH _ HF') as [F V].
    + rewrite map_map. replace (map _ zs) with (map (fun p => Z.abs (fst p * snd p)) zs) by (apply map_ext; intros; cbn [fst snd]; lia). exact B.
    + split; [apply dopp_finite, F|]. rewrite dopp_value, V, <- opp_IZR. f_equal. rewrite map_map. clear. induction zs as [|p zs IH]; cbn [map fold_right fst snd] in *; [reflexivity|]. rewrite Z.mul_opp_l. lia.
  - destruct (Permutation_Forall2 (Permutation_sym P) HF) as (zs' & Pz & HF'). destruct (IH zs' HF') as [F V].
    + rewrite (zsum_perm _ _ (Permutation_map (fun p => Z.abs (fst p * snd p)) (Permutation_sym Pz))). exact B.
    + split; [exact F|]. rewrite V. f_equal. apply zsum_perm. apply Permutation_map, Permutation_sym, Pz.
Qed.
Lemma evaluates_rounded l v : evaluates l v -> rounded l v.
Proof. intros H. split; [exact (evaluates_close l v H)|]. split; [apply evaluates_finite, H|apply evaluates_whole, H]. Qed.

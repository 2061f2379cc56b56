(* C82: reductions of doubles: rounding, overflow and NaNs. *)
From Coq Require Import Reals Lra.
From Flocq Require Import Core BinarySingleNaN Relative.
From Verif Require Import Base Spec S_Reduce M_Tensor M_Reduce M_Double S_Double L_Double S_DoubleReduce M_DoubleReduce L_DoubleReduce S_Fold L_Fold L_Kron L_Reduce.
Local Open Scope R_scope.

(* a finite sum comes from finite numbers, and is close to the exact one *)
Theorem C82_sum : forall t, finite (sum_double t) ->
  Forall finite (data t) /\
  Rabs (value (sum_double t) - exact_sum (data t)) <= growth (List.length (data t) - 1) * exact_abs_sum (data t).
Proof. intros t H. apply sum_error, H. Qed.
Print Assumptions C82_sum.
(* it is finite unless the sum of the moduli is near the largest double *)
Theorem C82_sum_finite : forall t, Forall finite (data t) ->
  (1 + uro) ^ List.length (data t) * exact_abs_sum (data t) < bpow radix2 1024 -> finite (sum_double t).
Proof.
  intros t H B. destruct (dofZ_ok 0) as [Z1 Z2]; [lia|]. apply (sum_finite_from (data t) (dofZ 0)); auto. rewrite Z2, Rabs_R0, Rplus_0_l. exact B.
Qed.
Print Assumptions C82_sum_finite.
(* sums of integers are exact *)
Theorem C82_sum_integers : forall t (zs : list Z), Forall2 (fun x z => finite x /\ value x = IZR z) (data t) zs ->
  (fold_right Z.add 0 (map Z.abs zs) <= 2 ^ 53)%Z ->
  finite (sum_double t) /\ value (sum_double t) = IZR (fold_right Z.add 0%Z zs).
Proof.
  intros t zs H B. assert (Z0 : whole (dofZ 0) 0) by (apply dofZ_ok; lia). apply (fold_whole (data t) zs (dofZ 0) 0 H Z0). unfold Zsum. lia.
Qed.
Print Assumptions C82_sum_integers.

(* the parts of a sum of complex numbers are the sums of their parts *)
Theorem C82_sum_complex : forall t,
  sum_complex t = (sum_double (mkT (dims t) (map fst (data t))), sum_double (mkT (dims t) (map snd (data t)))).
Proof.
  intros t. unfold sum_complex, sum_double, sum. cbn [data nadd nzero Dnum].
  assert (G : forall l a b, fold_left cadd l (a, b) = (fold_left dadd (map fst l) a, fold_left dadd (map snd l) b)).
  { induction l as [|x l IH]; intros a b; [reflexivity|]. cbn [fold_left map]. apply IH. }
  apply G.
Qed.
Print Assumptions C82_sum_complex.

Theorem C82_scprod : forall a b r, List.length (data a) = List.length (data b) -> scprod_double a b = Ok r -> finite r ->
  Forall finite (data a) /\ Forall finite (data b) /\
  Rabs (value r - exact_dot (data a) (data b)) <=
    growth (List.length (data a)) * exact_abs_dot (data a) (data b) + (1 + growth (List.length (data a) - 1)) * INR (List.length (data a)) * tiny.
Proof.
  intros a b r HL E Hf. rewrite scprod_fold in E by auto. injection E as <-. destruct (sum_error _ Hf) as [F1 E1].
  destruct (products_error _ _ HL F1) as (Fa & Fb & E2 & E3). split; [exact Fa|]. split; [exact Fb|].
  assert (Ln : List.length (products (data a) (data b)) = List.length (data a)) by (unfold products; rewrite map_length, combine_length; lia). rewrite Ln in E1.
  set (n := List.length (data a)) in *. set (v := value _) in *. set (D := exact_abs_dot _ _) in *. pose proof (exact_abs_dot_nonneg (data a) (data b)) as HD. fold D in HD.
  assert (G : growth n * D = (growth (n - 1) * (1 + uro) + uro) * D \/ n = 0%nat).
  { destruct n as [|k]; [auto|left]. replace (S k - 1)%nat with k by lia. rewrite growth_S. ring. }
  pose proof (growth_nonneg (n - 1)) as Gn. pose proof uro_small as U. pose proof tiny_pos as T.
  assert (E4 : growth (n - 1) * exact_abs_sum (products (data a) (data b)) <= growth (n - 1) * ((1 + uro) * D + INR n * tiny)) by (apply Rmult_le_compat_l; auto).
  replace (v - exact_dot (data a) (data b)) with ((v - exact_sum (products (data a) (data b))) + (exact_sum (products (data a) (data b)) - exact_dot (data a) (data b))) by ring.
  eapply Rle_trans; [apply Rabs_triang|]. destruct G as [G|G].
  - rewrite G. nra.
  - assert (D0 : D = 0). { unfold D, exact_abs_dot. destruct (data a); [reflexivity|discriminate G]. } rewrite D0 in *. rewrite G in *. change (growth (0 - 1)) with (1 - 1) in *. cbn [INR] in *. change (growth 0) with (1 - 1). nra.
Qed.
Print Assumptions C82_scprod.
Lemma Forall2_len {A B} (P : A -> B -> Prop) l m : Forall2 P l m -> List.length l = List.length m.
Proof. intros H. induction H; cbn; congruence. Qed.
Theorem C82_scprod_integers : forall a b (zs : list (Z * Z)),
  Forall2 (fun x z => finite x /\ value x = IZR z) (data a) (map fst zs) ->
  Forall2 (fun x z => finite x /\ value x = IZR z) (data b) (map snd zs) ->
  (fold_right Z.add 0 (map (fun p => Z.abs (fst p * snd p)) zs) <= 2 ^ 53)%Z ->
  exists r, scprod_double a b = Ok r /\ finite r /\ value r = IZR (fold_right Z.add 0%Z (map (fun p => (fst p * snd p)%Z) zs)).
Proof.
  intros a b zs Ha Hb B. assert (La : List.length (data a) = List.length zs) by (apply Forall2_len in Ha; rewrite map_length in Ha; exact Ha).
  assert (Lb : List.length (data b) = List.length zs) by (apply Forall2_len in Hb; rewrite map_length in Hb; exact Hb).
  rewrite scprod_fold by lia. eexists. split; [reflexivity|]. assert (Z0 : whole (dofZ 0) 0) by (apply dofZ_ok; lia).
  assert (H : Forall2 whole (products (data a) (data b)) (map (fun p => (fst p * snd p)%Z) zs)).
  { clear La Lb. revert Ha Hb B. generalize (data a) as l, (data b) as m. clear. induction zs as [|[x y] zs IH]; intros l m Ha Hb B; inversion Ha; inversion Hb; subst; [constructor|].
    cbn in *. constructor.
    - apply whole_mul; auto. assert (0 <= fold_right Z.add 0 (map (fun p : Z * Z => Z.abs (fst p * snd p)) zs))%Z by (clear; induction zs as [|p zs IH]; cbn; lia). lia.
    - apply IH; auto. lia. }
  apply (fold_whole _ _ (dofZ 0) 0 H Z0). unfold Zsum. rewrite map_map. lia.
Qed.
Print Assumptions C82_scprod_integers.

Theorem C82_mean : forall t, (0 < Z.of_nat (List.length (data t)) <= 2 ^ 53)%Z -> finite (mean_double t) ->
  Forall finite (data t) /\
  Rabs (value (mean_double t) - exact_sum (data t) / INR (List.length (data t))) <=
    growth (List.length (data t)) * (exact_abs_sum (data t) / INR (List.length (data t))) + tiny.
Proof.
  intros t Hn Hf. set (n := List.length (data t)) in *. destruct (dofZ_ok (Z.of_nat n)) as [N1 N2]; [lia|]. rewrite <- INR_IZR_INZ in N2.
  assert (Np : 1 <= INR n) by (change 1 with (INR 1); apply le_INR; lia).
  destruct (ddiv_inv (sum_double t) (dofZ (Z.of_nat n)) N1 ltac:(lra) Hf) as [Fs V]. destruct (C82_sum t Fs) as [F E]. split; [exact F|].
  change (value (mean_double t)) with (value (ddiv (sum_double t) (dofZ (Z.of_nat n)))). rewrite V, N2. fold n in E.
  destruct (RN_error (value (sum_double t) / INR n)) as (d & e & Hd & He & Ed). rewrite Ed. set (v := value (sum_double t)) in *.
  pose proof (exact_sum_abs (data t)) as A. pose proof (exact_abs_nonneg (data t)) as P. set (x := exact_sum (data t)) in *. set (q := exact_abs_sum (data t)) in *.
  assert (G : growth n = growth (n - 1) * (1 + uro) + uro) by (destruct n as [|k]; [cbn in Np; lra|]; replace (S k - 1)%nat with k by lia; apply growth_S).
  rewrite G. pose proof (growth_nonneg (n - 1)) as Gn. set (g := growth (n - 1)) in *. pose proof uro_small as U. set (i := / INR n).
  assert (Ip : 0 < i) by (apply Rinv_0_lt_compat; lra). unfold Rdiv. fold i.
  replace (v * i * (1 + d) + e - x * i) with ((v - x) * i + v * i * d + e) by ring.
  assert (B1 : Rabs ((v - x) * i) <= g * q * i) by (rewrite Rabs_mult, (Rabs_pos_eq i) by lra; apply Rmult_le_compat_r; lra).
  assert (B2 : Rabs v <= (1 + g) * q).
  { replace v with (x + (v - x)) by ring. eapply Rle_trans; [apply Rabs_triang|]. lra. }
  assert (B3 : Rabs (v * i * d) <= (1 + g) * q * i * uro).
  { rewrite !Rabs_mult, (Rabs_pos_eq i) by lra. apply Rmult_le_compat; auto; [apply Rmult_le_pos; [apply Rabs_pos|lra]|apply Rabs_pos|]. apply Rmult_le_compat_r; lra. }
  pose proof (Rabs_triang ((v - x) * i + v * i * d) e). pose proof (Rabs_triang ((v - x) * i) (v * i * d)).
  replace ((g * (1 + uro) + uro) * (q * i)) with (g * q * i + (1 + g) * q * i * uro) by ring. lra.
Qed.
Print Assumptions C82_mean.

(* the 2-norm is the rounded square root of a number s close to the sum of the
   squares; when it is finite *)
Lemma least_positive x : rep x -> 0 < x -> bpow radix2 (-1074) <= x.
Proof.
  intros H Hx. rewrite fx_FLT in H. apply (generic_format_ge_bpow radix2 (FLT_exp (-1074) 53)); auto. intros e. unfold FLT_exp. lia.
Qed.
Lemma sqrt_error x : rep x -> 0 <= x -> exists d, Rabs d <= uro /\ RN (sqrt x) = sqrt x * (1 + d).
Proof.
  intros H Hx. destruct (Rle_lt_or_eq_dec 0 x Hx) as [Hp|<-].
  - pose proof (least_positive x H Hp) as L. assert (B : bpow radix2 (-537) <= sqrt x).
    { rewrite <- (sqrt_Rsqr (bpow radix2 (-537))) by apply bpow_ge_0. apply sqrt_le_1_alt. unfold Rsqr. rewrite <- bpow_plus. exact L. }
    destruct (relative_error_N_FLT_ex radix2 (-1074) 53 eq_refl (fun n => negb (Z.even n)) (sqrt x)) as (d & Hd & E).
    { rewrite Rabs_pos_eq by apply sqrt_pos. eapply Rle_trans; [|exact B]. apply bpow_le. lia. }
    exists d. split; [|unfold RN; rewrite fx_FLT; exact E]. eapply Rle_trans; [exact Hd|]. unfold uro. replace (bpow radix2 (-53)) with (/ 2 * bpow radix2 (-52)) by (cbn; lra). apply Rle_refl.
  - exists 0. rewrite Rabs_R0, sqrt_0, RN_0. pose proof uro_small. split; [lra|ring].
Qed.
Lemma sum_squares_pos l : Forall finite (products l l) -> forall s, finite (fold_left dadd (products l l) s) -> 0 <= value s -> 0 <= value (fold_left dadd (products l l) s).
Proof.
  intros H. induction l as [|x l IH]; intros s Hs P; [exact P|]. cbn in *. inversion H as [|? ? Fx Fl]; subst. apply IH; auto.
  destruct (fold_sum _ _ Hs) as (F & _). apply dadd_inv in F as (_ & _ & V). rewrite V. apply dmul_inv in Fx as (_ & _ & V2). rewrite V2.
  rewrite <- RN_0. apply RN_le. assert (0 <= RN (value x * value x)) by (rewrite <- RN_0; apply RN_le; nra). lra.
Qed.
Lemma squares_abs l : exact_abs_dot l l = exact_dot l l.
Proof.
  induction l as [|x l IH]; [reflexivity|]. change (exact_abs_dot (x :: l) (x :: l)) with (Rabs (value x * value x) + exact_abs_dot l l).
  change (exact_dot (x :: l) (x :: l)) with (value x * value x + exact_dot l l). rewrite IH, Rabs_pos_eq by nra. reflexivity.
Qed.
Theorem C82_norm2_partial : forall t r, norm2_double t = Ok r -> finite r ->
  Forall finite (data t) /\ exists s, 0 <= s /\
    Rabs (s - exact_dot (data t) (data t)) <=
      growth (List.length (data t)) * exact_dot (data t) (data t) + (1 + growth (List.length (data t) - 1)) * INR (List.length (data t)) * tiny /\
    (1 - uro) * sqrt s <= value r <= (1 + uro) * sqrt s.
Proof.
  intros t r E Hr. unfold norm2_double in E. rewrite scprod_fold in E by auto.
  set (q := fold_left dadd (products (data t) (data t)) (dofZ 0)) in *. assert (Er : r = dsqrt q) by (cbn [bind] in E; congruence). rewrite Er in *. clear Er r E.
  assert (Fq : finite q).
  { pose proof (@Bsqrt_correct 53 1024 prec53 prec53_1024 mode_NE q) as (_ & C & _). assert (Hr' : is_finite (@Bsqrt 53 1024 prec53 prec53_1024 mode_NE q) = true) by exact Hr. rewrite C in Hr'. clear Hr. unfold finite. destruct q as [s|s| |s m e Hm]; try discriminate; reflexivity. }
  destruct (C82_scprod t t q eq_refl (scprod_fold t t eq_refl) Fq) as (F & _ & B). rewrite squares_abs in B. split; [exact F|]. exists (value q).
  destruct (dofZ_ok 0) as [Z1 Z2]; [lia|]. destruct (sum_error _ Fq) as [Fp _].
  assert (P : 0 <= value q) by (apply sum_squares_pos; auto; rewrite Z2; lra). split; [exact P|]. split; [exact B|].
  destruct (dsqrt_ok q Fq P) as [_ V]. rewrite V. destruct (sqrt_error (value q) (value_rep q) P) as (d & Hd & ->). pose proof (sqrt_pos (value q)). apply Rabs_le_inv in Hd. split; nra.
Qed.
Print Assumptions C82_norm2_partial.
(* squares underflow and overflow although the norm is a double: the norm of a
   vector that is not zero is zero, and that of a finite one is infinite *)
Theorem C82_norm2_refuted :
  (exists r, norm2_double (mkT [1%nat] [dmake 1 (-600)]) = Ok r /\ finite r /\ value r = 0) /\
  (exists r, norm2_double (mkT [2%nat] [dmake 3 600; dmake 4 600]) = Ok r /\ ~ finite r).
Proof.
  split.
  - eexists. split; [vm_compute; reflexivity|]. split; reflexivity.
  - eexists. split; [vm_compute; reflexivity|]. discriminate.
Qed.
Print Assumptions C82_norm2_refuted.

(* max and min: if the first element is a NaN so is the result; otherwise it is
   the largest (least) of the elements that are not NaNs *)
Theorem C82_max : forall t x l, data t = x :: l ->
  exists m, max_double t = Ok m /\ In m (data t) /\
    (not_a_number x -> not_a_number m) /\
    (is_number x -> is_number m /\ forall y, In y (data t) -> is_number y -> dlt m y = false).
Proof.
  intros t x l E. unfold max_double, max. rewrite E. cbn [List.length Nat.eqb negb assert_ bind std_max_element]. eexists. split; [reflexivity|].
  destruct (is_nan x) eqn:Hx.
  - assert (G : fold_left (fun m y => if dlt m y then y else m) l x = x).
    { clear E. induction l as [|y l IH]; cbn [fold_left]; [reflexivity|]. rewrite (proj1 (nan_first x y Hx)). exact IH. }
    rewrite G. split; [left; auto|]. split; [auto|]. unfold is_number. congruence.
  - destruct (fold_max_double (fun y => y) l x Hx) as (A & B & C & D). set (r := fold_left _ l x) in *.
    split; [destruct B as [->|(y & Hy & _ & ->)]; [left|right]; auto|]. split; [unfold not_a_number; congruence|]. intros _. split; [exact A|].
    intros y [<-|Hy] Hn; apply dlt_false; auto.
Qed.
Print Assumptions C82_max.
Theorem C82_min : forall t x l, data t = x :: l ->
  exists m, min_double t = Ok m /\ In m (data t) /\
    (not_a_number x -> not_a_number m) /\
    (is_number x -> is_number m /\ forall y, In y (data t) -> is_number y -> dlt y m = false).
Proof.
  intros t x l E. unfold min_double, min. rewrite E. cbn [List.length Nat.eqb negb assert_ bind std_min_element]. eexists. split; [reflexivity|].
  destruct (is_nan x) eqn:Hx.
  - assert (G : fold_left (fun m y => if dlt y m then y else m) l x = x).
    { clear E. induction l as [|y l IH]; cbn [fold_left]; [reflexivity|]. rewrite (proj2 (nan_first x y Hx)). exact IH. }
    rewrite G. split; [left; auto|]. split; [auto|]. unfold is_number. congruence.
  - destruct (fold_min_double l x Hx) as (A & B & C & D). set (r := fold_left _ l x) in *.
    split; [destruct B as [->|B]; [left|right]; auto|]. split; [unfold not_a_number; congruence|]. intros _. split; [exact A|].
    intros y [<-|Hy] Hn; apply dlt_false; auto.
Qed.
Print Assumptions C82_min.
(* so the result depends on the place of the NaN *)
Theorem C82_max_nan_refuted :
  max_double (mkT [2%nat] [B754_nan; B754_zero false]) = Ok B754_nan /\ max_double (mkT [2%nat] [B754_zero false; B754_nan]) = Ok (B754_zero false).
Proof. split; reflexivity. Qed.
Print Assumptions C82_max_nan_refuted.

(* norm0 is the largest of the moduli that are not NaNs *)
Theorem C82_norm0 : forall t, let m := norm0_double t in
  is_number m /\ (m = dofZ 0 \/ exists x, In x (data t) /\ is_number x /\ m = dabs x) /\
  forall x, In x (data t) -> is_number x -> dlt m (dabs x) = false.
Proof.
  intros t. assert (Z0 : is_number (dofZ 0)) by reflexivity. destruct (fold_max_double dabs (data t) (dofZ 0) Z0) as (A & B & C & D).
  cbv zeta. unfold norm0_double, norm0. set (r := fold_left _ (data t) (dofZ 0)) in *. split; [exact A|]. split.
  - destruct B as [B|(x & Hx & Hn & B)]; [auto|right; exists x]. rewrite dabs_number in Hn. auto.
  - intros x Hx Hn. rewrite <- dabs_number in Hn. apply dlt_false; auto.
Qed.
Print Assumptions C82_norm0.
(* a tensor, or matrix, of NaNs only has norm zero: norm0(a - b) < epsilon holds *)
Theorem C82_norm0_nan_refuted : forall n,
  norm0_double (mkT [n] (repeat B754_nan n)) = dofZ 0 /\
  forall jaux, matrix_norminf_double jaux (mkT [1%nat; 1%nat] [B754_nan]) = Ok (dofZ 0).
Proof.
  intros n. split; [|intros; reflexivity]. unfold norm0_double, norm0. cbn [data]. induction n as [|n IH]; [reflexivity|]. cbn [repeat fold_left].
  exact IH.
Qed.
Print Assumptions C82_norm0_nan_refuted.

(* matrix_norminf *)
Definition row_total (l : list double) : double := fold_left (fun s x => dadd s (dabs x)) l (dofZ 0).
Lemma dadd_zero_abs x : dadd (dofZ 0) (dabs x) = dabs x.
Proof. destruct x as [s|s| |s m e Hm]; reflexivity. Qed.
Lemma rowsum_total (a : tensor double) r c i : wf a -> dims a = [r; c] -> (i < r)%nat ->
  rowsum Dnum Dnum dabs a c i = row_total (row_of a c i).
Proof.
  intros W D Hi. assert (Hl := wf_mat a r c W D). unfold rowsum, row_total, row_of. rewrite D. cbn [nth].
  assert (G : forall k, (k <= c)%nat -> sum_n Dnum k (fun j => dabs (val Dnum a [i; j])) =
    fold_left (fun s x => dadd s (dabs x)) (map (fun j => nth (i + r * j) (data a) B754_nan) (seq 0 k)) (dofZ 0)); [|apply G; lia].
  induction k as [|k IH]; intros Hk; [reflexivity|]. rewrite seq_S, map_app, fold_left_app. cbn [map fold_left Nat.add]. rewrite <- IH by lia.
  cbn [sum_n]. f_equal. f_equal. rewrite (val_mat Dnum a r c) by (auto; lia). unfold dat. destruct (nth_error_lt (data a) (i + r * k)) as [v Hv]; [rewrite Hl; nia|]. rewrite Hv, (nth_error_nth _ _ _ Hv). reflexivity.
Qed.
Lemma row_total_abs l : row_total l = fold_left dadd (map dabs l) (dofZ 0).
Proof. unfold row_total. generalize (dofZ 0). induction l as [|x l IH]; intros s; cbn; auto. Qed.
Lemma dabs_value x : value (dabs x) = Rabs (value x).
Proof. apply B2R_Babs. Qed.
Lemma dabs_finite x : finite (dabs x) <-> finite x.
Proof. unfold finite, dabs. rewrite is_finite_Babs. tauto. Qed.
Lemma abs_sum_abs l : exact_sum (map dabs l) = exact_abs_sum l /\ exact_abs_sum (map dabs l) = exact_abs_sum l.
Proof.
  unfold exact_sum, exact_abs_sum. rewrite !map_map. split; f_equal; apply map_ext; intros x; rewrite dabs_value; [reflexivity|]. apply Rabs_pos_eq, Rabs_pos.
Qed.
Lemma Forall_map_iff {A B} (f : A -> B) (P : B -> Prop) l : Forall P (map f l) <-> Forall (fun x => P (f x)) l.
Proof. rewrite !Forall_forall. split; intros H x Hx; [apply H, in_map, Hx|]. apply in_map_iff in Hx as (y & <- & Hy). auto. Qed.
(* the total of a row is a NaN, an infinity, or close to the exact one *)
Lemma row_total_close l : finite (row_total l) ->
  Forall finite l /\ Rabs (value (row_total l) - exact_abs_sum l) <= growth (List.length l - 1) * exact_abs_sum l.
Proof.
  rewrite row_total_abs. intros H. destruct (sum_error _ H) as [F E]. destruct (abs_sum_abs l) as [S1 S2]. rewrite S1, S2, map_length in E. split; [|exact E].
  rewrite Forall_map_iff in F. eapply Forall_impl; [|exact F]. intros x. apply dabs_finite.
Qed.
Definition posinf (x : double) : Prop := x = B754_infinity false.
Lemma dadd_upper x y : (finite x /\ 0 <= value x) \/ posinf x -> (finite y /\ 0 <= value y) \/ posinf y -> (finite (dadd x y) /\ 0 <= value (dadd x y)) \/ posinf (dadd x y).
Proof.
  unfold posinf. intros [[Fx Hx]| ->] [[Fy Hy]| ->]; [| | |right; reflexivity].
  - destruct (Rlt_le_dec (Rabs (RN (value x + value y))) (bpow radix2 1024)) as [B|B].
    + destruct (dadd_ok x y Fx Fy B) as [F V]. left. split; [exact F|]. rewrite V. rewrite <- RN_0. apply RN_le. lra.
    + right. pose proof (@Bplus_correct 53 1024 prec53 prec53_1024 mode_NE x y Fx Fy) as C. fold (value x) (value y) in C.
      change (round radix2 (SpecFloat.fexp 53 1024) (round_mode mode_NE) (value x + value y)) with (RN (value x + value y)) in C.
      rewrite Rlt_bool_false in C by exact B. destruct C as [C S]. apply B2SF_inj. etransitivity; [exact C|].
      assert (Sg : Bsign x = false).
      { destruct (Bsign x) eqn:Sx; [|reflexivity]. exfalso.
        assert (Nx : value x <= 0). { clear -Sx. destruct x as [s|s| |s m e Hm]; unfold value; cbn in *; try lra. subst s. apply F2R_le_0. cbn. lia. }
        assert (Ny : value y <= 0). { symmetry in S. clear -S. destruct y as [s|s| |s m e Hm]; unfold value; cbn in *; try lra. subst s. apply F2R_le_0. cbn. lia. }
        replace (value x + value y) with 0 in B by lra. rewrite RN_0, Rabs_R0 in B. pose proof (bpow_gt_0 radix2 1024). lra. }
      rewrite Sg. reflexivity.
  - right. destruct x as [s|s| |s m e Hm]; try discriminate; reflexivity.
  - right. destruct y as [s|s| |s m e Hm]; try discriminate; reflexivity.
Qed.
Lemma row_total_upper l : Forall finite l -> (finite (row_total l) /\ 0 <= value (row_total l)) \/ posinf (row_total l).
Proof.
  intros H. unfold row_total. assert (Z : (finite (dofZ 0) /\ 0 <= value (dofZ 0)) \/ posinf (dofZ 0)) by (left; destruct (dofZ_ok 0) as [A B]; [lia|rewrite B; split; [exact A|lra]]).
  revert Z. generalize (dofZ 0). induction H as [|x l Fx Fl IH]; intros s Hs; cbn [fold_left]; [exact Hs|]. apply IH, dadd_upper; [exact Hs|].
  left. split; [apply dabs_finite, Fx|]. rewrite dabs_value. apply Rabs_pos.
Qed.
Lemma norminf_total jaux a r c : wf a -> dims a = [r; c] -> (0 < c)%nat ->
  matrix_norminf_double jaux a = Ok (fold_left (fun v i => if dlt v (row_total (row_of a c i)) then row_total (row_of a c i) else v) (seq 0 r) (dofZ 0)).
Proof.
  intros W D Hc. unfold matrix_norminf_double. change (dofZ 0) with (nzero Dnum) at 1. change dadd with (nadd Dnum).
  rewrite (norminf_fold Dnum Dnum dlt dabs dadd_zero_abs jaux a r c W D Hc). f_equal.
  assert (G : forall l v, (forall i, In i l -> (i < r)%nat) ->
    fold_left (fun v i => if dlt v (rowsum Dnum Dnum dabs a c i) then rowsum Dnum Dnum dabs a c i else v) l v =
    fold_left (fun v i => if dlt v (row_total (row_of a c i)) then row_total (row_of a c i) else v) l v).
  { induction l as [|i l IH]; intros v H; [reflexivity|]. cbn [fold_left]. rewrite (rowsum_total a r c i W D) by (apply H; left; reflexivity). apply IH. intros j Hj. apply H. right. exact Hj. }
  apply G. intros i Hi. apply in_seq in Hi. lia.
Qed.
Lemma Rmax_list_ge l x : In x l -> x <= fold_right Rmax 0 l.
Proof. induction l as [|y l IH]; [intros []|]. cbn. intros [->|H]; [apply Rmax_l|]. eapply Rle_trans; [apply IH, H|apply Rmax_r]. Qed.
Lemma Rmax_list_in l : fold_right Rmax 0 l = 0 \/ In (fold_right Rmax 0 l) l.
Proof. induction l as [|y l IH]; [auto|]. cbn. set (m := fold_right Rmax 0 l) in *. unfold Rmax. destruct (Rle_dec y m); [|right; left; reflexivity]. destruct IH; [left|right; right]; auto. Qed.

(* the norm is the greatest of the computed totals of the rows that are not
   NaNs, and zero if there are none *)
Theorem C82_norminf_rows : forall jaux a r c, wf a -> dims a = [r; c] -> (0 < c)%nat ->
  exists v, matrix_norminf_double jaux a = Ok v /\ is_number v /\
    (v = dofZ 0 \/ exists i, (i < r)%nat /\ v = row_total (row_of a c i)) /\
    forall i, (i < r)%nat -> is_number (row_total (row_of a c i)) -> dlt v (row_total (row_of a c i)) = false.
Proof.
  intros jaux a r c W D Hc. rewrite (norminf_total jaux a r c W D Hc). eexists. split; [reflexivity|].
  assert (Z0 : is_number (dofZ 0)) by reflexivity.
  assert (G : forall n, let v := fold_left (fun v i => if dlt v (row_total (row_of a c i)) then row_total (row_of a c i) else v) (seq 0 n) (dofZ 0) in
    is_number v /\ (v = dofZ 0 \/ exists i, (i < n)%nat /\ v = row_total (row_of a c i)) /\
    forall i, (i < n)%nat -> is_number (row_total (row_of a c i)) -> place (row_total (row_of a c i)) <= place v).
  { induction n as [|n IH]; [split; [exact Z0|]; split; [left; reflexivity|intros; lia]|]. cbv zeta in *. rewrite seq_S, fold_left_app. cbn [fold_left Nat.add].
    set (v := fold_left _ (seq 0 n) _) in *. destruct IH as (A & B & C). destruct (dlt v _) eqn:E.
    - apply dlt_true in E as (_ & Hn & L). split; [exact Hn|]. split; [right; exists n; split; [lia|reflexivity]|].
      intros i Hi Hin. destruct (Nat.eq_dec i n) as [->|]; [lra|]. specialize (C i ltac:(lia) Hin). lra.
    - split; [exact A|]. split; [destruct B as [B|(i & Hi & B)]; [left; exact B|right; exists i; split; [lia|exact B]]|].
      intros i Hi Hin. destruct (Nat.eq_dec i n) as [->|]; [apply dlt_false in E; auto|]. apply C; [lia|exact Hin]. }
  destruct (G r) as (A & B & C). split; [exact A|]. split; [exact B|]. intros i Hi Hn. apply dlt_false; auto.
Qed.
Print Assumptions C82_norminf_rows.
(* of a matrix of finite numbers it is close to the exact norm when it is finite,
   and it is finite unless the exact norm is near the largest double *)
Theorem C82_norminf : forall jaux a r c, wf a -> dims a = [r; c] -> (0 < c)%nat -> Forall finite (data a) ->
  exists v, matrix_norminf_double jaux a = Ok v /\
    (finite v -> Rabs (value v - exact_norminf a r c) <= growth (c - 1) * exact_norminf a r c) /\
    ((1 + uro) ^ c * exact_norminf a r c < bpow radix2 1024 -> finite v).
Proof.
  intros jaux a r c W D Hc F. destruct (C82_norminf_rows jaux a r c W D Hc) as (v & E & Hn & Hin & Hmax). exists v. split; [exact E|].
  assert (Hl := wf_mat a r c W D).
  assert (Fr : forall i, (i < r)%nat -> Forall finite (row_of a c i)).
  { intros i Hi. unfold row_of. rewrite D. cbn [nth]. apply Forall_map_iff. rewrite Forall_forall in *. intros j Hj. apply in_seq in Hj. apply F. apply nth_In. rewrite Hl. nia. }
  assert (Lr : forall i, List.length (row_of a c i) = c) by (intros i; unfold row_of; rewrite map_length, seq_length; reflexivity).
  assert (Nr : forall i, (i < r)%nat -> is_number (row_total (row_of a c i))).
  { intros i Hi. destruct (row_total_upper _ (Fr i Hi)) as [[X _]|X]; [|rewrite X; reflexivity]. unfold is_number. destruct (row_total (row_of a c i)); try discriminate; reflexivity. }
  assert (Ge : forall i, (i < r)%nat -> exact_abs_sum (row_of a c i) <= exact_norminf a r c).
  { intros i Hi. apply Rmax_list_ge. apply (in_map (fun i => exact_abs_sum (row_of a c i))), in_seq. lia. }
  assert (P : 0 <= exact_norminf a r c).
  { unfold exact_norminf. destruct (Rmax_list_in (map (fun i => exact_abs_sum (row_of a c i)) (seq 0 r))) as [->|H]; [lra|]. apply in_map_iff in H as (i & <- & _). apply exact_abs_nonneg. }
  split.
  - intros Fv. destruct (finite_place v Fv) as [Pv Bv].
    assert (Fin : forall i, (i < r)%nat -> finite (row_total (row_of a c i))).
    { intros i Hi. destruct (row_total_upper _ (Fr i Hi)) as [[X _]|X]; [exact X|]. pose proof (Hmax i Hi (Nr i Hi)) as M. apply dlt_false in M; auto. rewrite X in M. cbn [place] in M. lra. }
    assert (Up : forall i, (i < r)%nat -> value (row_total (row_of a c i)) <= value v).
    { intros i Hi. pose proof (Hmax i Hi (Nr i Hi)) as M. apply dlt_false in M; auto. rewrite (proj1 (finite_place _ (Fin i Hi))), Pv in M. exact M. }
    pose proof (growth_nonneg (c - 1)) as G. set (M := exact_norminf a r c) in *.
    assert (Cl : forall i, (i < r)%nat -> Rabs (value (row_total (row_of a c i)) - exact_abs_sum (row_of a c i)) <= growth (c - 1) * M).
    { intros i Hi. destruct (row_total_close _ (Fin i Hi)) as [_ C]. rewrite Lr in C. eapply Rle_trans; [exact C|]. apply Rmult_le_compat_l; auto. }
    apply Rabs_le. split.
    + (* from below: the row of the exact maximum *)
      assert (Low : M = 0 \/ exists i, (i < r)%nat /\ M = exact_abs_sum (row_of a c i)).
      { unfold M, exact_norminf. destruct (Rmax_list_in (map (fun i => exact_abs_sum (row_of a c i)) (seq 0 r))) as [H|H]; [left; exact H|right].
        apply in_map_iff in H as (i & Hi & H). apply in_seq in H. exists i. split; [lia|]. symmetry. exact Hi. }
      assert (V0 : 0 <= value v).
      { destruct Hin as [->|(i & Hi & ->)]; [destruct (dofZ_ok 0) as [_ ->]; [lia|lra]|]. destruct (row_total_upper _ (Fr i Hi)) as [[_ X]|X]; [exact X|]. specialize (Fin i Hi). rewrite X in Fin. discriminate. }
      destruct Low as [L|(i & Hi & L)]; [rewrite L in *; nra|]. specialize (Cl i Hi). specialize (Up i Hi). rewrite <- L in Cl. apply Rabs_le_inv in Cl. lra.
    + destruct Hin as [->|(i & Hi & ->)]; [destruct (dofZ_ok 0) as [_ ->]; [lia|nra]|]. specialize (Cl i Hi). specialize (Ge i Hi). apply Rabs_le_inv in Cl. lra.
  - intros B. destruct Hin as [->|(i & Hi & ->)]; [apply dofZ_ok; lia|]. rewrite row_total_abs. apply sum_finite_from.
    + apply dofZ_ok. lia.
    + apply Forall_map_iff. eapply Forall_impl; [|apply (Fr i Hi)]. intros x. apply dabs_finite.
    + destruct (dofZ_ok 0) as [_ ->]; [lia|]. destruct (abs_sum_abs (row_of a c i)) as [_ ->]. rewrite map_length, Lr, Rabs_R0, Rplus_0_l.
      eapply Rle_lt_trans; [|exact B]. apply Rmult_le_compat_l; [|apply Ge, Hi]. pose proof uro_small. apply pow_le. lra.
Qed.
Print Assumptions C82_norminf.
Example C82_norminf_meets : let a := mkT [2%nat; 2%nat] [dofZ 3; dofZ (-1); dofZ (-4); dofZ 2] in
  wf a /\ Forall finite (data a) /\ exact_norminf a 2 2 = 7.
Proof.
  cbv zeta. split; [reflexivity|]. split; [repeat constructor|]. unfold exact_norminf, row_of, exact_abs_sum. cbn [data dims seq map nth Nat.add Nat.mul Rsum fold_right].
  assert (V : forall z, (Z.abs z <= 2 ^ 53)%Z -> value (dofZ z) = IZR z) by (intros z Hz; apply dofZ_ok, Hz). rewrite !V by lia.
  rewrite !(Rabs_pos_eq (IZR _)) by (apply IZR_le; lia) || idtac. unfold Rmax. repeat destruct (Rle_dec _ _); unfold Rabs in *; repeat destruct (Rcase_abs _); lra.
Qed.

(* sort: a permutation in order, when there are no NaNs; both zeros are allowed *)
Theorem C82_sort_partial : forall std_sort t reverse, is_std_sort std_sort -> Forall is_number (data t) ->
  let s := sort_double std_sort t reverse in
  dims s = dims t /\ Permutation (data t) (data s) /\ ordered (if reverse then (fun x y => dlt y x) else dlt) (data s).
Proof.
  intros std_sort t reverse Hs Hn. cbv zeta. unfold sort_double, sort. split; [reflexivity|]. cbn [data]. pose proof (dlt_weak _ Hn) as W.
  destruct reverse; [|apply Hs, W]. apply Hs. destruct W as (W1 & W2 & W3). split; [exact W1|]. split.
  - intros x y z Hx Hy Hz H1 H2. apply (W2 z y x); auto.
  - intros x y z Hx Hy Hz H1 H2 H3 H4. destruct (W3 x y z Hx Hy Hz H2 H1 H4 H3). auto.
Qed.
Print Assumptions C82_sort_partial.
(* with a NaN the order is not the one std::sort asks for *)
Theorem C82_sort_nan_refuted : exists l : list double, In B754_nan l /\ ~ strict_weak dlt l.
Proof.
  exists [dofZ 1; B754_nan; dofZ 2]. split; [right; left; reflexivity|]. intros (_ & _ & W).
  destruct (W (dofZ 1) B754_nan (dofZ 2)) as [W1 _]; try (cbn; tauto). vm_compute in W1. discriminate.
Qed.
Print Assumptions C82_sort_nan_refuted.

Example C82_meets :
  let t := mkT [3%nat] [dofZ 3; dofZ (-5); dofZ 4] in
  finite (sum_double t) /\ Forall finite (data t) /\ finite (mean_double t) /\ Forall is_number (data t) /\ is_std_sort (@insertion_sort double) /\
  Forall2 (fun x z => finite x /\ value x = IZR z) (data t) [3; -5; 4]%Z /\
  (exists r, scprod_double t t = Ok r /\ finite r) /\ (exists r, norm2_double t = Ok r /\ finite r).
Proof.
  cbv zeta. split; [reflexivity|]. split; [repeat constructor|]. split; [reflexivity|]. split; [repeat constructor|].
  split; [intros lt l Hw; apply insertion_sort_ok; auto|]. split; [repeat constructor; apply dofZ_ok; lia|].
  split; (eexists; split; [reflexivity|reflexivity]).
Qed.

(* Lemmas about reductions of doubles. *)
From Coq Require Import Reals Lra.
From Flocq Require Import Core BinarySingleNaN.
From Verif Require Import Base Spec S_Reduce M_Tensor M_Reduce M_Double S_Double L_Double S_DoubleReduce M_DoubleReduce.
Local Open Scope R_scope.

(* ---- a finite result has finite operands ---- *)
Lemma dadd_inv x y : finite (dadd x y) -> finite x /\ finite y /\ value (dadd x y) = RN (value x + value y).
Proof.
  intros H. assert (F : finite x /\ finite y).
  { unfold finite in *. destruct x as [sx|sx| |sx mx ex Hx], y as [sy|sy| |sy my ey Hy]; auto; try discriminate.
    unfold dadd in H. cbn in H. destruct (Bool.eqb sx sy); discriminate. }
  destruct F as [Fx Fy]. split; [exact Fx|]. split; [exact Fy|].
  pose proof (@Bplus_correct 53 1024 prec53 prec53_1024 mode_NE x y Fx Fy) as C.
  change (round_mode mode_NE) with ZnearestE in C. change (SpecFloat.fexp 53 1024) with fx in C.
  destruct (Rlt_bool _ _); [apply C|]. destruct C as [C _]. exfalso. unfold finite, dadd in H.
  rewrite <- is_finite_SF_B2SF in H. rewrite C in H. unfold binary_overflow in H. destruct (Bsign x); discriminate.
Qed.
Lemma dmul_inv x y : finite (dmul x y) -> finite x /\ finite y /\ value (dmul x y) = RN (value x * value y).
Proof.
  intros H. assert (F : finite x /\ finite y).
  { unfold finite in *. destruct x as [sx|sx| |sx mx ex Hx], y as [sy|sy| |sy my ey Hy]; auto; discriminate. }
  destruct F as [Fx Fy]. split; [exact Fx|]. split; [exact Fy|].
  pose proof (@Bmult_correct 53 1024 prec53 prec53_1024 mode_NE x y) as C.
  change (round_mode mode_NE) with ZnearestE in C. change (SpecFloat.fexp 53 1024) with fx in C.
  destruct (Rlt_bool _ _); [apply C|]. exfalso. unfold finite, dmul in H.
  rewrite <- is_finite_SF_B2SF in H. rewrite C in H. unfold binary_overflow in H. destruct (xorb _ _); discriminate.
Qed.
Lemma ddiv_inv x y : finite y -> value y <> 0 -> finite (ddiv x y) -> finite x /\ value (ddiv x y) = RN (value x / value y).
Proof.
  intros Fy Hy H. assert (Fx : finite x).
  { unfold finite in *. destruct x as [sx|sx| |sx mx ex Hx], y as [sy|sy| |sy my ey Hy']; auto; discriminate. }
  split; [exact Fx|].
  pose proof (@Bdiv_correct 53 1024 prec53 prec53_1024 mode_NE x y Hy) as C.
  change (round_mode mode_NE) with ZnearestE in C. change (SpecFloat.fexp 53 1024) with fx in C.
  destruct (Rlt_bool _ _); [apply C|]. exfalso. unfold finite, ddiv in H.
  rewrite <- is_finite_SF_B2SF in H. rewrite C in H. unfold binary_overflow in H. destruct (xorb _ _); discriminate.
Qed.

(* ---- sums ---- *)
Lemma growth_nonneg k : 0 <= growth k.
Proof. unfold growth. pose proof uro_small. assert (1 <= (1 + uro) ^ k) by (apply pow_R1_Rle; lra). lra. Qed.
Lemma growth_S k : growth (S k) = growth k * (1 + uro) + uro.
Proof. unfold growth. cbn [pow]. ring. Qed.
Lemma growth_mono k m : (k <= m)%nat -> growth k <= growth m.
Proof. intros H. unfold growth. pose proof uro_small. assert ((1 + uro) ^ k <= (1 + uro) ^ m) by (apply Rle_pow; [lra|exact H]). lra. Qed.
Lemma Rsum_nonneg l : (forall x, In x l -> 0 <= x) -> 0 <= Rsum l.
Proof. induction l as [|x l IH]; cbn; intros H; [lra|]. assert (0 <= x) by auto. assert (0 <= Rsum l) by auto. unfold Rsum in *. lra. Qed.
Lemma exact_abs_nonneg l : 0 <= exact_abs_sum l.
Proof. apply Rsum_nonneg. intros x H. apply in_map_iff in H as (y & <- & _). apply Rabs_pos. Qed.
Lemma exact_sum_abs l : Rabs (exact_sum l) <= exact_abs_sum l.
Proof.
  induction l as [|x l IH]; cbn; [rewrite Rabs_R0; lra|]. unfold exact_sum, exact_abs_sum in *. cbn. eapply Rle_trans; [apply Rabs_triang|].
  unfold Rsum in IH. lra.
Qed.

Lemma fold_sum l s : finite (fold_left dadd l s) ->
  finite s /\ Forall finite l /\
  Rabs (value (fold_left dadd l s) - (value s + exact_sum l)) <= growth (List.length l) * (Rabs (value s) + exact_abs_sum l).
Proof.
  revert s. induction l as [|y l IH]; intros s H; cbn [fold_left] in *.
  - split; [exact H|]. split; [constructor|]. unfold growth, exact_sum, exact_abs_sum. cbn. replace (value s - (value s + 0)) with 0 by ring. rewrite Rabs_R0. lra.
  - destruct (IH _ H) as (F & Fl & E). apply dadd_inv in F as (Fs & Fy & V). split; [exact Fs|]. split; [constructor; auto|].
    destruct (RN_plus_error (value s) (value y) (value_rep s) (value_rep y)) as (d & Hd & Ed). rewrite V, Ed in E.
    change (exact_sum (y :: l)) with (value y + exact_sum l). change (exact_abs_sum (y :: l)) with (Rabs (value y) + exact_abs_sum l).
    cbn [List.length]. rewrite growth_S. set (f := value (fold_left dadd l (dadd s y))) in *.
    pose proof (growth_nonneg (List.length l)) as G. set (g := growth (List.length l)) in *. pose proof (exact_abs_nonneg l) as P. set (S := exact_abs_sum l) in *.
    pose proof uro_small as U. assert (Ha : Rabs (value s + value y) <= Rabs (value s) + Rabs (value y)) by apply Rabs_triang.
    pose proof (Rabs_pos (value s + value y)) as Hp. set (a := value s + value y) in *.
    assert (H1 : Rabs (a * (1 + d)) <= Rabs a * (1 + uro)).
    { rewrite Rabs_mult. apply Rmult_le_compat_l; [exact Hp|]. apply Rabs_le_inv in Hd. apply Rabs_le. lra. }
    assert (H2 : Rabs (f - (value s + (value y + exact_sum l))) <= Rabs (f - (a * (1 + d) + exact_sum l)) + Rabs (a * d)).
    { replace (f - (value s + (value y + exact_sum l))) with ((f - (a * (1 + d) + exact_sum l)) + a * d) by (unfold a; ring). apply Rabs_triang. }
    assert (H3 : Rabs (a * d) <= Rabs a * uro) by (rewrite Rabs_mult; apply Rmult_le_compat_l; auto).
    set (b := Rabs (value s) + Rabs (value y)) in *. replace (Rabs (value s) + (Rabs (value y) + S)) with (b + S) by (unfold b; ring).
    assert (H4 : g * (Rabs (a * (1 + d)) + S) <= g * (b * (1 + uro) + S)) by (apply Rmult_le_compat_l; [exact G|nra]).
    assert (H5 : Rabs a * uro <= b * uro) by nra. assert (H6 : 0 <= g * S * uro) by (apply Rmult_le_pos; [apply Rmult_le_pos|]; lra). nra.
Qed.
(* starting from zero the first addition is exact *)
Lemma zero_plus x : finite x -> finite (dadd (dofZ 0) x) /\ value (dadd (dofZ 0) x) = value x.
Proof.
  intros H. destruct (dofZ_ok 0) as [Z1 Z2]; [lia|]. assert (E : RN (value (dofZ 0) + value x) = value x) by (rewrite Z2, Rplus_0_l; apply RN_id, value_rep).
  destruct (dadd_ok (dofZ 0) x Z1 H) as [A B]; [unfold fits; rewrite E; apply abs_B2R_lt_emax|]. rewrite B. auto.
Qed.
Lemma sum_error l : finite (fold_left dadd l (dofZ 0)) ->
  Forall finite l /\ Rabs (value (fold_left dadd l (dofZ 0)) - exact_sum l) <= growth (List.length l - 1) * exact_abs_sum l.
Proof.
  destruct l as [|x l]; cbn [fold_left]; intros H.
  - split; [constructor|]. destruct (dofZ_ok 0) as [_ Z]; [lia|]. rewrite Z. unfold exact_sum, exact_abs_sum, growth. cbn. rewrite Rminus_0_r, Rabs_R0. lra.
  - destruct (fold_sum l _ H) as (F & Fl & E). apply dadd_inv in F as (_ & Fx & _). destruct (zero_plus x Fx) as [_ V]. rewrite V in E.
    split; [constructor; auto|]. cbn [List.length]. replace (S (List.length l) - 1)%nat with (List.length l) by lia. exact E.
Qed.
(* no overflow when the sum of the moduli is not too large *)
Lemma sum_finite_from l s : finite s -> Forall finite l -> (1 + uro) ^ List.length l * (Rabs (value s) + exact_abs_sum l) < bpow radix2 1024 -> finite (fold_left dadd l s).
Proof.
  revert s. induction l as [|y l IH]; intros s Hs Hl H; cbn [fold_left]; [exact Hs|]. inversion Hl as [|? ? Fy Fl]; subst.
  change (exact_abs_sum (y :: l)) with (Rabs (value y) + exact_abs_sum l) in H. cbn [List.length pow] in H.
  destruct (RN_plus_error (value s) (value y) (value_rep s) (value_rep y)) as (d & Hd & Ed). pose proof uro_small as U. pose proof (exact_abs_nonneg l) as P.
  assert (G : 1 <= (1 + uro) ^ List.length l) by (apply pow_R1_Rle; lra). set (g := (1 + uro) ^ List.length l) in *.
  assert (B : Rabs (RN (value s + value y)) <= (1 + uro) * (Rabs (value s) + Rabs (value y))).
  { rewrite Ed, Rabs_mult. rewrite Rmult_comm. apply Rmult_le_compat; try apply Rabs_pos; [|apply Rabs_triang]. apply Rabs_le_inv in Hd. apply Rabs_le. lra. }
  set (q := Rabs (value s) + Rabs (value y)) in *. set (top := bpow radix2 1024) in *. assert (Q : 0 <= q) by (unfold q; pose proof (Rabs_pos (value s)); pose proof (Rabs_pos (value y)); lra).
  replace (Rabs (value s) + (Rabs (value y) + exact_abs_sum l)) with (q + exact_abs_sum l) in H by (unfold q; ring). set (S := exact_abs_sum l) in *.
  assert (K : (1 + uro) * q + S <= (1 + uro) * (q + S)) by nra.
  assert (K2 : g * ((1 + uro) * q + S) < top).
  { eapply Rle_lt_trans; [|exact H]. replace ((1 + uro) * g * (q + S)) with (g * ((1 + uro) * (q + S))) by ring. apply Rmult_le_compat_l; lra. }
  assert (W : 0 <= (1 + uro) * q + S) by nra. set (w := (1 + uro) * q + S) in *. assert (K3 : w <= g * w) by nra.
  destruct (dadd_ok s y Hs Fy) as [F V]; [unfold fits; fold top; unfold w in *; lra|]. apply IH; auto. fold top. rewrite V. eapply Rle_lt_trans; [|exact K2].
  apply Rmult_le_compat_l; unfold w; lra.
Qed.
(* integers *)
Definition whole (x : double) (z : Z) : Prop := finite x /\ value x = IZR z.
Lemma whole_add x y a b : whole x a -> whole y b -> (Z.abs (a + b) <= 2 ^ 53)%Z -> whole (dadd x y) (a + b).
Proof.
  intros [Fx Vx] [Fy Vy] H. assert (E : RN (value x + value y) = IZR (a + b)).
  { rewrite Vx, Vy, <- plus_IZR. apply RN_id. rewrite <- (Rmult_1_r (IZR (a + b))). apply (rep_int (a + b) 0); [exact H|lia]. }
  destruct (dadd_ok x y Fx Fy) as [F V].
  - unfold fits. rewrite E, <- abs_IZR. apply Rle_lt_trans with (IZR (2 ^ 53)); [apply IZR_le, H|]. change (IZR (2 ^ 53)) with (bpow radix2 53). apply bpow_lt. lia.
  - split; [exact F|]. rewrite V. exact E.
Qed.
Lemma whole_mul x y a b : whole x a -> whole y b -> (Z.abs (a * b) <= 2 ^ 53)%Z -> whole (dmul x y) (a * b).
Proof.
  intros [Fx Vx] [Fy Vy] H. assert (E : RN (value x * value y) = IZR (a * b)).
  { rewrite Vx, Vy, <- mult_IZR. apply RN_id. rewrite <- (Rmult_1_r (IZR (a * b))). apply (rep_int (a * b) 0); [exact H|lia]. }
  destruct (dmul_ok x y Fx Fy) as [F V].
  - unfold fits. rewrite E, <- abs_IZR. apply Rle_lt_trans with (IZR (2 ^ 53)); [apply IZR_le, H|]. change (IZR (2 ^ 53)) with (bpow radix2 53). apply bpow_lt. lia.
  - split; [exact F|]. rewrite V. exact E.
Qed.
Definition Zsum (l : list Z) : Z := fold_right Z.add 0%Z l.
Lemma Zsum_abs l : (Z.abs (Zsum l) <= Zsum (map Z.abs l))%Z.
Proof. induction l as [|x l IH]; cbn; [lia|]. unfold Zsum in *. lia. Qed.
Lemma fold_whole l zs s z : Forall2 whole l zs -> whole s z -> (Z.abs z + Zsum (map Z.abs zs) <= 2 ^ 53)%Z -> whole (fold_left dadd l s) (z + Zsum zs).
Proof.
  intros H. revert s z. induction H as [|x a l zs Hx Hl IH]; intros s z Hs B; cbn [fold_left map] in *.
  - cbn. rewrite Z.add_0_r. exact Hs.
  - change (Zsum (Z.abs a :: map Z.abs zs)) with (Z.abs a + Zsum (map Z.abs zs))%Z in B. pose proof (Zsum_abs zs). change (Zsum (a :: zs)) with (a + Zsum zs)%Z.
    rewrite Z.add_assoc. apply IH; [|lia]. apply whole_add; auto. lia.
Qed.

(* ---- scalar products ---- *)
Lemma firstn_S_nth {A} (l : list A) k x : nth_error l k = Some x -> firstn (S k) l = firstn k l ++ [x].
Proof. revert k. induction l as [|y l IH]; intros [|k] H; cbn in *; try discriminate; [congruence|]. rewrite <- IH by exact H. reflexivity. Qed.
Definition products (a b : list double) : list double := map (fun p => dmul (fst p) (snd p)) (combine a b).
Lemma scprod_fold (a b : tensor double) : List.length (data a) = List.length (data b) ->
  scprod_double a b = Ok (fold_left dadd (products (data a) (data b)) (dofZ 0)).
Proof.
  unfold scprod_double, scprod. cbn [nzero Dnum nadd nmul nconj]. generalize (data a) as l, (data b) as m. clear a b. intros l m HL.
  assert (G : forall k, (k <= List.length l)%nat -> for_ k (fun i output => x <- rd l i ;; y <- rd m i ;; Ok (dadd output (dmul x y))) (dofZ 0) =
    Ok (fold_left dadd (firstn k (products l m)) (dofZ 0))).
  { induction k as [|k IH]; intros Hk; [reflexivity|]. rewrite for_S. rewrite IH by lia. cbn [bind].
    destruct (nth_error l k) as [x|] eqn:Ex; [|apply nth_error_None in Ex; lia]. destruct (nth_error m k) as [y|] eqn:Ey; [|apply nth_error_None in Ey; lia].
    unfold rd. rewrite Ex, Ey. cbn [bind]. assert (En : nth_error (products l m) k = Some (dmul x y)).
    { clear IH Hk. revert m HL k Ex Ey. induction l as [|x0 l IHl]; intros [|y0 m] HL [|k] Ex Ey; cbn in *; try discriminate; [congruence|]. apply IHl; auto. }
    f_equal. rewrite (firstn_S_nth _ _ _ En), fold_left_app. reflexivity. }
  rewrite G by lia. f_equal. f_equal. apply firstn_all2. unfold products. rewrite map_length, combine_length. lia.
Qed.
Lemma exact_abs_dot_nonneg a b : 0 <= exact_abs_dot a b.
Proof. apply Rsum_nonneg. intros x H. apply in_map_iff in H as (y & <- & _). apply Rabs_pos. Qed.
Lemma products_error a b : List.length a = List.length b -> Forall finite (products a b) ->
  Forall finite a /\ Forall finite b /\
  Rabs (exact_sum (products a b) - exact_dot a b) <= uro * exact_abs_dot a b + INR (List.length a) * tiny /\
  exact_abs_sum (products a b) <= (1 + uro) * exact_abs_dot a b + INR (List.length a) * tiny.
Proof.
  revert b. induction a as [|x a IH]; intros [|y b] HL H; try discriminate.
  - split; [constructor|]. split; [constructor|]. unfold exact_sum, exact_dot, exact_abs_dot, exact_abs_sum. cbn. rewrite Rminus_0_r, Rabs_R0. lra.
  - cbn in H. inversion H as [|? ? F Fr]; subst. apply dmul_inv in F as (Fx & Fy & V). destruct (IH b) as (A1 & A2 & A3 & A4); auto.
    split; [constructor; auto|]. split; [constructor; auto|].
    change (exact_sum (products (x :: a) (y :: b))) with (value (dmul x y) + exact_sum (products a b)).
    change (exact_abs_sum (products (x :: a) (y :: b))) with (Rabs (value (dmul x y)) + exact_abs_sum (products a b)).
    change (exact_dot (x :: a) (y :: b)) with (value x * value y + exact_dot a b).
    change (exact_abs_dot (x :: a) (y :: b)) with (Rabs (value x * value y) + exact_abs_dot a b).
    change (List.length (x :: a)) with (S (List.length a)). rewrite S_INR.
    destruct (RN_error (value x * value y)) as (d & e & Hd & He & Ed). rewrite V, Ed. set (p := value x * value y) in *.
    assert (B : Rabs (p * d) <= uro * Rabs p) by (rewrite Rabs_mult, Rmult_comm; apply Rmult_le_compat_r; [apply Rabs_pos|exact Hd]).
    split.
    + replace (p * (1 + d) + e + exact_sum (products a b) - (p + exact_dot a b)) with ((p * d + e) + (exact_sum (products a b) - exact_dot a b)) by ring.
      eapply Rle_trans; [apply Rabs_triang|]. pose proof (Rabs_triang (p * d) e). lra.
    + replace (p * (1 + d) + e) with (p + (p * d + e)) by ring. pose proof (Rabs_triang p (p * d + e)). pose proof (Rabs_triang (p * d) e). lra.
Qed.

(* ---- order ---- *)
(* the place of a double that is not a NaN on the extended line *)
Definition place (x : double) : R :=
  match x with B754_infinity false => bpow radix2 1024 | B754_infinity true => - bpow radix2 1024 | _ => value x end.
Lemma finite_place x : finite x -> place x = value x /\ - bpow radix2 1024 < value x < bpow radix2 1024.
Proof.
  intros H. pose proof (abs_B2R_lt_emax 53 1024 x) as B. apply Rabs_lt_inv in B. split; [|exact B]. destruct x as [s|s| |s m e Hm]; try discriminate; reflexivity.
Qed.
Lemma dlt_place x y : is_number x -> is_number y -> dlt x y = Rlt_bool (place x) (place y).
Proof.
  unfold is_number. intros Hx Hy. pose proof (bpow_gt_0 radix2 1024) as P.
  assert (D : forall z : double, is_nan z = false -> (exists s, z = B754_infinity s) \/ finite z) by (intros [s|s| |s m e Hm] Hz; try discriminate; eauto; right; reflexivity).
  destruct (D x Hx) as [(sx & ->)|Fx], (D y Hy) as [(sy & ->)|Fy].
  - destruct sx, sy; cbn [place]; symmetry; [apply Rlt_bool_false|apply Rlt_bool_true|apply Rlt_bool_false|apply Rlt_bool_false]; lra.
  - destruct (finite_place y Fy) as [E B]. rewrite E. assert (G : dlt (B754_infinity sx) y = sx) by (destruct y as [s|s| |s m e Hm]; try discriminate; destruct sx; reflexivity).
    rewrite G. destruct sx; cbn [place]; symmetry; [apply Rlt_bool_true|apply Rlt_bool_false]; lra.
  - destruct (finite_place x Fx) as [E B]. rewrite E. assert (G : dlt x (B754_infinity sy) = negb sy) by (destruct x as [s|s| |s m e Hm]; try discriminate; destruct sy; try destruct s; reflexivity).
    rewrite G. destruct sy; cbn [place negb]; symmetry; [apply Rlt_bool_false|apply Rlt_bool_true]; lra.
  - destruct (finite_place x Fx) as [-> _], (finite_place y Fy) as [-> _]. apply Bltb_correct; auto.
Qed.
Lemma dlt_number x y : dlt x y = true -> is_number x /\ is_number y.
Proof. destruct x as [s|s| |s m e Hm], y as [s'|s'| |s' m' e' Hm']; unfold is_number; try (split; reflexivity); discriminate. Qed.
Lemma dlt_true x y : dlt x y = true <-> is_number x /\ is_number y /\ place x < place y.
Proof.
  split.
  - intros H. destruct (dlt_number x y H) as [Hx Hy]. rewrite dlt_place in H by auto. destruct (Rlt_bool_spec (place x) (place y)); [auto|discriminate].
  - intros (Hx & Hy & H). rewrite dlt_place by auto. apply Rlt_bool_true, H.
Qed.
Lemma dlt_false x y : is_number x -> is_number y -> (dlt x y = false <-> place y <= place x).
Proof.
  intros Hx Hy. rewrite dlt_place by auto. destruct (Rlt_bool_spec (place x) (place y)); split; intros G; auto; try discriminate. lra.
Qed.
Lemma dlt_weak l : Forall is_number l -> strict_weak dlt l.
Proof.
  intros H. rewrite Forall_forall in H. split; [|split].
  - intros x Hx. apply dlt_false; auto. lra.
  - intros x y z Hx Hy Hz H1 H2. apply dlt_true in H1, H2. apply dlt_true. intuition lra.
  - intros x y z Hx Hy Hz H1 H2 H3 H4. apply dlt_false in H1, H2, H3, H4; auto. split; apply dlt_false; auto; lra.
Qed.
Lemma fold_max_double (f : double -> double) l m : is_number m ->
  let r := fold_left (fun m y => if dlt m (f y) then f y else m) l m in
  is_number r /\ (r = m \/ exists x, In x l /\ is_number (f x) /\ r = f x) /\ place m <= place r /\ forall x, In x l -> is_number (f x) -> place (f x) <= place r.
Proof.
  revert m. induction l as [|y l IH]; intros m Hm; cbn [fold_left].
  - split; [exact Hm|]. split; [auto|]. split; [lra|]. intros x [].
  - destruct (dlt m (f y)) eqn:E.
    + apply dlt_true in E as (_ & Hy & L). destruct (IH (f y) Hy) as (A & B & C & D). split; [exact A|]. split; [|split; [lra|]].
      * destruct B as [B|(x & Hx & B)]; [right; exists y; split; [left; auto|auto]|right; exists x; split; [right; auto|auto]].
      * intros x [->|Hx] Hn; auto.
    + destruct (IH m Hm) as (A & B & C & D). split; [exact A|]. split; [|split; [lra|]].
      * destruct B as [B|(x & Hx & B)]; [auto|right; exists x; split; [right; auto|auto]].
      * intros x [->|Hx] Hn; auto. apply dlt_false in E; auto. lra.
Qed.
Lemma fold_min_double l m : is_number m ->
  let r := fold_left (fun m y => if dlt y m then y else m) l m in
  is_number r /\ (r = m \/ In r l) /\ place r <= place m /\ forall x, In x l -> is_number x -> place r <= place x.
Proof.
  revert m. induction l as [|y l IH]; intros m Hm; cbn [fold_left].
  - split; [exact Hm|]. split; [auto|]. split; [lra|]. intros x [].
  - destruct (dlt y m) eqn:E.
    + apply dlt_true in E as (Hy & _ & L). destruct (IH y Hy) as (A & B & C & D). split; [exact A|]. split; [|split; [lra|]].
      * right. destruct B as [->|B]; [left; auto|right; auto].
      * intros x [->|Hx] Hn; auto.
    + destruct (IH m Hm) as (A & B & C & D). split; [exact A|]. split; [|split; [lra|]].
      * destruct B as [B|B]; [auto|right; right; auto].
      * intros x [->|Hx] Hn; auto. apply dlt_false in E; auto. lra.
Qed.
Lemma nan_first x y : not_a_number x -> dlt x y = false /\ dlt y x = false.
Proof. unfold not_a_number. destruct x as [s|s| |s m e Hm], y as [s'|s'| |s' m' e' Hm']; intros H; try discriminate; auto. Qed.
Lemma dabs_number x : is_number (dabs x) <-> is_number x.
Proof. unfold is_number, dabs. rewrite is_nan_Babs. tauto. Qed.

(* Lemmas for P_RandTensor. *)
From Coq Require Import Reals Lra.
From Flocq Require Import Core BinarySingleNaN.
From Verif Require Import Base Spec S_Fold S_Reduce S_Sparse M_Tensor M_Arith M_Fold M_Permute M_Kron M_Sparse
  L_Lin L_Tensor L_Arith L_Fold L_Permute L_Kron L_Scale L_Trace L_Reduce L_Sparse L_Sparse2 L_Sparse3 L_Sparse4 L_Sparse5 L_Sparse6 L_Sparse7.
From Verif Require Import M_Rand S_Rand L_Rand M_Double S_Double L_Double M_DoubleReduce M_RandDouble S_RandTensor M_RandTensor P_RandDouble.
Local Open Scope nat_scope.

(* ---- one element after the other ---- *)
Section Fill.
Context {E : Type} (draw : nat -> mt_state -> outcome (E * mt_state)) (v : nat -> E) (Inv : nat -> mt_state -> Prop).
(* the k-th element of a tensor that starts at the number b *)
Definition draws_from (b : nat) : Prop := forall k st, Inv (b + k) st -> exists st', draw k st = Ok (v (b + k), st') /\ Inv (S (b + k)) st'.
Lemma fill_loop b n d st : draws_from b -> length d = n -> Inv b st ->
  exists st', for_ n (fun k '(d, st) => '(x, st) <- draw k st ;; d <- wr d k x ;; Ok (d, st)) (d, st) = Ok (map (fun k => v (b + k)) (seq 0 n), st') /\ Inv (b + n) st'.
Proof.
  intros Hd L H0.
  destruct (for_inv (fun m (s : list E * mt_state) => length (fst s) = n /\ Inv (b + m) (snd s) /\ forall q, q < m -> nth_error (fst s) q = Some (v (b + q)))
    n (fun k '(d, st) => '(x, st) <- draw k st ;; d <- wr d k x ;; Ok (d, st)) (d, st)) as ([d' st'] & E1 & L' & I' & H').
  - cbn [fst snd]. split; [auto|]. split; [rewrite Nat.add_0_r; auto|]. intros; lia.
  - intros i [d1 st1] Hi (L1 & I1 & H1). cbn [fst snd] in *. destruct (Hd i st1 I1) as (st2 & E2 & I2). rewrite E2. cbn [bind]. rewrite wr_ok by lia. cbn [bind].
    eexists. split; [reflexivity|]. cbn [fst snd]. rewrite length_upd. split; [auto|]. split; [replace (b + S i) with (S (b + i)) by lia; auto|].
    intros q Hq. destruct (Nat.eq_dec q i) as [->|]; [apply nth_error_upd_eq; lia|rewrite nth_error_upd_ne by auto; apply H1; lia].
  - exists st'. rewrite E1. cbn [fst snd] in *. split; [|auto]. f_equal. f_equal. apply list_eq_nth_len; [rewrite map_length, seq_length; auto|].
    intros q Hq. rewrite H', nth_error_map_seq by lia. reflexivity.
Qed.
Lemma random_ok b junk ds st : draws_from b -> Inv b st ->
  exists st', random draw junk ds st = Ok (mkT ds (map (fun k => v (b + k)) (seq 0 (nelem ds))), st') /\ Inv (b + nelem ds) st'.
Proof.
  intros Hd H0. unfold random, randomize. destruct (fill_loop b (length (data (new_tensor junk ds))) (data (new_tensor junk ds)) st Hd eq_refl H0) as (st' & E1 & I1).
  rewrite E1. cbn [bind]. rewrite new_tensor_len in *. eauto.
Qed.
End Fill.
Lemma randoms_ok {E} (draw : mt_state -> outcome (E * mt_state)) (v : nat -> E) (Inv : nat -> mt_state -> Prop) junk shapes :
  (forall k st, Inv k st -> exists st', draw st = Ok (v k, st') /\ Inv (S k) st') ->
  forall b st, Inv b st -> exists ts st', randoms (fun _ => draw) junk shapes st = Ok (ts, st') /\ map (@dims E) ts = shapes /\ Forall wf ts /\
    concat (map (@data E) ts) = map (fun k => v (b + k)) (seq 0 (length (concat (map (@data E) ts)))).
Proof.
  intros Hd. induction shapes as [|ds shapes IH]; intros b st H0; cbn [randoms].
  - exists [], st. cbn. auto.
  - destruct (random_ok (fun _ => draw) v Inv b junk ds st) as (st1 & E1 & I1); [intros k s H; apply Hd; auto|auto|].
    rewrite E1. cbn [bind]. destruct (IH _ _ I1) as (ts & st2 & E2 & D2 & W2 & C2). rewrite E2. cbn [bind].
    eexists _, _. split; [reflexivity|]. cbn [map dims data concat]. split; [f_equal; auto|]. split.
    + constructor; auto. unfold wf. cbn [data dims]. rewrite map_length, seq_length. reflexivity.
    + rewrite C2 at 1. rewrite app_length, map_length, seq_length, seq_app, map_app. f_equal.
      set (m := length (concat (map (@data E) ts))). replace (0 + nelem ds) with (nelem ds) by lia. apply list_eq_nth_len; [rewrite !map_length, !seq_length; reflexivity|].
      intros q Hq. rewrite map_length, seq_length in Hq. rewrite !nth_error_map. rewrite nth_error_seq0 by auto.
      rewrite (nth_error_nth' _ 0) by (rewrite seq_length; auto). rewrite seq_nth by auto. cbn [option_map]. f_equal. f_equal. lia.
Qed.

(* ---- the two sources ---- *)
Lemma draw64_ok x k st : recur mt64 x -> follows mt64 x k st -> exists st', draw64 st = Ok (rand_double_64 (output64 (x (312 + k))), st') /\ follows mt64 x (S k) st'.
Proof.
  intros R F. destruct (genrand_ok mt64 hm64 x k st R F) as (st' & E & F'). exists st'. unfold draw64. rewrite E. cbn [bind]. rewrite <- temper64_ok. auto.
Qed.
Lemma draw32_ok x k st : recur mt32 x -> follows mt32 x (2 * k) st -> exists st', draw32 st = Ok (rand_double_32 (output32 (x (624 + 2 * k))) (output32 (x (624 + (2 * k + 1)))), st') /\ follows mt32 x (2 * S k) st'.
Proof.
  intros R F. destruct (genrand_ok mt32 hm32 x (2 * k) st R F) as (st1 & E1 & F1). destruct (genrand_ok mt32 hm32 x (S (2 * k)) st1 R F1) as (st2 & E2 & F2).
  exists st2. unfold draw32. rewrite E1. cbn [bind]. rewrite E2. cbn [bind]. rewrite <- !temper32_ok. replace (2 * k + 1) with (S (2 * k)) by lia. split; [reflexivity|].
  replace (2 * S k) with (S (S (2 * k))) by lia. exact F2.
Qed.
Lemma draw_complex_ok draw (v : nat -> double) (Inv : nat -> mt_state -> Prop) (o : bool) : (forall k st, Inv k st -> exists st', draw st = Ok (v k, st') /\ Inv (S k) st') ->
  forall k st, Inv (2 * k) st -> exists st', draw_complex draw o st = Ok (if o then (v (2 * k), v (2 * k + 1)) else (v (2 * k + 1), v (2 * k)), st') /\ Inv (2 * S k) st'.
Proof.
  intros H k st I0. destruct (H _ _ I0) as (st1 & E1 & I1). destruct (H _ _ I1) as (st2 & E2 & I2). exists st2. unfold draw_complex. rewrite E1. cbn [bind]. rewrite E2. cbn [bind].
  replace (2 * k + 1) with (S (2 * k)) by lia. replace (2 * S k) with (S (S (2 * k))) by lia. auto.
Qed.

Lemma bits64_ok (w : nat -> Z) k : (0 <= w k < 2 ^ 64)%Z -> finite (rand_double_64 (w k)) /\ value (rand_double_64 (w k)) = units (bits64 w k) /\ (0 <= value (rand_double_64 (w k)) < 1)%R.
Proof.
  intros H. destruct (C49_doubles_exact _ H) as (A & B & C). split; [auto|]. split; [|auto]. rewrite B. unfold units, bits64, res53_64. rewrite Z.shiftr_div_pow2 by lia. reflexivity.
Qed.
Lemma bits32_ok (w : nat -> Z) (k : nat) : (0 <= w (2 * k)%nat < 2 ^ 32)%Z -> (0 <= w (2 * k + 1)%nat < 2 ^ 32)%Z ->
  let r := rand_double_32 (w (2 * k)) (w (2 * k + 1)) in finite r /\ value r = units (bits32 w k) /\ (0 <= value r < 1)%R.
Proof.
  intros H H' r. destruct (C49_doubles_exact_32bits _ _ H H') as (A & B). destruct (random_drawn r (from_32 _ _ H H')) as (_ & K).
  split; [exact A|]. split.
  - unfold r. rewrite B. unfold units, bits32, res53_32. rewrite !Z.shiftr_div_pow2 by lia. reflexivity.
  - pose proof (bpow_gt_0 radix2 (-53)). lra.
Qed.

(* ---- a sparse matrix from a dense one, for any test for zero ---- *)
Section Dense.
Context {A : Type} (N : numops A) (isz isz' : A -> bool).
Context (Hz' : forall x, isz' x = true <-> x = nzero N) (Hz : isz (nzero N) = true).
Lemma get2_map (f : A -> A) (t : tensor A) i j : get2 (mkT (dims t) (map f (data t))) i j = (x <- get2 t i j ;; Ok (f x)).
Proof.
  unfold get2, get_dimensions2. cbn [dims data]. destruct (dims t) as [|a [|b [|]]]; try reflexivity. cbn [bind]. destruct (normalize_index i a); try reflexivity. cbn [bind].
  destruct (normalize_index j b); try reflexivity. cbn [bind]. unfold rd. rewrite nth_error_map. destruct (nth_error (data t) _); reflexivity.
Qed.
Lemma of_dense_ext jrs jcol jdata (t : tensor A) : let f := fun x => if isz x then nzero N else x in
  of_dense isz jrs jcol jdata t = of_dense isz' jrs jcol jdata (mkT (dims t) (map f (data t))).
Proof.
  intros f. assert (Hf : forall x, isz' (f x) = isz x).
  { intros x. unfold f. destruct (isz x) eqn:E; [apply Hz'; reflexivity|]. destruct (isz' x) eqn:E'; [|reflexivity]. apply Hz' in E'. rewrite E', Hz in E. discriminate. }
  assert (Hn : number_of_nonzero isz' (map f (data t)) = number_of_nonzero isz (data t)).
  { unfold number_of_nonzero. generalize 0. induction (data t) as [|x l IH]; intros c; [reflexivity|]. cbn [map fold_left]. rewrite Hf. apply IH. }
  unfold of_dense. change (dimension (mkT (dims t) (map f (data t)))) with (@dimension A (mkT (dims t) (map f (data t)))). cbn [data]. rewrite Hn.
  change (dimension (mkT (dims t) (map f (data t))) 0) with (dimension t 0). change (dimension (mkT (dims t) (map f (data t))) 1) with (dimension t 1).
  destruct (dimension t 0) as [R| | |]; try reflexivity. cbn [bind]. destruct (dimension t 1) as [C| | |]; try reflexivity. cbn [bind].
  destruct (wr (alloc jrs (R + 1)) 0 0) as [rs| | |]; try reflexivity. cbn [bind]. f_equal. apply for_ext. intros r [[[rs1 col1] dat1] k1] Hr.
  f_equal. apply for_ext. intros c [[col2 dat2] k2] Hc. rewrite get2_map, bind_assoc. destruct (get2 t (Z.of_nat r) (Z.of_nat c)) as [v| | |]; try reflexivity. cbn [bind]. rewrite Hf.
  unfold f. destruct (isz v); reflexivity.
Qed.
Lemma of_dense_any jrs jcol jdata (t : tensor A) R C : wf t -> dims t = [R; C] ->
  exists s, of_dense isz jrs jcol jdata t = Ok s /\ wf_sparse s /\ (forall e, In e (sdata s) -> In e (data t) /\ isz e = false) /\ srows s = R /\ scols s = C /\
    forall i j, i < R -> j < C -> entry (nzero N) s i j = if isz (val N t [i; j]) then nzero N else val N t [i; j].
Proof.
  intros Ht Hd. rewrite of_dense_ext. set (f := fun x => if isz x then nzero N else x). set (t' := mkT (dims t) (map f (data t))).
  assert (Ht' : wf t') by (unfold wf, t'; cbn [data dims]; rewrite map_length; exact Ht).
  assert (Hv : forall i j, i < R -> j < C -> val N t' [i; j] = f (val N t [i; j])).
  { intros i j Hi Hj. unfold val. rewrite !elt_valid by (try unfold t'; cbn [dims]; rewrite Hd; repeat constructor; auto). unfold t'. cbn [dims data]. rewrite nth_error_map.
    destruct (nth_error (data t) (lin (dims t) [i; j])); cbn [option_map]; [reflexivity|]. unfold f. rewrite Hz. reflexivity. }
  destruct (of_dense_full N isz' Hz' jrs jcol jdata t' R C Ht' Hd) as (s & E & W & Z & Hr & Hc & He & _).
  exists s. split; [auto|]. split; [auto|]. split; [|repeat (split; [auto|]); intros i j Hi Hj; rewrite He by auto; apply Hv; auto].
  rewrite (of_dense_ok N isz' Hz' jrs jcol jdata t' R C Ht' Hd) in E. injection E as <-.
  intros e Hin. unfold pack in Hin. cbn [sdata] in Hin. apply in_map_iff in Hin. destruct Hin as (q & <- & Hp). apply in_concat in Hp. destruct Hp as (r & Hr' & Hp).
  apply in_map_iff in Hr'. destruct Hr' as (i & <- & Hi). apply in_seq in Hi. unfold dense_row in Hp. apply filter_In in Hp. destruct Hp as [Hp Hq].
  apply in_map_iff in Hp. destruct Hp as (j & <- & Hj). apply in_seq in Hj. cbn [snd] in *. rewrite Hv in * by lia. unfold f in *. destruct (isz (val N t [i; j])) eqn:Ez.
  - replace (isz' (nzero N)) with true in Hq by (symmetry; apply Hz'; reflexivity). discriminate.
  - split; [|exact Ez]. unfold val. destruct (elt_some t [i; j]) as [y Hy]; auto; [rewrite Hd; discriminate|rewrite Hd; repeat constructor; lia|]. rewrite Hy.
    rewrite elt_valid in Hy by (rewrite Hd; repeat constructor; lia). eapply nth_error_In; eauto.
Qed.
End Dense.

(* ---- thinning ---- *)
Definition plus_zero (x : double) : bool := match x with B754_zero false => true | _ => false end.
Lemma plus_zero_ok x : plus_zero x = true <-> x = nzero Dnum.
Proof. change (nzero Dnum) with (B754_zero false : double). destruct x as [[]|[]| |[]]; cbn; split; congruence. Qed.
Lemma dzero_value x : dzero x = true <-> finite x /\ value x = 0%R.
Proof.
  unfold dzero, value, finite. change (dofZ 0) with (B754_zero false : double).
  destruct x as [s|s| |s m e H].
  - split; [intros _; split; reflexivity|intros _; reflexivity].
  - split; [destruct s; intros K; discriminate K|intros [K _]; discriminate K].
  - split; [intros K; discriminate K|intros [K _]; discriminate K].
  - split; [destruct s; intros K; discriminate K|]. intros [_ K]. exfalso. apply eq_0_F2R in K. destruct s; discriminate K.
Qed.
Lemma thin_loop density l : for_ (length l) (fun k d => x <- rd d k ;; wr d k (thin density x)) l = Ok (map (thin density) l).
Proof.
  destruct (for_inv (fun m (d : list double) => length d = length l /\ forall q, nth_error d q = if q <? m then option_map (thin density) (nth_error l q) else nth_error l q)
    (length l) (fun k d => x <- rd d k ;; wr d k (thin density x)) l) as (d & E & L & H).
  - split; auto.
  - intros i d Hi (L & H). destruct (nth_error_lt l i Hi) as [x Hx]. assert (Hd : nth_error d i = Some x) by (rewrite H, Nat.ltb_irrefl; auto).
    rewrite (rd_ok _ _ _ Hd). cbn [bind]. rewrite wr_ok by lia. eexists. split; [reflexivity|]. rewrite length_upd. split; [auto|]. intros q.
    destruct (Nat.eq_dec q i) as [->|Hq].
    + rewrite nth_error_upd_eq by lia. replace (i <? S i) with true by (symmetry; apply Nat.ltb_lt; lia). rewrite Hx. reflexivity.
    + rewrite nth_error_upd_ne by auto. rewrite H. destruct (Nat.ltb_spec q i), (Nat.ltb_spec q (S i)); try lia; reflexivity.
  - rewrite E. f_equal. apply list_eq_nth_len; [rewrite map_length; auto|]. intros q Hq. rewrite H. rewrite L in Hq. apply Nat.ltb_lt in Hq. rewrite Hq. symmetry. apply nth_error_map.
Qed.

Lemma thin_ok density r : finite density -> (0 < value density)%R -> finite r -> (0 <= value r)%R ->
  finite (thin density r) /\ (0 <= value (thin density r) <= 1)%R /\
  ((value density < value r)%R -> value (thin density r) = 0%R) /\
  ((value r <= value density)%R -> (Rabs (value (thin density r) - value r / value density) <= uro * (value r / value density) + tiny)%R).
Proof.
  intros Fd Hd Fr Hr. unfold thin.
  assert (Fa : is_finite (dabs r) = true) by (unfold dabs; rewrite is_finite_Babs; exact Fr).
  assert (Ea : B2R (dabs r) = value r) by (unfold dabs; rewrite B2R_Babs; apply Rabs_pos_eq; exact Hr).
  assert (Hlt : dlt density (dabs r) = Rlt_bool (value density) (value r)) by (unfold dlt; rewrite Bltb_correct by auto; rewrite Ea; reflexivity).
  rewrite Hlt. destruct (Rlt_bool_spec (value density) (value r)) as [H|H].
  - destruct (dofZ_ok 0) as [Z1 Z2]; [lia|]. split; [exact Z1|]. rewrite Z2. split; [cbn; lra|]. split; [intros _; reflexivity|lra].
  - assert (Hq : (0 <= value r / value density <= 1)%R).
    { split; [apply Rmult_le_pos; [lra|left; apply Rinv_0_lt_compat; lra]|]. apply Rmult_le_reg_r with (value density); [lra|]. unfold Rdiv. rewrite Rmult_assoc, Rinv_l by lra. lra. }
    destruct (ddiv_ok r density) as [Q1 Q2]; [exact Fr|lra|apply (fits_lt _ 0); [lia|rewrite Rabs_pos_eq by lra; cbn; lra]|].
    split; [exact Q1|]. rewrite Q2. split.
    + split; [apply RN_ge_rep; [rewrite <- (Rmult_1_r 0); apply (rep_int 0 0); lia|lra]|]. apply RN_le_rep; [apply (rep_bpow 0); lia|cbn; lra].
    + split; [lra|]. intros _. destruct (RN_error (value r / value density)) as (d & e & Hd' & He & E). rewrite E.
      replace (value r / value density * (1 + d) + e - value r / value density)%R with (d * (value r / value density) + e)%R by ring.
      eapply Rle_trans; [apply Rabs_triang|]. apply Rplus_le_compat; [|exact He]. rewrite Rabs_mult, (Rabs_pos_eq (value r / value density)) by lra. apply Rmult_le_compat_r; lra.
Qed.
Lemma map_seq_nth {A} (f : nat -> A) n k e : nth_error (map f (seq 0 n)) k = Some e -> k < n /\ e = f k.
Proof.
  intros H. assert (L : k < length (map f (seq 0 n))) by (apply nth_error_Some; congruence). rewrite map_length, seq_length in L. split; [auto|].
  rewrite nth_error_map_seq in H by auto. congruence.
Qed.

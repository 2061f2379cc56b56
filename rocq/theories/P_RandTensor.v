(* C89: random tensors and random sparse matrices; C88: the integers of other
   types.  Vocabulary: S_Rand.v (the published generator), S_RandTensor.v,
   S_Sparse.v, S_Double.v. *)
From Coq Require Import Reals Lra.
From Flocq Require Import Core BinarySingleNaN.
From Verif Require Import Base Spec S_Fold S_Reduce S_Sparse M_Tensor M_Sparse L_Lin L_Tensor L_Fold.
From Verif Require Import M_Rand S_Rand L_Rand M_Double S_Double L_Double M_DoubleReduce M_RandDouble P_RandDouble S_RandTensor M_RandTensor L_RandTensor P_RandSeed.
Local Open Scope nat_scope.

(* the words of the published generator with seed s *)
Definition words64 (s : Z) (w : nat -> Z) : Prop := exists x, seeded64 s x /\ recurrence64 x /\ forall k, w k = output64 (x (312 + k)).
Definition words32 (s : Z) (w : nat -> Z) : Prop := exists x, seeded32 s x /\ recurrence32 x /\ forall k, w k = output32 (x (624 + k)).

Lemma state64 h s x : history_ok h -> seeded64 s x -> recurrence64 x ->
  exists st0 st1, rand_run mt64 h (mt_start mt64) = Ok st0 /\ init_genrand mt64 s st0 = Ok st1 /\ follows mt64 x 0 st1 /\ recur mt64 x /\ forall k, (0 <= output64 (x k) < 2 ^ 64)%Z.
Proof.
  intros Hh H Hr. destruct (run_sane mt64 hm64 h (mt_start mt64)) as (st0 & E0 & H0); [exact Hh|apply start_sane, hm64|].
  assert (Hw : forall i, (0 <= x i < 2 ^ 64)%Z) by (apply word64; auto; eapply seeded64_word; eauto).
  assert (Hr' : recur mt64 x) by (apply recur64; auto).
  destruct (seed_follows mt64 hm64 x s st0 Hr' H0) as (st1 & E1 & H1).
  - exact (proj1 H).
  - intros i Hi. rewrite (proj2 H) by auto. unfold seed_word. cbn [init_mul init_shift wbits mt64]. rewrite Z.shiftr_div_pow2 by lia. reflexivity.
  - exists st0, st1. do 4 (split; [auto|]). intros k. apply output64_word. auto.
Qed.
Lemma state32 h s x : history_ok h -> seeded32 s x -> recurrence32 x ->
  exists st0 st1, rand_run mt32 h (mt_start mt32) = Ok st0 /\ init_genrand mt32 s st0 = Ok st1 /\ follows mt32 x (2 * 0) st1 /\ recur mt32 x /\ forall k, (0 <= output32 (x k) < 2 ^ 32)%Z.
Proof.
  intros Hh H Hr. destruct (run_sane mt32 hm32 h (mt_start mt32)) as (st0 & E0 & H0); [exact Hh|apply start_sane, hm32|].
  assert (Hw : forall i, (0 <= x i < 2 ^ 32)%Z) by (apply word32; auto; eapply seeded32_word; eauto).
  assert (Hr' : recur mt32 x) by (apply recur32; auto).
  destruct (seed_follows mt32 hm32 x s st0 Hr' H0) as (st1 & E1 & H1).
  - exact (proj1 H).
  - intros i Hi. rewrite (proj2 H) by auto. unfold seed_word. cbn [init_mul init_shift wbits mt32]. rewrite Z.shiftr_div_pow2 by lia. reflexivity.
  - exists st0, st1. do 4 (split; [auto|]). intros k. apply output32_word. auto.
Qed.

(* After set_seed(s), whatever happened before, tensors made with RTensor::random
   one after the other have the shapes asked for, and their elements, read in
   order, are the numbers of the published generator, one for each element. *)
Theorem C89_random : forall h s w shapes junk, history_ok h -> words64 s w ->
  exists st0 st1 ts st2, rand_run mt64 h (mt_start mt64) = Ok st0 /\ init_genrand mt64 s st0 = Ok st1 /\
    randoms (fun _ => draw64) junk shapes st1 = Ok (ts, st2) /\ map (@dims double) ts = shapes /\ Forall wf ts /\
    forall k e, nth_error (concat (map (@data double) ts)) k = Some e -> finite e /\ value e = units (bits64 w k) /\ (0 <= value e < 1)%R.
Proof.
  intros h s w shapes junk Hh (x & Hs & Hx & Hw). destruct (state64 h s x Hh Hs Hx) as (st0 & st1 & E0 & E1 & F & R & B).
  destruct (randoms_ok draw64 (fun k => rand_double_64 (w k)) (follows mt64 x) junk shapes) with (b := 0) (st := st1) as (ts & st2 & E2 & D & W & C); [|exact F|].
  - intros k st Hk. destruct (draw64_ok x k st R Hk) as (st' & E & F'). exists st'. rewrite Hw. auto.
  - exists st0, st1, ts, st2. do 5 (split; [auto|]). intros k e He. rewrite C in He. apply map_seq_nth in He. destruct He as [_ ->]. cbn [Nat.add]. apply bits64_ok. rewrite Hw. apply B.
Qed.
Print Assumptions C89_random.
Theorem C89_random_32bits : forall h s w shapes junk, history_ok h -> words32 s w ->
  exists st0 st1 ts st2, rand_run mt32 h (mt_start mt32) = Ok st0 /\ init_genrand mt32 s st0 = Ok st1 /\
    randoms (fun _ => draw32) junk shapes st1 = Ok (ts, st2) /\ map (@dims double) ts = shapes /\ Forall wf ts /\
    forall k e, nth_error (concat (map (@data double) ts)) k = Some e -> finite e /\ value e = units (bits32 w k) /\ (0 <= value e < 1)%R.
Proof.
  intros h s w shapes junk Hh (x & Hs & Hx & Hw). destruct (state32 h s x Hh Hs Hx) as (st0 & st1 & E0 & E1 & F & R & B).
  destruct (randoms_ok draw32 (fun k => rand_double_32 (w (2 * k)) (w (2 * k + 1))) (fun k => follows mt32 x (2 * k)) junk shapes) with (b := 0) (st := st1) as (ts & st2 & E2 & D & W & C); [|exact F|].
  - intros k st Hk. destruct (draw32_ok x k st R Hk) as (st' & E & F'). exists st'. rewrite !Hw. auto.
  - exists st0, st1, ts, st2. do 5 (split; [auto|]). intros k e He. rewrite C in He. apply map_seq_nth in He. destruct He as [_ ->]. cbn [Nat.add]. apply bits32_ok; rewrite Hw; apply B.
Qed.
Print Assumptions C89_random_32bits.
(* a sequence of tensors goes on where the one before it ended *)
Theorem C89_continues : forall draw junk first second st ts st', (draw = fun _ => draw64) \/ (draw = fun _ => draw32) ->
  randoms draw junk first st = Ok (ts, st') ->
  randoms draw junk (first ++ second) st = ('(us, st'') <- randoms draw junk second st' ;; Ok (ts ++ us, st'')).
Proof.
  intros draw junk first second st ts st' _. revert st ts st'. induction first as [|ds first IH]; intros st ts st' H; cbn [randoms app] in *.
  - injection H as <- <-. destruct (randoms draw junk second st) as [[us st'']| | |]; reflexivity.
  - destruct (random draw junk ds st) as [[t st1]| | |]; cbn [bind] in *; try discriminate.
    destruct (randoms draw junk first st1) as [[ts1 st2]| | |] eqn:E1; cbn [bind] in H; try discriminate. injection H as <- <-.
    rewrite (IH _ _ _ E1). destruct (randoms draw junk second st2) as [[us st'']| | |]; reflexivity.
Qed.
Print Assumptions C89_continues.

(* CTensor::random: the parts of the k-th element are the numbers 2k and 2k+1, in
   the order that the compiler chose for that call. *)
Theorem C89_complex_partial : forall h s w ds junk (order : nat -> bool), history_ok h -> words64 s w ->
  exists st0 st1 t st2, rand_run mt64 h (mt_start mt64) = Ok st0 /\ init_genrand mt64 s st0 = Ok st1 /\
    random (fun k => draw_complex draw64 (order k)) junk ds st1 = Ok (t, st2) /\ dims t = ds /\ wf t /\
    forall k re im, nth_error (data t) k = Some (re, im) ->
      let first := units (bits64 w (2 * k)) in let second := units (bits64 w (2 * k + 1)) in
      finite re /\ finite im /\ (value re, value im) = if order k then (first, second) else (second, first).
Proof.
  intros h s w ds junk order Hh (x & Hs & Hx & Hw). destruct (state64 h s x Hh Hs Hx) as (st0 & st1 & E0 & E1 & F & R & B).
  assert (HB : forall k, (0 <= w k < 2 ^ 64)%Z) by (intros k; rewrite Hw; apply B).
  set (v := fun k => rand_double_64 (w k)).
  destruct (random_ok (fun k => draw_complex draw64 (order k)) (fun k => if order k then (v (2 * k), v (2 * k + 1)) else (v (2 * k + 1), v (2 * k))) (fun k => follows mt64 x (2 * k)) 0 junk ds st1) as (st2 & E2 & _).
  - intros k st Hk. cbn [Nat.add] in *. apply (draw_complex_ok draw64 v (follows mt64 x) (order k)); [|exact Hk]. intros k' st' Hk'. destruct (draw64_ok x k' st' R Hk') as (st2 & E & F'). exists st2. unfold v. rewrite Hw. auto.
  - exact F.
  - exists st0, st1. eexists _, st2. split; [auto|]. split; [auto|]. split; [exact E2|]. split; [reflexivity|]. split; [unfold wf; cbn [data dims]; rewrite map_length, seq_length; reflexivity|].
    cbn [data]. intros k re im He. apply map_seq_nth in He. destruct He as [_ He]. cbn [Nat.add] in He. cbv zeta.
    destruct (bits64_ok w (2 * k) (HB _)) as (A1 & A2 & _). destruct (bits64_ok w (2 * k + 1) (HB _)) as (B1 & B2 & _).
    fold (v (2 * k)) in A1, A2. fold (v (2 * k + 1)) in B1, B2. rewrite <- A2, <- B2. destruct (order k); injection He as -> ->; auto.
Qed.
Print Assumptions C89_complex_partial.

(* So the complex numbers after set_seed depend on the compiler: with the seed
   5489, two compilers give different tensors. *)
Lemma first_words : exists st, (st1 <- init_genrand mt64 5489 (mt_start mt64) ;; draws mt64 2 st1) = Ok ([14514284786278117030; 4620546740167642908]%Z, st).
Proof.
  destruct (st1 <- init_genrand mt64 5489 (mt_start mt64) ;; draws mt64 2 st1) as [[l st]| | |] eqn:E.
  - exists st. f_equal. f_equal. apply (f_equal (fun o => match o with Ok (l, _) => l | _ => [] end)) in E. rewrite <- E. vm_compute. reflexivity.
  - apply (f_equal (fun o => match o with Ok _ => true | _ => false end)) in E. vm_compute in E. discriminate.
  - apply (f_equal (fun o => match o with Ok _ => true | _ => false end)) in E. vm_compute in E. discriminate.
  - apply (f_equal (fun o => match o with Ok _ => true | _ => false end)) in E. vm_compute in E. discriminate.
Qed.
Theorem C89_complex_refuted : forall junk, exists st1 t t' st2, init_genrand mt64 5489 (mt_start mt64) = Ok st1 /\
  random (fun _ => draw_complex draw64 true) junk [1] st1 = Ok (t, st2) /\ random (fun _ => draw_complex draw64 false) junk [1] st1 = Ok (t', st2) /\ t <> t'.
Proof.
  intros junk. destruct first_words as (st2 & E). destruct (init_genrand mt64 5489 (mt_start mt64)) as [st1| | |]; try discriminate. cbn [bind] in E. rewrite !draws_S in E.
  destruct (genrand mt64 st1) as [[a s1]| | |] eqn:E1; try discriminate. cbn [bind] in E. rewrite draws_S in E. destruct (genrand mt64 s1) as [[b s2]| | |] eqn:E2; try discriminate. cbn [bind draws] in E.
  injection E as Ea Eb Es. subst st2.
  assert (R : forall o, random (fun _ => draw_complex draw64 o) junk [1] st1 = Ok (mkT [1] [if o then (rand_double_64 a, rand_double_64 b) else (rand_double_64 b, rand_double_64 a)], s2)).
  { intros o. unfold random, randomize. change (new_tensor junk [1]) with (mkT [1] [junk 0]). cbn [data dims length]. rewrite for_S, for_0. cbn [bind]. unfold draw_complex, draw64. rewrite E1. cbn [bind]. rewrite E2. cbn [bind]. reflexivity. }
  exists st1. eexists _, _, s2. split; [reflexivity|]. split; [apply R|]. split; [apply R|]. intros K. injection K as K _.
  apply (f_equal value) in K. subst a b.
  destruct (C49_doubles_exact 14514284786278117030) as (_ & V1 & _); [lia|]. destruct (C49_doubles_exact 4620546740167642908) as (_ & V2 & _); [lia|]. rewrite V1, V2 in K.
  apply Rmult_eq_reg_r in K; [|apply Rgt_not_eq, bpow_gt_0]. apply eq_IZR in K. discriminate K.
Qed.
Print Assumptions C89_complex_refuted.

(* RSparse::random(rows, columns, density): the numbers above the density become
   zeros, the others are divided by it (and rounded); nothing else is stored. *)
Theorem C89_sparse : forall h s w rows columns density junk jrs jcol jdata, history_ok h -> words64 s w -> finite density -> (0 < value density)%R ->
  exists st0 st1 m st2, rand_run mt64 h (mt_start mt64) = Ok st0 /\ init_genrand mt64 s st0 = Ok st1 /\
    sparse_random draw64 junk jrs jcol jdata rows columns density st1 = Ok (m, st2) /\ wf_sparse m /\ srows m = rows /\ scols m = columns /\
    (forall e, In e (sdata m) -> finite e /\ (0 < value e <= 1)%R) /\
    forall i j, i < rows -> j < columns -> let r := units (bits64 w (i + rows * j)) in let e := entry (dofZ 0) m i j in
      finite e /\ ((value density < r)%R -> value e = 0%R) /\
      ((r <= value density)%R -> (Rabs (value e - r / value density) <= uro * (r / value density) + tiny)%R).
Proof.
  intros h s w rows cols density junk jrs jcol jdata Hh (x & Hs & Hx & Hw) Fd Hd. destruct (state64 h s x Hh Hs Hx) as (st0 & st1 & E0 & E1 & F & R & B).
  assert (HB : forall k, (0 <= w k < 2 ^ 64)%Z) by (intros k; rewrite Hw; apply B).
  destruct (random_ok (fun _ => draw64) (fun k => rand_double_64 (w k)) (follows mt64 x) 0 junk [rows * cols] st1) as (st2 & E2 & _); [|exact F|].
  { intros k st Hk. destruct (draw64_ok x k st R Hk) as (st' & E & F'). exists st'. rewrite Hw. auto. }
  replace (nelem [rows * cols]) with (rows * cols) in E2 by (cbn; lia). set (l := map (fun k => rand_double_64 (w (0 + k))) (seq 0 (rows * cols))) in *.
  assert (Ll : length l = rows * cols) by (unfold l; rewrite map_length, seq_length; reflexivity).
  set (t := mkT [rows; cols] (map (thin density) l)).
  assert (Wt : wf t) by (unfold wf, t; cbn [data dims]; rewrite map_length, Ll; cbn; lia).
  assert (Th : forall k, k < rows * cols -> nth_error (data t) k = Some (thin density (rand_double_64 (w k)))).
  { intros k Hk. unfold t. cbn [data]. rewrite nth_error_map. unfold l. rewrite nth_error_map_seq by auto. reflexivity. }
  destruct (of_dense_any Dnum dzero plus_zero plus_zero_ok eq_refl jrs jcol jdata t rows cols Wt eq_refl) as (m & Em & Wm & Sm & Rm & Cm & He).
  exists st0, st1, m, st2. split; [auto|]. split; [auto|]. split.
  { unfold sparse_random. unfold random in E2. rewrite E2. cbn [bind data dims]. rewrite thin_loop. cbn [bind]. unfold reshape. cbn [data]. rewrite map_length, Ll.
    replace (total_size [rows; cols]) with (rows * cols) by (rewrite total_size_nelem; cbn; lia). rewrite Nat.eqb_refl. cbn [assert_ bind]. fold t. rewrite Em. reflexivity. }
  do 3 (split; [auto|]). split.
  - intros e He'. destruct (Sm e He') as [H1 H2]. apply In_nth_error in H1. destruct H1 as [k Hk].
    assert (Lk : k < rows * cols) by (assert (k < length (data t)) by (apply nth_error_Some; congruence); unfold t in *; cbn [data] in *; rewrite map_length, Ll in *; auto).
    rewrite Th in Hk by auto. injection Hk as <-. destruct (bits64_ok w k (HB k)) as (A1 & _ & A3). destruct (thin_ok density _ Fd Hd A1 (proj1 A3)) as (T1 & T2 & _).
    split; [auto|]. split; [|apply T2]. destruct (Rle_lt_or_eq_dec 0 (value (thin density (rand_double_64 (w k))))) as [|Z0]; [apply T2|auto|].
    exfalso. assert (dzero (thin density (rand_double_64 (w k))) = true) by (apply dzero_value; auto). congruence.
  - intros i j Hi Hj r e. assert (Lk : i + rows * j < rows * cols) by nia.
    assert (Ev : val Dnum t [i; j] = thin density (rand_double_64 (w (i + rows * j)))).
    { unfold val. rewrite elt_valid by (cbn [t dims]; repeat constructor; auto). cbn [t dims]. replace (lin [rows; cols] [i; j]) with (i + rows * j) by (cbn [lin]; lia). rewrite Th by auto. reflexivity. }
    destruct (bits64_ok w (i + rows * j) (HB _)) as (A1 & A2 & A3). destruct (thin_ok density _ Fd Hd A1 (proj1 A3)) as (T1 & T2 & T3 & T4).
    assert (Ee : finite e /\ value e = value (thin density (rand_double_64 (w (i + rows * j))))).
    { unfold e. change (dofZ 0) with (nzero Dnum). rewrite He by auto. rewrite Ev. destruct (dzero _) eqn:Ez; [|auto]. apply dzero_value in Ez. split; [reflexivity|]. rewrite (proj2 Ez). reflexivity. }
    destruct Ee as [Ee1 Ee2]. rewrite Ee2. unfold r. rewrite <- A2. auto.
Qed.
Print Assumptions C89_sparse.

(* With the density 0 a number that is drawn as 0 becomes NaN (0 / 0). *)
Lemma thin_zero : forall r, finite r -> (0 <= value r)%R ->
  (value r = 0%R -> is_nan (thin (dofZ 0) r) = true) /\ ((0 < value r)%R -> thin (dofZ 0) r = dofZ 0).
Proof.
  intros r Fr Hr. unfold thin. change (dofZ 0) with (B754_zero false : double).
  assert (Fa : is_finite (dabs r) = true) by (unfold dabs; rewrite is_finite_Babs; exact Fr).
  assert (Ea : B2R (dabs r) = value r) by (unfold dabs; rewrite B2R_Babs; apply Rabs_pos_eq; exact Hr).
  assert (Hlt : dlt (B754_zero false) (dabs r) = Rlt_bool 0 (value r)) by (unfold dlt; rewrite Bltb_correct by auto; rewrite Ea; reflexivity).
  rewrite Hlt. split; intros H.
  - rewrite H. rewrite Rlt_bool_false by lra. assert (dzero r = true) by (apply dzero_value; auto). destruct r as [s|s| |s m e He]; [reflexivity| |reflexivity|]; exfalso.
    + unfold finite in Fr. discriminate Fr.
    + unfold dzero in *. destruct s; discriminate.
  - rewrite Rlt_bool_true by lra. reflexivity.
Qed.
Theorem C89_density_zero_refuted :
  (forall r, random_double r -> (value r = 0%R -> is_nan (thin (dofZ 0) r) = true) /\ ((0 < value r)%R -> thin (dofZ 0) r = dofZ 0)) /\
  exists r, random_double r /\ is_nan (thin (dofZ 0) r) = true.
Proof.
  split; [intros r Hr; destruct (random_drawn r Hr) as [F K]; apply thin_zero; [auto|lra]|].
  assert (H0 : random_double (rand_double_64 0)) by (constructor; lia). exists (rand_double_64 0). split; [exact H0|]. destruct (random_drawn _ H0) as [F K]. apply thin_zero; [auto|lra|].
  destruct (C49_doubles_exact 0) as (_ & E & _); [lia|]. rewrite E. cbn. lra.
Qed.
Print Assumptions C89_density_zero_refuted.

(* rand<T>() is always 0 for integer types other than int, long and their unsigned
   variants, although the documentation promises the whole range *)
Theorem C88_other_integers_refuted : forall r, random_double r -> rand_other r = 0%Z.
Proof.
  intros r H. destruct (random_drawn r H) as [_ K]. unfold rand_other. change (B2R r) with (value r). pose proof (bpow_gt_0 radix2 (-53)).
  rewrite Ztrunc_floor by lra. apply Zfloor_imp. cbn. lra.
Qed.
Print Assumptions C88_other_integers_refuted.

(* Non-vacuity: every seed has its words; a density *)
Example C89_meets : forall s, (exists w, words64 s w) /\ (exists w, words32 s w) /\ history_ok [Draw; Seed 3; SeedArray [5%Z]] /\ finite (dofZ 1) /\ (0 < value (dofZ 1))%R.
Proof.
  intros s. destruct (init64_exists s) as (x & A & B). destruct (init32_exists s) as (y & C & D). split; [|split; [|split]].
  - exists (fun k => output64 (x (312 + k))), x. auto.
  - exists (fun k => output32 (y (624 + k))), y. auto.
  - repeat constructor. discriminate.
  - destruct (dofZ_ok 1) as [E F]; [lia|]. split; [auto|]. rewrite F. cbn. lra.
Qed.

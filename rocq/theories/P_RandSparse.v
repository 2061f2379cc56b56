(* C89: random sparse matrices of complex numbers.  Vocabulary: S_Rand.v,
   S_RandTensor.v, S_Sparse.v, S_Double.v *)
From Coq Require Import Reals Lra.
From Flocq Require Import Core BinarySingleNaN.
From Verif Require Import Base Spec S_Fold S_Reduce S_Sparse M_Tensor M_Sparse L_Lin L_Tensor L_Fold.
From Verif Require Import M_Rand S_Rand L_Rand M_Double S_Double L_Double M_DoubleReduce M_RandDouble P_RandDouble S_RandTensor M_RandTensor L_RandTensor P_RandSeed P_RandTensor M_RandSparse.
Local Open Scope nat_scope.

(* what is assumed of std::abs: a finite number not below the parts *)
Definition absolute (habs : double * double -> double) : Prop :=
  forall x y, finite x -> finite y -> (0 <= value x <= 1)%R -> (0 <= value y <= 1)%R ->
    finite (habs (x, y)) /\ (value x <= value (habs (x, y)))%R /\ (value y <= value (habs (x, y)))%R.

Definition Pnum : numops (double * double) :=
  mkNum (dofZ 0, dofZ 0) (dofZ 1, dofZ 0) (fun a _ => a) (fun a _ => a) (fun a => a).
Definition plus_zeros (z : double * double) : bool := plus_zero (fst z) && plus_zero (snd z).
Lemma plus_zeros_ok z : plus_zeros z = true <-> z = nzero Pnum.
Proof.
  unfold plus_zeros. rewrite andb_true_iff, !plus_zero_ok. destruct z as [x y]. cbn [fst snd Pnum nzero]. split.
  - intros [E F]. f_equal; assumption.
  - intros E. split; [exact (f_equal fst E)|exact (f_equal snd E)].
Qed.
Lemma map_loop {E} (f : E -> E) (l : list E) : for_ (length l) (fun k d => x <- rd d k ;; wr d k (f x)) l = Ok (map f l).
Proof.
  destruct (for_inv (fun m (d : list E) => length d = length l /\ forall q, nth_error d q = if q <? m then option_map f (nth_error l q) else nth_error l q)
    (length l) (fun k d => x <- rd d k ;; wr d k (f x)) l) as (d & E0 & L & H).
  - split; auto.
  - intros i d Hi (L & H). destruct (nth_error_lt l i Hi) as [x Hx]. assert (Hd : nth_error d i = Some x) by (rewrite H, Nat.ltb_irrefl; auto).
    rewrite (rd_ok _ _ _ Hd). cbn [bind]. rewrite wr_ok by lia. eexists. split; [reflexivity|]. rewrite length_upd. split; [auto|]. intros q.
    destruct (Nat.eq_dec q i) as [->|Hq].
    + rewrite nth_error_upd_eq by lia. replace (i <? S i) with true by (symmetry; apply Nat.ltb_lt; lia). rewrite Hx. reflexivity.
    + rewrite nth_error_upd_ne by auto. rewrite H. destruct (Nat.ltb_spec q i), (Nat.ltb_spec q (S i)); try lia; reflexivity.
  - rewrite E0. f_equal. apply list_eq_nth_len; [rewrite map_length; auto|]. intros q Hq. rewrite H. rewrite L in Hq. apply Nat.ltb_lt in Hq. rewrite Hq. symmetry. apply nth_error_map.
Qed.

(* one part of an element that stays *)
Lemma thin_low density r : finite density -> finite r -> (0 <= value r <= value density)%R -> ddiv r density = thin density r.
Proof.
  intros Fd Fr Hr. unfold thin.
  assert (Fa : is_finite (dabs r) = true) by (unfold dabs; rewrite is_finite_Babs; exact Fr).
  assert (Ea : B2R (dabs r) = value r) by (unfold dabs; rewrite B2R_Babs; apply Rabs_pos_eq; apply Hr).
  assert (Hlt : dlt density (dabs r) = Rlt_bool (value density) (value r)) by (unfold dlt; rewrite Bltb_correct by auto; rewrite Ea; reflexivity).
  rewrite Hlt. destruct (Rlt_bool_spec (value density) (value r)) as [H|H]; [lra|reflexivity].
Qed.

(* e is the quotient of r by the density, rounded *)
Definition scaled (density : double) (e : double) (r : R) : Prop :=
  (Rabs (value e - r / value density) <= uro * (r / value density) + tiny)%R.

(* CSparse::random(rows, columns, density): the elements of the random tensor of
   C89_complex_partial whose absolute value is above the density become zeros, the
   others are divided by it (and rounded); zeros are not stored. *)
Theorem C89_complex_sparse_partial : forall habs h s w rows columns density junk jrs jcol jdata (order : nat -> bool), absolute habs ->
  history_ok h -> words64 s w -> finite density -> (0 < value density)%R ->
  exists st0 st1 m st2, rand_run mt64 h (mt_start mt64) = Ok st0 /\ init_genrand mt64 s st0 = Ok st1 /\
    csparse_random habs (fun k => draw_complex draw64 (order k)) junk jrs jcol jdata rows columns density st1 = Ok (m, st2) /\
    wf_sparse m /\ srows m = rows /\ scols m = columns /\
    (forall e, In e (sdata m) -> finite (fst e) /\ finite (snd e) /\ (0 <= value (fst e) <= 1)%R /\ (0 <= value (snd e) <= 1)%R /\
       (value (fst e) <> 0%R \/ value (snd e) <> 0%R)) /\
    forall i j, i < rows -> j < columns ->
      let k := i + rows * j in
      let first := units (bits64 w (2 * k)) in let second := units (bits64 w (2 * k + 1)) in
      let e := entry (dofZ 0, dofZ 0) m i j in
      exists re im, finite re /\ finite im /\ (value re, value im) = (if order k then (first, second) else (second, first)) /\
        finite (fst e) /\ finite (snd e) /\
        ((value density < value (habs (re, im)))%R -> value (fst e) = 0%R /\ value (snd e) = 0%R) /\
        ((value (habs (re, im)) <= value density)%R -> scaled density (fst e) (value re) /\ scaled density (snd e) (value im)).
Proof.
  intros habs h s w rows cols density junk jrs jcol jdata order Ha Hh (x & Hs & Hx & Hw) Fd Hd.
  destruct (state64 h s x Hh Hs Hx) as (st0 & st1 & E0 & E1 & F & R & B).
  assert (HB : forall k, (0 <= w k < 2 ^ 64)%Z) by (intros k; rewrite Hw; apply B).
  set (v := fun k => rand_double_64 (w k)).
  set (z := fun k => if order k then (v (2 * k), v (2 * k + 1)) else (v (2 * k + 1), v (2 * k))).
  destruct (random_ok (fun k => draw_complex draw64 (order k)) z (fun k => follows mt64 x (2 * k)) 0 junk [rows * cols] st1) as (st2 & E2 & _).
  { intros k st Hk. cbn [Nat.add] in *. apply (draw_complex_ok draw64 v (follows mt64 x) (order k)); [|exact Hk]. intros k' st' Hk'. destruct (draw64_ok x k' st' R Hk') as (st2 & E & F'). exists st2. unfold v. rewrite Hw. auto. }
  { exact F. }
  replace (nelem [rows * cols]) with (rows * cols) in E2 by (cbn; lia). set (l := map (fun k => z (0 + k)) (seq 0 (rows * cols))) in *.
  assert (Ll : length l = rows * cols) by (unfold l; rewrite map_length, seq_length; reflexivity).
  set (t := mkT [rows; cols] (map (cthin habs density) l)).
  assert (Wt : wf t) by (unfold wf, t; cbn [data dims]; rewrite map_length, Ll; cbn; lia).
  assert (Th : forall k, k < rows * cols -> nth_error (data t) k = Some (cthin habs density (z k))).
  { intros k Hk. unfold t. cbn [data]. rewrite nth_error_map. unfold l. rewrite nth_error_map_seq by auto. reflexivity. }
  (* the numbers drawn *)
  assert (Vk : forall k, finite (v k) /\ value (v k) = units (bits64 w k) /\ (0 <= value (v k) <= 1)%R).
  { intros k. destruct (bits64_ok w k (HB k)) as (A1 & A2 & A3). unfold v. split; [exact A1|]. split; [exact A2|]. split; apply A3 || (apply Rlt_le; apply A3). }
  assert (Zk : forall k, finite (fst (z k)) /\ finite (snd (z k)) /\ (0 <= value (fst (z k)) <= 1)%R /\ (0 <= value (snd (z k)) <= 1)%R /\
    (value (fst (z k)), value (snd (z k))) = (if order k then (units (bits64 w (2 * k)), units (bits64 w (2 * k + 1))) else (units (bits64 w (2 * k + 1)), units (bits64 w (2 * k))))).
  { intros k. destruct (Vk (2 * k)) as (A1 & A2 & A3). destruct (Vk (2 * k + 1)) as (B1 & B2 & B3). unfold z. rewrite <- A2, <- B2. destruct (order k); cbn [fst snd]; auto. }
  (* one element after the loop *)
  assert (Ck : forall k, let e := cthin habs density (z k) in finite (fst e) /\ finite (snd e) /\ (0 <= value (fst e) <= 1)%R /\ (0 <= value (snd e) <= 1)%R /\
     ((value density < value (habs (z k)))%R -> value (fst e) = 0%R /\ value (snd e) = 0%R) /\
     ((value (habs (z k)) <= value density)%R -> scaled density (fst e) (value (fst (z k))) /\ scaled density (snd e) (value (snd (z k))))).
  { intros k e. destruct (Zk k) as (F1 & F2 & I1 & I2 & _). destruct (Ha (fst (z k)) (snd (z k)) F1 F2 I1 I2) as (G0 & G1 & G2).
    rewrite <- (surjective_pairing (z k)) in G0, G1, G2.
    assert (Hlt : dlt density (habs (z k)) = Rlt_bool (value density) (value (habs (z k)))) by (unfold dlt; rewrite Bltb_correct by auto; reflexivity).
    unfold e, cthin. rewrite Hlt. destruct (Rlt_bool_spec (value density) (value (habs (z k)))) as [H|H]; cbn [fst snd].
    - destruct (dofZ_ok 0) as [Z1 Z2]; [lia|]. rewrite Z2. cbn. do 4 (split; [first [exact Z1|lra]|]). split; [intros _; split; reflexivity|lra].
    - assert (Hf1 : ddiv (fst (z k)) density = thin density (fst (z k))) by (apply thin_low; auto; lra).
      assert (Hf2 : ddiv (snd (z k)) density = thin density (snd (z k))) by (apply thin_low; auto; lra).
      rewrite Hf1, Hf2.
      destruct (thin_ok density _ Fd Hd F1 (proj1 I1)) as (T1 & T2 & _ & T4). destruct (thin_ok density _ Fd Hd F2 (proj1 I2)) as (U1 & U2 & _ & U4).
      repeat (split; [assumption|]). split; [lra|]. intros _. split; [apply T4; lra|apply U4; lra]. }
  destruct (of_dense_any Pnum czero plus_zeros plus_zeros_ok eq_refl jrs jcol jdata t rows cols Wt eq_refl) as (m & Em & Wm & Sm & Rm & Cm & He).
  exists st0, st1, m, st2. split; [auto|]. split; [auto|]. split.
  { unfold csparse_random. unfold random in E2. rewrite E2. cbn [bind data dims]. rewrite map_loop. cbn [bind]. unfold reshape. cbn [data]. rewrite map_length, Ll.
    replace (total_size [rows; cols]) with (rows * cols) by (rewrite total_size_nelem; cbn; lia). rewrite Nat.eqb_refl. cbn [assert_ bind]. fold t. rewrite Em. reflexivity. }
  do 3 (split; [auto|]). split.
  - intros e He'. destruct (Sm e He') as [H1 H2]. apply In_nth_error in H1. destruct H1 as [k Hk].
    assert (Lk : k < rows * cols) by (assert (k < length (data t)) by (apply nth_error_Some; congruence); unfold t in *; cbn [data] in *; rewrite map_length, Ll in *; auto).
    rewrite Th in Hk by auto. injection Hk as <-. destruct (Ck k) as (T1 & T2 & T3 & T4 & _). repeat (split; [assumption|]).
    destruct (Req_dec (value (fst (cthin habs density (z k)))) 0) as [Q1|Q1]; [|left; exact Q1].
    destruct (Req_dec (value (snd (cthin habs density (z k)))) 0) as [Q2|Q2]; [|right; exact Q2].
    exfalso. unfold czero in H2.
    assert (D1 : dzero (fst (cthin habs density (z k))) = true) by (apply dzero_value; auto).
    assert (D2 : dzero (snd (cthin habs density (z k))) = true) by (apply dzero_value; auto). rewrite D1, D2 in H2. discriminate H2.
  - intros i j Hi Hj k first second e. assert (Lk : k < rows * cols) by (unfold k; nia).
    assert (Ev : val Pnum t [i; j] = cthin habs density (z k)).
    { unfold val. rewrite elt_valid by (cbn [t dims]; repeat constructor; auto). cbn [t dims]. replace (lin [rows; cols] [i; j]) with k by (unfold k; cbn [lin]; lia). rewrite Th by auto. reflexivity. }
    destruct (Zk k) as (F1 & F2 & I1 & I2 & EV). destruct (Ck k) as (T1 & T2 & T3 & T4 & T5 & T6).
    assert (Ee : finite (fst e) /\ finite (snd e) /\ value (fst e) = value (fst (cthin habs density (z k))) /\ value (snd e) = value (snd (cthin habs density (z k)))).
    { unfold e. change (dofZ 0, dofZ 0) with (nzero Pnum). rewrite He by auto. rewrite Ev. destruct (czero _) eqn:Ez; [|auto].
      unfold czero in Ez. apply andb_true_iff in Ez. destruct Ez as [D1 D2]. apply dzero_value in D1, D2. rewrite (proj2 D1), (proj2 D2). cbn [Pnum nzero fst snd]. repeat split; reflexivity. }
    destruct Ee as (Ee1 & Ee2 & Ee3 & Ee4).
    exists (fst (z k)), (snd (z k)). rewrite <- (surjective_pairing (z k)). split; [auto|]. split; [auto|]. split; [exact EV|]. split; [auto|]. split; [auto|].
    unfold scaled in *. rewrite Ee3, Ee4. split; [exact T5|exact T6].
Qed.
Print Assumptions C89_complex_sparse_partial.

(* Non-vacuity: a function that meets [absolute], the larger of the parts; the
   other hypotheses are met by C89_meets *)
Example C89_absolute : absolute (fun z => if dlt (fst z) (snd z) then snd z else fst z).
Proof.
  intros x y Fx Fy Hx Hy. cbn [fst snd].
  assert (H : dlt x y = Rlt_bool (value x) (value y)) by (unfold dlt; rewrite Bltb_correct by auto; reflexivity).
  rewrite H. destruct (Rlt_bool_spec (value x) (value y)); repeat split; auto; lra.
Qed.

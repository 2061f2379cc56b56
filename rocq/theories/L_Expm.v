(* Proofs about expm. *)
From Coq Require Import QArith Qcanon Qpower Factorial Ring Field.
From Verif Require Import Base Spec S_Fold S_Expm L_Lin M_Tensor L_Tensor L_Permute M_Arith L_Arith M_Fold L_Fold L_Kron S_Reduce M_Reduce L_Reduce M_Expm.
Local Open Scope nat_scope.

Section Field.
Context {A : Type} (N : numops A) (K : fieldops A) (L : fieldlaws N K).
Notation "0" := (nzero N). Notation "1" := (none_ N).
Infix "+" := (nadd N). Infix "*" := (nmul N). Infix "-" := (fsub K). Infix "/" := (fdiv K).
Let LN := f_num _ _ L.
Definition fopp (x : A) : A := 0 - x.

Lemma cancel_r x y z : x + z = y + z -> x = y.
Proof.
  intros H. assert (Hz : z + fopp z = 0) by (rewrite (add_comm _ LN); apply (f_sub _ _ L)).
  rewrite <- (add_0_l _ LN x), <- (add_0_l _ LN y), (add_comm _ LN 0 x), (add_comm _ LN 0 y), <- Hz, !(add_assoc _ LN), H. reflexivity.
Qed.
Lemma sub_opp x y : x - y = x + fopp y.
Proof.
  apply (cancel_r _ _ y). rewrite (f_sub _ _ L), <- (add_assoc _ LN). unfold fopp. rewrite (f_sub _ _ L), (add_comm _ LN), (add_0_l _ LN). reflexivity.
Qed.
Lemma fring : ring_theory 0 1 (nadd N) (nmul N) (fsub K) fopp eq.
Proof.
  constructor.
  - apply (add_0_l _ LN). - apply (add_comm _ LN). - apply (add_assoc _ LN). - apply (mul_1_l _ LN). - apply (mul_comm _ LN). - apply (mul_assoc _ LN). - apply (mul_add_l _ LN).
  - apply sub_opp.
  - intros x. rewrite (add_comm _ LN). apply (f_sub _ _ L).
Qed.
Add Ring FRing : fring.

Lemma div_unique a b c : b <> 0 -> a = c * b -> a / b = c.
Proof.
  intros Hb E. pose proof (f_div _ _ L a b Hb) as D. pose proof (f_div _ _ L 1 b Hb) as I.
  transitivity (a / b * (1 / b * b)); [rewrite I; ring|]. transitivity (a / b * b * (1 / b)); [ring|]. rewrite D, E.
  transitivity (c * (1 / b * b)); [ring|]. rewrite I. ring.
Qed.
Lemma mul_cancel a b c : c <> 0 -> a * c = b * c -> a = b.
Proof. intros Hc H. rewrite <- (div_unique (a * c) c a Hc eq_refl), H. apply div_unique; auto. Qed.

Lemma fnat_add a b : fnat K (a + b)%nat = fnat K a + fnat K b.
Proof. induction a as [|a IH]; cbn [Nat.add]; rewrite ?(f_nat_0 _ _ L), ?(f_nat_S _ _ L); [ring|]. rewrite IH. ring. Qed.
Lemma fnat_mul a b : fnat K (a * b)%nat = fnat K a * fnat K b.
Proof. induction a as [|a IH]; cbn [Nat.mul]; rewrite ?(f_nat_0 _ _ L), ?(f_nat_S _ _ L); [ring|]. rewrite fnat_add, IH. ring. Qed.
Lemma fnat_ne a : (0 < a)%nat -> fnat K a <> 0.
Proof. destruct a; [lia|]. intros _. apply (f_char _ _ L). Qed.
Lemma fnat_1 : fnat K 1 = 1.
Proof. rewrite (f_nat_S _ _ L), (f_nat_0 _ _ L). ring. Qed.

(* ---- the coefficients ---- *)
Lemma fact_pos k : (0 < fact k)%nat.
Proof. apply lt_O_fact. Qed.
Lemma coef_den q k : (0 < fact (2 * q) * fact k * fact (q - k))%nat.
Proof. pose proof (fact_pos (2 * q)). pose proof (fact_pos k). pose proof (fact_pos (q - k)). apply Nat.mul_pos_pos; [apply Nat.mul_pos_pos; auto|auto]. Qed.
Lemma coef_0 q : pade_coef K q 0 = 1.
Proof.
  apply div_unique; [apply fnat_ne, coef_den|]. rewrite !Nat.sub_0_r. cbn [fact]. rewrite !fnat_mul, fnat_1. ring.
Qed.
Lemma coef_S q k : (k < q)%nat -> pade_coef K q (S k) = pade_coef K q k * fnat K (q - k)%nat / fnat K (S k * (2 * q - k))%nat.
Proof.
  intros Hk. symmetry. apply div_unique; [apply fnat_ne; nia|].
  set (c := pade_coef K q k). set (d := pade_coef K q (S k)).
  assert (E1 : c * fnat K (fact (2 * q) * fact k * fact (q - k))%nat = fnat K (fact q * fact (2 * q - k))%nat) by (apply (f_div _ _ L), fnat_ne, coef_den).
  assert (E2 : d * fnat K (fact (2 * q) * fact (S k) * fact (q - S k))%nat = fnat K (fact q * fact (2 * q - S k))%nat) by (apply (f_div _ _ L), fnat_ne, coef_den).
  replace (2 * q - k)%nat with (S (2 * q - S k)) in E1 |- * by lia. replace (q - k)%nat with (S (q - S k)) in E1 |- * by lia.
  cbn [fact] in E1, E2. change (fact (2 * q - S k) + (2 * q - S k) * fact (2 * q - S k))%nat with (S (2 * q - S k) * fact (2 * q - S k))%nat in E1.
  change (fact (q - S k) + (q - S k) * fact (q - S k))%nat with (S (q - S k) * fact (q - S k))%nat in E1.
  change (fact k + k * fact k)%nat with (S k * fact k)%nat in E2.
  rewrite !fnat_mul in *.
  set (F := fnat K (fact (2 * q))) in *. set (fk := fnat K (fact k)) in *. set (fq := fnat K (fact (q - S k))) in *. set (G := fnat K (fact (2 * q - S k))) in *. set (Q := fnat K (fact q)) in *.
  set (u := fnat K (S (2 * q - S k))) in *. set (v := fnat K (S (q - S k))) in *. set (w := fnat K (S k)) in *.
  apply (mul_cancel _ _ (F * fk * fq)).
  { unfold F, fk, fq. rewrite <- !fnat_mul. apply fnat_ne. apply Nat.mul_pos_pos; [apply Nat.mul_pos_pos|]; apply fact_pos. }
  transitivity (c * (F * fk * (v * fq))); [ring|]. rewrite E1. transitivity (u * (Q * G)); [ring|]. rewrite <- E2. ring.
Qed.
Lemma coef_1 q : (0 < q)%nat -> pade_coef K q 1 = 1 / fnat K 2.
Proof.
  intros Hq. rewrite coef_S by auto. rewrite coef_0, !Nat.sub_0_r, Nat.mul_1_l.
  symmetry. apply div_unique; [apply fnat_ne; lia|]. pose proof (f_div _ _ L (1 * fnat K q) (fnat K (2 * q)) (fnat_ne (2 * q) ltac:(lia))) as D.
  rewrite fnat_mul in *. apply (mul_cancel _ _ (fnat K q)); [apply fnat_ne; auto|]. rewrite <- D at 1. ring.
Qed.

(* ---- matrices as functions ---- *)
Section Mat.
Context (n : nat).
Notation mmul := (mmul N n). Notation mpow := (mpow N n).
Lemma sum_zero m (f : nat -> A) : (forall i, (i < m)%nat -> f i = 0) -> sum_n N m f = 0.
Proof. induction m as [|m IH]; intros H; cbn [sum_n]; [reflexivity|]. rewrite IH, H by (intros; try apply H; lia). ring. Qed.
Lemma sum_delta m i (f : nat -> A) : (i < m)%nat -> sum_n N m (fun x => (if i =? x then 1 else 0) * f x) = f i.
Proof.
  induction m as [|m IH]; [lia|]. intros Hi. cbn [sum_n]. destruct (Nat.eqb_spec i m) as [->|].
  - rewrite sum_zero; [ring|]. intros x Hx. replace (m =? x) with false by lia. ring.
  - rewrite IH by lia. ring.
Qed.
Lemma mmul_ext P P' Q Q' i j : (forall x, (x < n)%nat -> P i x = P' i x) -> (forall x, (x < n)%nat -> Q x j = Q' x j) -> mmul P Q i j = mmul P' Q' i j.
Proof. intros HP HQ. unfold S_Expm.mmul. apply sum_ext. intros x Hx. rewrite HP, HQ by auto. reflexivity. Qed.
Lemma mmul_id_l P i j : (i < n)%nat -> mmul (mid N) P i j = P i j.
Proof. intros Hi. unfold S_Expm.mmul, mid. apply (sum_delta n i (fun x => P x j)). auto. Qed.
Lemma mmul_id_r P i j : (j < n)%nat -> mmul P (mid N) i j = P i j.
Proof.
  intros Hj. unfold S_Expm.mmul, mid. rewrite <- (sum_delta n j (fun x => P i x)) by auto. apply sum_ext. intros x _. rewrite (Nat.eqb_sym x j). ring.
Qed.
Lemma sum_swap m p (f : nat -> nat -> A) : sum_n N m (fun i => sum_n N p (fun j => f i j)) = sum_n N p (fun j => sum_n N m (fun i => f i j)).
Proof.
  induction m as [|m IH]; cbn [sum_n]; [rewrite sum_zero; auto|]. rewrite IH. clear IH. induction p as [|p IH]; cbn [sum_n]; [ring|]. rewrite <- IH. ring.
Qed.
Lemma mmul_assoc P Q R i j : mmul P (mmul Q R) i j = mmul (mmul P Q) R i j.
Proof.
  unfold S_Expm.mmul. transitivity (sum_n N n (fun x => sum_n N n (fun y => P i x * Q x y * R y j))).
  - apply sum_ext. intros x _. rewrite (sum_scal_l N LN). apply sum_ext. intros y _. ring.
  - rewrite sum_swap. apply sum_ext. intros y _. rewrite (sum_scal_r N LN). reflexivity.
Qed.
Lemma mpow_add P a b i j : (i < n)%nat -> mpow P (a + b)%nat i j = mmul (mpow P a) (mpow P b) i j.
Proof.
  revert i. induction a as [|a IH]; intros i Hi; cbn [Nat.add S_Expm.mpow]; [rewrite mmul_id_l by auto; reflexivity|].
  rewrite <- mmul_assoc. apply mmul_ext; [auto|]. intros x Hx. apply IH. auto.
Qed.
Lemma mpow_ext P Q k i j : (forall i j, (i < n)%nat -> (j < n)%nat -> P i j = Q i j) -> (i < n)%nat -> mpow P k i j = mpow Q k i j.
Proof.
  intros H. revert i. induction k as [|k IH]; intros i Hi; cbn [S_Expm.mpow]; [reflexivity|]. apply mmul_ext; [auto|]. intros x Hx. apply IH. auto.
Qed.
Lemma mpow_mul P a b i j : (i < n)%nat -> (j < n)%nat -> mpow (mpow P a) b i j = mpow P (b * a)%nat i j.
Proof.
  revert i. induction b as [|b IH]; intros i Hi Hj; cbn [Nat.mul S_Expm.mpow]; [reflexivity|]. rewrite mpow_add by auto. apply mmul_ext; [auto|]. intros x Hx. apply IH; auto.
Qed.
Lemma mpow_neg P k i j : mpow (mneg N K P) k i j = if Nat.even k then mpow P k i j else fopp (mpow P k i j).
Proof.
  revert i. induction k as [|k IH]; intros i; [reflexivity|]. cbn [S_Expm.mpow]. rewrite Nat.even_succ, <- Nat.negb_even. unfold S_Expm.mmul.
  transitivity (sum_n N n (fun x => (if Nat.even k then fopp 1 else 1) * (P i x * mpow P k x j))).
  - apply sum_ext. intros x _. rewrite IH. unfold mneg. change (fsub K 0 (P i x)) with (fopp (P i x)). destruct (Nat.even k); ring.
  - rewrite <- (sum_scal_l N LN). destruct (Nat.even k); cbn [negb]; ring.
Qed.

(* ---- tensors that hold matrices ---- *)
Context (jd : nat -> nat) (junk : nat -> A).
Definition rep (t : tensor A) (f : nat -> nat -> A) : Prop :=
  wf t /\ dims t = [n; n] /\ forall i j, (i < n)%nat -> (j < n)%nat -> elt t [i; j] = Some (f i j).
Lemma rep_val t f i j : rep t f -> (i < n)%nat -> (j < n)%nat -> val N t [i; j] = f i j.
Proof. intros (_ & _ & H) Hi Hj. unfold val. rewrite H by auto. reflexivity. Qed.
Lemma rep_self t : wf t -> dims t = [n; n] -> rep t (fun i j => val N t [i; j]).
Proof.
  intros W D. split; [auto|]. split; [auto|]. intros i j Hi Hj. unfold val.
  rewrite elt_valid by (rewrite D; repeat constructor; auto). rewrite D, !lin_cons, lin_nil.
  destruct (nth_error_lt (data t) (i + n * (j + n * 0))%nat) as (v & ->); [|reflexivity]. rewrite W, D. cbn. nia.
Qed.
Lemma rep_ext t f g : rep t f -> (forall i j, (i < n)%nat -> (j < n)%nat -> f i j = g i j) -> rep t g.
Proof. intros (W & D & E) H. split; [auto|]. split; [auto|]. intros i j Hi Hj. rewrite E, H by auto. reflexivity. Qed.
Lemma rep_mmult a b f g : (0 < n)%nat -> rep a f -> rep b g -> exists c, mmult N jd junk a b = Ok c /\ rep c (mmul f g).
Proof.
  intros Hn Ha Hb. destruct (mmult_ok N jd junk a b n n n) as (p & E & W & D & H); try apply Ha; try apply Hb; auto.
  exists p. split; [auto|]. split; [auto|]. split; [auto|]. intros i j Hi Hj. rewrite H by auto. f_equal. apply sum_ext. intros x Hx.
  rewrite (rep_val a f), (rep_val b g) by auto. reflexivity.
Qed.
Lemma rep_op op a b f g : rep a f -> rep b g -> exists c, t_op_t op junk a b = Ok c /\ rep c (fun i j => op (f i j) (g i j)).
Proof.
  intros (Wa & Da & Ea) (Wb & Db & Eb). destruct (t_op_t_ok op junk a b Wa Wb ltac:(congruence)) as (c & E & W & D & H).
  exists c. split; [auto|]. split; [auto|]. split; [congruence|]. intros i j Hi Hj. rewrite H, Ea, Eb by auto. reflexivity.
Qed.
Lemma rep_scale op (x : A) b g : rep b g -> exists c, n_op_t op junk x b = Ok c /\ rep c (fun i j => op x (g i j)).
Proof.
  intros (Wb & Db & Eb). rewrite n_op_t_unop. destruct (unop_ok (fun y => op x y) junk b Wb) as (c & E & W & D & H).
  exists c. split; [auto|]. split; [auto|]. split; [congruence|]. intros i j Hi Hj. rewrite H, Eb by auto. reflexivity.
Qed.
Lemma rep_div (x : A) b g : rep b g -> exists c, t_op_n (fdiv K) junk b x = Ok c /\ rep c (fun i j => g i j / x).
Proof.
  intros (Wb & Db & Eb). rewrite t_op_n_unop. destruct (unop_ok (fun y => y / x) junk b Wb) as (c & E & W & D & H).
  exists c. split; [auto|]. split; [auto|]. split; [congruence|]. intros i j Hi Hj. rewrite H, Eb by auto. reflexivity.
Qed.
Lemma rep_eye : exists c, eye N junk n n = Ok c /\ rep c (mid N).
Proof. destruct (eye_ok N junk n n) as (m & E & W & D & H). exists m. split; [auto|]. split; [auto|]. split; auto. Qed.

Lemma mpow_1 P i j : (j < n)%nat -> mpow P 1 i j = P i j.
Proof. intros Hj. cbn [S_Expm.mpow]. apply mmul_id_r. auto. Qed.

Definition partial (q m : nat) (P : nat -> nat -> A) : nat -> nat -> A :=
  fun i j => sum_n N m (fun k => pade_coef K q k * mpow P k i j).
Lemma parts_ok B f q : (0 < n)%nat -> (1 <= q)%nat -> rep B f ->
  exists Nm D, pade_parts N K jd junk B q = Ok (Nm, D) /\ rep Nm (pade N K n q f) /\ rep D (pade N K n q (mneg N K f)).
Proof.
  intros Hn Hq HB. unfold pade_parts.
  assert (Hdim : dimension B 0 = Ok n) by (unfold dimension; rewrite (proj1 (proj2 HB)); reflexivity). rewrite Hdim. cbn [bind].
  destruct rep_eye as (I & EI & RI). rewrite EI. cbn [bind].
  destruct (rep_scale (nmul N) (1 / fnat K 2) B f HB) as (cA & EcA & RcA). rewrite EcA. cbn [bind].
  destruct (rep_op (nadd N) I cA _ _ RI RcA) as (N0 & EN & RN). rewrite EN. cbn [bind].
  destruct (rep_op (fsub K) I cA _ _ RI RcA) as (D0 & ED & RD). rewrite ED. cbn [bind].
  set (P := fun (i : nat) (s : A * tensor A * tensor A * tensor A) => let '(c, X, Nm, D) := s in
     c = pade_coef K q (i + 1)%nat /\ rep X (mpow f (i + 1)%nat) /\ rep Nm (partial q (i + 2)%nat f) /\ rep D (partial q (i + 2)%nat (mneg N K f))).
  destruct (for_inv P (q - 1) (pade_step N K jd junk B q) (1 / fnat K 2, B, N0, D0)) as ([[[c X] Nm] D] & E & (_ & _ & R1 & R2)).
  - cbn [P Nat.add]. split; [rewrite coef_1 by auto; reflexivity|]. split; [|split].
    + eapply rep_ext; [exact HB|]. intros i j Hi Hj. rewrite mpow_1 by auto. reflexivity.
    + eapply rep_ext; [exact RN|]. intros i j Hi Hj. unfold partial. cbn [sum_n]. rewrite coef_0, coef_1, mpow_1 by auto. cbn [S_Expm.mpow]. ring.
    + eapply rep_ext; [exact RD|]. intros i j Hi Hj. unfold partial. cbn [sum_n]. rewrite coef_0, coef_1, mpow_1 by auto. cbn [S_Expm.mpow]. unfold mneg. ring.
  - intros i [[[c X] Nm] D] Hi (-> & RX & RNm & RDm). unfold pade_step.
    replace (q - (i + 2) + 1)%nat with (q - (i + 1))%nat by lia. replace ((i + 2) * (2 * q - (i + 2) + 1))%nat with (S (i + 1) * (2 * q - (i + 1)))%nat by (f_equal; lia).
    rewrite <- coef_S by lia. replace (S (i + 1)) with (i + 2)%nat by lia.
    destruct (rep_mmult B X _ _ Hn HB RX) as (X' & EX & RX'). rewrite EX. cbn [bind].
    destruct (rep_scale (nmul N) (pade_coef K q (i + 2)) X' _ RX') as (cX & EcX & RcX). rewrite EcX. cbn [bind].
    destruct (rep_op (nadd N) Nm cX _ _ RNm RcX) as (N1 & EN1 & RN1). rewrite EN1. cbn [bind].
    assert (Emul : forall a b, mmul f (mpow f (i + 1)) a b = mpow f (i + 2) a b) by (intros; replace (i + 2)%nat with (S (i + 1)) by lia; reflexivity).
    assert (HD : exists D1, (if Nat.even (i + 2) then t_op_t (nadd N) junk D cX else t_op_t (fsub K) junk D cX) = Ok D1 /\ rep D1 (partial q (S (i + 2)) (mneg N K f))).
    { destruct (Nat.even (i + 2)) eqn:Ev.
      - destruct (rep_op (nadd N) D cX _ _ RDm RcX) as (D1 & ED1 & RD1). exists D1. split; [auto|]. eapply rep_ext; [exact RD1|].
        intros a b Ha Hb. unfold partial. cbn [sum_n]. rewrite (mpow_neg f (i + 2)), Ev, Emul. reflexivity.
      - destruct (rep_op (fsub K) D cX _ _ RDm RcX) as (D1 & ED1 & RD1). exists D1. split; [auto|]. eapply rep_ext; [exact RD1|].
        intros a b Ha Hb. unfold partial. cbn [sum_n]. rewrite (mpow_neg f (i + 2)), Ev, Emul. ring. }
    destruct HD as (D1 & ED1 & RD1). rewrite ED1. cbn [bind]. eexists. split; [reflexivity|]. cbn [P].
    replace (S i + 1)%nat with (i + 2)%nat by lia. replace (S i + 2)%nat with (S (i + 2)) by lia. split; [reflexivity|]. split; [|split; [|exact RD1]].
    + eapply rep_ext; [exact RX'|]. auto.
    + eapply rep_ext; [exact RN1|]. intros a b Ha Hb. unfold partial. cbn [sum_n]. rewrite Emul. reflexivity.
  - rewrite E. cbn [bind]. exists Nm, D. split; [reflexivity|]. replace (q - 1 + 2)%nat with (S q) in * by lia. split; [exact R1|exact R2].
Qed.

Lemma squares_ok X g j : (0 < n)%nat -> rep X g -> exists Y, for_ j (fun _ X => mmult N jd junk X X) X = Ok Y /\ rep Y (mpow g (2 ^ j)%nat).
Proof.
  intros Hn HX. destruct (for_inv (fun j Y => rep Y (mpow g (2 ^ j)%nat)) j (fun _ X => mmult N jd junk X X) X) as (Y & E & R).
  - eapply rep_ext; [exact HX|]. intros i l Hi Hl. cbn [Nat.pow]. rewrite mpow_1 by auto. reflexivity.
  - intros i Y Hi R. destruct (rep_mmult Y Y _ _ Hn R R) as (Y' & -> & R'). exists Y'. split; [reflexivity|]. eapply rep_ext; [exact R'|].
    intros a b Ha Hb. rewrite <- mpow_add by auto. f_equal. rewrite Nat.pow_succ_r'. lia.
  - eauto.
Qed.
End Mat.
End Field.

(* ---- the rational numbers ---- *)
Lemma Qcnum_laws : numlaws Qcnum.
Proof.
  constructor; cbn; intros; try ring; auto.
Qed.
Lemma Qcfield_laws : fieldlaws Qcnum Qcfield.
Proof.
  constructor; [exact Qcnum_laws|..]; cbn [Qcnum Qcfield nadd nmul nzero none_ fsub fdiv fnat].
  - intros x y. ring.
  - intros x y Hy. field. auto.
  - reflexivity.
  - intros n. apply Qc_is_canon. cbn [this Q2Qc Qcplus]. rewrite !Qred_correct. rewrite Nat2Z.inj_succ. unfold Z.succ. rewrite inject_Z_plus. reflexivity.
  - intros n H. apply (f_equal this) in H. cbn [this Q2Qc] in H. pose proof (Qred_correct (inject_Z (Z.of_nat (S n)))) as E. rewrite H in E. unfold Qeq in E. cbn in E. lia.
Qed.
Lemma Qc_ltb_lt x y : Qc_ltb x y = true <-> (x < y)%Qc.
Proof.
  unfold Qc_ltb, Qclt. rewrite negb_true_iff. split.
  - intros H. apply Qnot_le_lt. intros C. apply Qle_bool_iff in C. congruence.
  - intros H. destruct (Qle_bool y x) eqn:E; [|reflexivity]. apply Qle_bool_iff in E. exfalso. eapply Qlt_not_le; eauto.
Qed.
Lemma Qc_ltb_ge x y : Qc_ltb x y = false <-> (y <= x)%Qc.
Proof. unfold Qc_ltb, Qcle. rewrite negb_false_iff. apply Qle_bool_iff. Qed.

Lemma pow2_pos e : (0 < (2 # 1) ^ e)%Q.
Proof.
  assert (H : (0 <= (2 # 1) ^ e)%Q) by (apply Qpower_pos; discriminate). apply Qle_lteq in H as [H|H]; [auto|]. exfalso. apply (Qpower_not_0 (2 # 1) e); [discriminate|]. symmetry. exact H.
Qed.
Lemma pow2_Z k : (0 <= k)%Z -> ((2 # 1) ^ k == inject_Z (2 ^ k))%Q.
Proof. intros Hk. change (2 # 1)%Q with (inject_Z 2). symmetry. apply Zpower_Qpower. auto. Qed.
Lemma pow2_add a b : ((2 # 1) ^ (a + b) == (2 # 1) ^ a * (2 # 1) ^ b)%Q.
Proof. apply Qpower_plus. discriminate. Qed.
Lemma floor_log2_spec (x : Qc) : (0 < x)%Qc -> exists e, floor_log2_Qc x = Ok e /\ ((2 # 1) ^ e <= x)%Q /\ (x < (2 # 1) ^ (e + 1))%Q.
Proof.
  intros Hx. unfold floor_log2_Qc. unfold Qclt, Qlt in Hx. cbn in Hx. replace (Qnum x <=? 0)%Z with false by lia.
  set (nu := Qnum x) in *. set (de := Qden x) in *.
  assert (Hnu : (0 < nu)%Z) by lia.
  pose proof (Z.log2_spec nu Hnu) as [N1 N2]. pose proof (Z.log2_spec (Zpos de) ltac:(lia)) as [D1 D2].
  pose proof (Z.log2_nonneg nu) as Pn. pose proof (Z.log2_nonneg (Zpos de)) as Pd.
  set (a := Z.log2 nu) in *. set (b := Z.log2 (Zpos de)) in *.
  assert (Ex : (x * inject_Z (Zpos de) == inject_Z nu)%Q) by (unfold Qeq; cbn; fold nu de; lia).
  assert (Pde : (0 < inject_Z (Zpos de))%Q) by reflexivity.
  (* x < 2^(a-b+1) *)
  assert (Hup : (x < (2 # 1) ^ (a - b + 1))%Q).
  { apply (Qmult_lt_r _ _ (inject_Z (Zpos de)) Pde). rewrite Ex. apply Qlt_le_trans with ((2 # 1) ^ (a - b + 1) * inject_Z (2 ^ b))%Q.
    - rewrite <- pow2_Z by auto. rewrite <- pow2_add. replace (a - b + 1 + b)%Z with (Z.succ a) by lia. rewrite pow2_Z by lia. rewrite <- Zlt_Qlt. exact N2.
    - apply Qmult_le_l; [apply pow2_pos|]. rewrite <- Zle_Qle. exact D1. }
  assert (Hlo : ((2 # 1) ^ (a - b - 1) <= x)%Q).
  { apply Qlt_le_weak. apply (Qmult_lt_r _ _ (inject_Z (Zpos de)) Pde). rewrite Ex. apply Qlt_le_trans with ((2 # 1) ^ (a - b - 1) * inject_Z (2 ^ Z.succ b))%Q.
    - apply Qmult_lt_l; [apply pow2_pos|]. rewrite <- Zlt_Qlt. exact D2.
    - rewrite <- pow2_Z by lia. rewrite <- pow2_add. replace (a - b - 1 + Z.succ b)%Z with a by lia. rewrite pow2_Z by lia. rewrite <- Zle_Qle. exact N1. }
  destruct (Qle_bool ((2 # 1) ^ (a - b)) x) eqn:E; eexists; (split; [reflexivity|]).
  - apply Qle_bool_iff in E. split; auto.
  - split; [exact Hlo|]. apply Qnot_le_lt. intros C. replace (a - b - 1 + 1)%Z with (a - b)%Z in C by lia. apply Qle_bool_iff in C. congruence.
Qed.

Lemma Qc_ltb_total : S_Reduce.strict_total Qc_ltb.
Proof.
  constructor.
  - intros x. apply Qc_ltb_ge. apply Qcle_refl.
  - intros x y z H1 H2. apply Qc_ltb_lt in H1, H2. apply Qc_ltb_lt. eapply Qclt_trans; eauto.
  - intros x y H1 H2. apply Qc_ltb_ge in H1, H2. apply Qcle_antisym; auto.
Qed.
Lemma Qc_abs_nonneg x : (0 <= Qc_abs x)%Qc.
Proof.
  unfold Qc_abs. destruct (Qle_bool 0 x) eqn:E; [apply Qle_bool_iff in E; exact E|].
  assert (H : (x < 0)%Qc) by (apply Qc_ltb_lt; unfold Qc_ltb; cbn [this Q2Qc]; change (Qred 0) with 0%Q; rewrite E; reflexivity).
  apply Qclt_le_weak in H. apply Qcopp_le_compat in H. exact H.
Qed.
Lemma Qc_abs_pos x : x <> Q2Qc 0 -> (0 < Qc_abs x)%Qc.
Proof.
  intros Hx. destruct (Qcle_lt_or_eq _ _ (Qc_abs_nonneg x)) as [H|H]; [auto|]. exfalso. apply Hx. unfold Qc_abs in H. destruct (Qle_bool 0 x); [auto|].
  rewrite <- (Qcopp_involutive x), <- H. reflexivity.
Qed.
Lemma Qc_abs_le_iff x y : (0 < y)%Qc -> Qc_abs (x / y)%Qc = (Qc_abs x / y)%Qc.
Proof.
  intros Hy. assert (Hy0 : y <> Q2Qc 0) by (intros ->; apply Qclt_not_eq in Hy; congruence).
  unfold Qc_abs. destruct (Qle_bool 0 x) eqn:E1, (Qle_bool 0 (x / y)%Qc) eqn:E2; try reflexivity.
  - exfalso. apply Qle_bool_iff in E1. change (0 <= x)%Qc in E1. assert (H : (x / y < 0)%Qc) by (apply Qc_ltb_lt; unfold Qc_ltb; cbn [this Q2Qc]; change (Qred 0) with 0%Q; rewrite E2; reflexivity).
    apply (Qcmult_lt_compat_r _ _ y Hy) in H. replace (x / y * y)%Qc with x in H by (field; auto). replace (0 * y)%Qc with (Q2Qc 0) in H by ring. apply (Qclt_not_le _ _ H E1).
  - exfalso. apply Qle_bool_iff in E2. change (0 <= x / y)%Qc in E2. assert (H : (x < 0)%Qc) by (apply Qc_ltb_lt; unfold Qc_ltb; cbn [this Q2Qc]; change (Qred 0) with 0%Q; rewrite E1; reflexivity).
    apply (Qcmult_le_compat_r _ _ y) in E2; [|apply Qclt_le_weak; auto]. replace (x / y * y)%Qc with x in E2 by (field; auto). replace (0 * y)%Qc with (Q2Qc 0) in E2 by ring. apply (Qclt_not_le _ _ H E2).
  - field. auto.
Qed.
Lemma sum_nonneg m (f : nat -> Qc) : (forall i, (i < m)%nat -> (0 <= f i)%Qc) -> (0 <= sum_n Qcnum m f)%Qc.
Proof.
  induction m as [|m IH]; intros H; cbn [sum_n]; [apply Qcle_refl|]. cbn [Qcnum nadd]. replace (Q2Qc 0) with (Q2Qc 0 + Q2Qc 0)%Qc by reflexivity. apply Qcplus_le_compat; [apply IH; intros; apply H|apply H]; lia.
Qed.
Lemma sum_pos m (f : nat -> Qc) k : (forall i, (i < m)%nat -> (0 <= f i)%Qc) -> (k < m)%nat -> (0 < f k)%Qc -> (0 < sum_n Qcnum m f)%Qc.
Proof.
  induction m as [|m IH]; intros H Hk Hf; [lia|]. cbn [sum_n Qcnum nadd]. replace (Q2Qc 0) with (Q2Qc 0 + Q2Qc 0)%Qc by reflexivity. destruct (Nat.eq_dec k m) as [->|].
  - rewrite (Qcplus_comm (sum_n _ _ _)). apply Qclt_le_trans with (f m + 0)%Qc; [|apply Qcplus_le_compat; [apply Qcle_refl|apply sum_nonneg; intros; apply H; lia]].
    replace (f m + 0)%Qc with (f m) by ring. exact Hf.
  - apply Qclt_le_trans with (sum_n Qcnum m f + 0)%Qc; [|apply Qcplus_le_compat; [apply Qcle_refl|apply H; lia]]. replace (sum_n Qcnum m f + 0)%Qc with (sum_n Qcnum m f) by ring. apply IH; auto; lia.
Qed.
Lemma Qc_div_lt x p : (0 < p)%Qc -> (x < p)%Qc -> (x / p < 1)%Qc.
Proof.
  intros Hp Hx. assert (Hp0 : p <> Q2Qc 0) by (intros ->; apply Qclt_not_eq in Hp; congruence).
  apply Qcnot_le_lt. intros C. apply (Qcmult_le_compat_r _ _ p) in C; [|apply Qclt_le_weak; auto]. replace (x / p * p)%Qc with x in C by (field; auto). replace (1 * p)%Qc with p in C by ring. apply (Qclt_not_le _ _ Hx C).
Qed.
Lemma fnat_pow2 j : (0 < fnat Qcfield (2 ^ j))%Qc /\ (this (fnat Qcfield (2 ^ j)) == (2 # 1) ^ Z.of_nat j)%Q.
Proof.
  assert (E : (this (fnat Qcfield (2 ^ j)) == (2 # 1) ^ Z.of_nat j)%Q) by (cbn [fnat Qcfield this Q2Qc]; rewrite Qred_correct, pow2_Z by lia; rewrite Nat2Z.inj_pow; reflexivity).
  split; [|exact E]. unfold Qclt. rewrite E. apply pow2_pos.
Qed.

Lemma pow2_le1 k : (k <= 0)%Z -> ((2 # 1) ^ k <= 1)%Q.
Proof.
  intros Hk. replace k with (- (- k))%Z by lia. rewrite Qpower_opp. rewrite pow2_Z by lia.
  pose proof (Z.pow_pos_nonneg 2 (- k) ltac:(lia) ltac:(lia)) as H. destruct (2 ^ - k)%Z eqn:Ez; try lia. unfold Qle, Qinv. cbn. lia.
Qed.
Lemma scaling_ok jaux (a : tensor Qc) n : wf a -> dims a = [n; n] -> (exists i j x, elt a [i; j] = Some x /\ x <> Q2Qc 0) ->
  exists nrm e, matrix_norminf Qc_ltb (Q2Qc 0) Qcplus Qc_abs jaux a = Ok nrm /\ floor_log2_Qc nrm = Ok e /\
    let j := Z.to_nat (Z.max 0 (e + 1)) in let s i := sum_n Qcnum n (fun x => Qc_abs (val Qcnum a [i; x] / fnat Qcfield (2 ^ j))%Qc) in
    (forall i, (i < n)%nat -> (s i < 1)%Qc) /\ ((0 < j)%nat -> exists i, (i < n)%nat /\ (Q2Qc (1 # 2) <= s i)%Qc).
Proof.
  intros W D (i0 & j0 & x0 & E0 & Hx0).
  assert (Hij : (i0 < n /\ j0 < n)%nat).
  { destruct (lt_dec i0 n), (lt_dec j0 n); auto; rewrite (L_Permute.mat_elt_out a n n) in E0; auto; try discriminate; lia. }
  destruct (norminf_ok Qcnum Qcnum Qc_ltb Qc_ltb_total Qc_abs) with (jaux := jaux) (m := a) (r := n) (c := n) as (nrm & En & V1 & V2 & V3); auto.
  { intros x. cbn. ring. }
  { lia. }
  set (row := fun i => sum_n Qcnum n (fun x => Qc_abs (val Qcnum a [i; x]))) in *.
  assert (Hpos : (0 < nrm)%Qc).
  { apply Qclt_le_trans with (row i0); [|apply Qc_ltb_ge; apply V3; lia]. apply (sum_pos n _ j0); [intros; apply Qc_abs_nonneg|lia|]. unfold val. rewrite E0. apply Qc_abs_pos. auto. }
  destruct (floor_log2_spec nrm Hpos) as (e & Ee & L1 & L2). exists nrm, e. split; [exact En|]. split; [exact Ee|]. cbv zeta.
  set (j := Z.to_nat (Z.max 0 (e + 1))). destruct (fnat_pow2 j) as [P1 P2]. set (p := fnat Qcfield (2 ^ j)) in *.
  assert (Hs : forall i, sum_n Qcnum n (fun x => Qc_abs (val Qcnum a [i; x] / p)%Qc) = (row i / p)%Qc).
  { intros i. unfold row. transitivity (sum_n Qcnum n (fun x => nmul Qcnum (Qc_abs (val Qcnum a [i; x])) (/ p)%Qc)).
    - apply sum_ext. intros x _. rewrite Qc_abs_le_iff by auto. reflexivity.
    - rewrite <- (sum_scal_r Qcnum Qcnum_laws). reflexivity. }
  assert (Hnp : (nrm < p)%Qc).
  { unfold Qclt. rewrite P2. eapply Qlt_le_trans; [exact L2|]. unfold j. destruct (Z.leb_spec (e + 1) 0) as [He|He].
    - rewrite Z.max_l by lia. apply pow2_le1. auto.
    - rewrite Z.max_r by lia. rewrite Z2Nat.id by lia. apply Qle_refl. }
  split.
  - intros i Hi. rewrite Hs. apply Qc_div_lt; [auto|]. apply Qcle_lt_trans with nrm; [apply Qc_ltb_ge, V3; auto|auto].
  - intros Hj. destruct V1 as [V1|(i & Hi & V1)].
    { exfalso. rewrite V1 in Hpos. apply Qclt_not_eq in Hpos. apply Hpos. reflexivity. }
    exists i. split; [auto|]. rewrite Hs. change (nrm = row i) in V1. rewrite <- V1.
    assert (Hp0 : p <> Q2Qc 0) by (intros Ep; rewrite Ep in P1; apply Qclt_not_eq in P1; congruence).
    apply Qcnot_lt_le. intros C. apply (Qcmult_lt_compat_r _ _ p P1) in C. replace (nrm / p * p)%Qc with nrm in C by (field; auto).
    apply (Qclt_not_le _ _ C). unfold Qcle. cbn [this Qcmult Q2Qc]. rewrite !Qred_correct. rewrite P2.
    unfold j in *. rewrite Z2Nat.id by lia. rewrite Z.max_r by lia. rewrite pow2_add. setoid_replace ((1 # 2) * ((2 # 1) ^ e * (2 # 1) ^ 1))%Q with ((2 # 1) ^ e)%Q; [exact L1|]. cbn [Qpower Qpower_positive pow_pos]. ring.
Qed.

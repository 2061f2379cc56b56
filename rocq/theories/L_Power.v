(* Lemmas for P_Power.v *)
From Coq Require Import Reals Lra Psatz.
From Verif Require Import Base Spec S_Reduce S_Expm S_Cgs S_Power.
Local Open Scope R_scope.

Lemma Rnum_laws : numlaws Rnum.
Proof. constructor; cbn; intros; try ring; reflexivity. Qed.
Lemma Rfield_laws : fieldlaws Rnum Rfield.
Proof.
  constructor; try exact Rnum_laws; cbn -[INR]; intros.
  - ring.
  - field. exact H.
  - reflexivity.
  - apply S_INR.
  - rewrite S_INR. pose proof (pos_INR n). lra.
Qed.
Lemma Rltb_spec x y : Rltb x y = true <-> x < y.
Proof. unfold Rltb. destruct (Rlt_dec x y); split; intros; auto; discriminate || contradiction. Qed.
Lemma Rltb_total : strict_total Rltb.
Proof.
  constructor; unfold Rltb; intros.
  - destruct (Rlt_dec x x); [lra|reflexivity].
  - destruct (Rlt_dec x y), (Rlt_dec y z), (Rlt_dec x z); try discriminate; auto; lra.
  - destruct (Rlt_dec x y), (Rlt_dec y x); try discriminate; lra.
Qed.

Lemma sumR_S n f : sumR (S n) f = sumR n f + f n. Proof. reflexivity. Qed.
Lemma sumR_ext n f g : (forall i, (i < n)%nat -> f i = g i) -> sumR n f = sumR n g.
Proof. induction n as [|n IH]; intros H; [reflexivity|]. rewrite !sumR_S, IH, H; auto. Qed.
Lemma sumR_0 n f : (forall i, (i < n)%nat -> f i = 0) -> sumR n f = 0.
Proof. induction n as [|n IH]; intros H; [reflexivity|]. rewrite sumR_S, IH, H; auto. ring. Qed.
Lemma sumR_mul n c f : c * sumR n f = sumR n (fun i => c * f i).
Proof. induction n as [|n IH]; [apply Rmult_0_r|]. rewrite !sumR_S, <- IH. ring. Qed.
Lemma sumR_add n f g : sumR n (fun i => f i + g i) = sumR n f + sumR n g.
Proof. induction n as [|n IH]; [symmetry; apply Rplus_0_r|]. rewrite !sumR_S, IH. ring. Qed.
Lemma sumR_sub n f g : sumR n (fun i => f i - g i) = sumR n f - sumR n g.
Proof. induction n as [|n IH]; [symmetry; apply Rminus_0_r|]. rewrite !sumR_S, IH. ring. Qed.
Lemma sumR_le n f g : (forall i, (i < n)%nat -> f i <= g i) -> sumR n f <= sumR n g.
Proof. induction n as [|n IH]; intros H; [apply Rle_refl|]. rewrite !sumR_S. apply Rplus_le_compat; [apply IH; auto|apply H; lia]. Qed.
Lemma sumR_nonneg n f : (forall i, (i < n)%nat -> 0 <= f i) -> 0 <= sumR n f.
Proof. intros H. replace 0 with (sumR n (fun _ => 0)) by (apply sumR_0; auto). apply sumR_le, H. Qed.
Lemma sumR_abs n f : Rabs (sumR n f) <= sumR n (fun i => Rabs (f i)).
Proof. induction n as [|n IH]; [change (sumR 0 f) with 0; rewrite Rabs_R0; apply Rle_refl|]. rewrite !sumR_S. eapply Rle_trans; [apply Rabs_triang|]. lra. Qed.
Lemma sumR_swap n m f : sumR n (fun i => sumR m (fun j => f i j)) = sumR m (fun j => sumR n (fun i => f i j)).
Proof. induction n as [|n IH]; [symmetry; apply sumR_0; auto|]. rewrite sumR_S, IH, <- sumR_add. apply sumR_ext. intros j _. rewrite sumR_S. ring. Qed.
Lemma sumR_first n f : (0 < n)%nat -> sumR n f = f 0%nat + sumR (n - 1) (fun i => f (S i)).
Proof.
  destruct n as [|n]; [lia|]. intros _. replace (S n - 1)%nat with n by lia. induction n as [|n IH]; [unfold sumR; cbn; ring|]. rewrite sumR_S, IH. rewrite (sumR_S n (fun i => f (S i))). ring.
Qed.
Lemma sumR_delta n f i : (i < n)%nat -> sumR n (fun j => if (i =? j)%nat then f j else 0) = f i.
Proof.
  revert i. induction n as [|n IH]; intros i Hi; [lia|]. rewrite sumR_S. destruct (Nat.eqb_spec i n) as [->|N].
  - rewrite sumR_0; [ring|]. intros j Hj. replace (n =? j)%nat with false by lia. reflexivity.
  - rewrite IH by lia. ring.
Qed.

Lemma sumR_bound n f b : (forall i, (i < n)%nat -> f i <= b) -> sumR n f <= INR n * b.
Proof.
  induction n as [|n IH]; intros H; [change (sumR 0 f) with 0; cbn; lra|]. rewrite sumR_S, S_INR. specialize (IH (fun k Hk => H k (Nat.lt_lt_succ_r _ _ Hk))). specialize (H n (Nat.lt_succ_diag_r n)). lra.
Qed.
Lemma dot_sum n u v : dot Rnum n u v = sumR n (fun i => u i * v i). Proof. reflexivity. Qed.
Lemma app_sum n a v i : app Rnum n a v i = sumR n (fun k => a i k * v k). Proof. reflexivity. Qed.

Section Spectrum.
Context (n : nat) (a : nat -> nat -> R) (p : nat) (w : nat -> nat -> R) (l : nat -> R).
Context (E : eigenvectors n a p w l).

Lemma app_expands c v : expands n p w c v -> expands n p w (fun i => l i * c i) (app Rnum n a v).
Proof using E.
  intros H k Hk. rewrite app_sum. rewrite (sumR_ext n _ (fun j => sumR p (fun i => c i * (a k j * w i j)))).
  2:{ intros j Hj. rewrite (H j Hj), sumR_mul. apply sumR_ext. intros. ring. }
  rewrite sumR_swap. apply sumR_ext. intros i Hi. rewrite <- sumR_mul.
  replace (sumR n (fun j => a k j * w i j)) with (l i * w i k) by (symmetry; apply (proj2 E); auto). ring.
Qed.
Lemma power_expands c v j : expands n p w c v -> expands n p w (fun i => l i ^ j * c i) (power_vec Rnum n a v j).
Proof using E.
  intros H. induction j as [|j IH]; cbn [power_vec].
  - intros k Hk. rewrite (H k Hk). apply sumR_ext. intros. cbn. ring.
  - apply app_expands in IH. intros k Hk. rewrite (IH k Hk). apply sumR_ext. intros. cbn. ring.
Qed.
Lemma scale_expands c v s u : expands n p w c v -> (forall i, (i < n)%nat -> u i = s * v i) -> expands n p w (fun i => s * c i) u.
Proof using. intros H Hu k Hk. rewrite (Hu k Hk), (H k Hk), sumR_mul. apply sumR_ext. intros. ring. Qed.
Lemma sub_expands c v d u : expands n p w c v -> expands n p w d u -> expands n p w (fun i => c i - d i) (fun k => v k - u k).
Proof using. intros H Hu k Hk. rewrite (Hu k Hk), (H k Hk), <- sumR_sub. apply sumR_ext. intros. ring. Qed.
Lemma dot_w c v j : expands n p w c v -> (j < p)%nat -> dot Rnum n v (w j) = c j.
Proof using E.
  intros H Hj. rewrite dot_sum. rewrite (sumR_ext n _ (fun k => sumR p (fun i => c i * (w i k * w j k)))).
  2:{ intros k Hk. rewrite (H k Hk), Rmult_comm, sumR_mul. apply sumR_ext. intros. ring. }
  rewrite sumR_swap. rewrite <- (sumR_delta p c j Hj). apply sumR_ext. intros i Hi. rewrite <- sumR_mul.
  replace (sumR n (fun k => w i k * w j k)) with (dot Rnum n (w i) (w j)) by reflexivity. rewrite (proj1 E) by auto.
  destruct (Nat.eqb_spec i j) as [->|N]; [rewrite Nat.eqb_refl; ring|]. replace (j =? i)%nat with false by lia. ring.
Qed.
Lemma dot_expands c v d u : expands n p w c v -> expands n p w d u -> dot Rnum n v u = sumR p (fun i => c i * d i).
Proof using E.
  intros H Hu. rewrite dot_sum. rewrite (sumR_ext n _ (fun k => sumR p (fun i => d i * (v k * w i k)))).
  2:{ intros k Hk. rewrite (Hu k Hk), sumR_mul. apply sumR_ext. intros. ring. }
  rewrite sumR_swap. apply sumR_ext. intros i Hi. rewrite <- sumR_mul.
  replace (sumR n (fun k => v k * w i k)) with (dot Rnum n v (w i)) by reflexivity. rewrite (dot_w c) by auto. ring.
Qed.

(* the weight of the other eigenvectors in a unit vector along a^j v *)
Lemma others_small c q s j : (0 < p)%nat -> dominant p l q -> c 0%nat <> 0 -> sumR p (fun i => (s * (l i ^ j * c i)) * (s * (l i ^ j * c i))) = 1 ->
  0 <= sumR (p - 1) (fun i => (s * (l (S i) ^ j * c (S i))) * (s * (l (S i) ^ j * c (S i)))) <= q ^ (2 * j) * tangent2 p c.
Proof using.
  intros Hp (Hq & H0 & Hl) Hc H1. split; [apply sumR_nonneg; intros i Hi; nra|].
  rewrite sumR_first in H1 by auto. set (z := s * (l 0%nat ^ j * c 0%nat)) in *.
  assert (Z1 : z * z <= 1).
  { assert (0 <= sumR (p - 1) (fun i => (s * (l (S i) ^ j * c (S i))) * (s * (l (S i) ^ j * c (S i))))) by (apply sumR_nonneg; intros; nra). lra. }
  unfold tangent2.
  apply Rle_trans with (q ^ (2 * j) * (z * z * (sumR (p - 1) (fun i => c (S i) * c (S i)) / (c 0%nat * c 0%nat)))).
  - replace (q ^ (2 * j) * (z * z * (sumR (p - 1) (fun i => c (S i) * c (S i)) / (c 0%nat * c 0%nat))))
      with ((q ^ (2 * j) * (s * s * (l 0%nat ^ j * l 0%nat ^ j))) * sumR (p - 1) (fun i => c (S i) * c (S i))) by (unfold z; field; exact Hc).
    rewrite sumR_mul. apply sumR_le. intros i Hi.
    assert (B : l (S i) ^ j * l (S i) ^ j <= q ^ (2 * j) * (l 0%nat ^ j * l 0%nat ^ j)).
    { assert (B0 : Rabs (l (S i)) ^ j <= (q * Rabs (l 0%nat)) ^ j) by (apply pow_incr; split; [apply Rabs_pos|apply Hl; lia]).
      rewrite RPow_abs, Rpow_mult_distr, RPow_abs in B0.
      assert (P0 : 0 <= q ^ j) by (apply pow_le; tauto). pose proof (Rabs_pos (l (S i) ^ j)) as P1. pose proof (Rabs_pos (l 0%nat ^ j)) as P2.
      replace (l (S i) ^ j * l (S i) ^ j) with (Rabs (l (S i) ^ j) * Rabs (l (S i) ^ j)) by (rewrite <- Rabs_mult; apply Rabs_pos_eq; nra).
      replace (q ^ (2 * j) * (l 0%nat ^ j * l 0%nat ^ j)) with ((q ^ j * Rabs (l 0%nat ^ j)) * (q ^ j * Rabs (l 0%nat ^ j))).
      2:{ replace (l 0%nat ^ j * l 0%nat ^ j) with (Rabs (l 0%nat ^ j) * Rabs (l 0%nat ^ j)) by (rewrite <- Rabs_mult; apply Rabs_pos_eq; nra). replace (2 * j)%nat with (j + j)%nat by lia. rewrite pow_add. ring. }
      apply Rmult_le_compat; auto. }
    replace (s * (l (S i) ^ j * c (S i)) * (s * (l (S i) ^ j * c (S i)))) with ((s * s * (c (S i) * c (S i))) * (l (S i) ^ j * l (S i) ^ j)) by ring.
    replace (q ^ (2 * j) * (s * s * (l 0%nat ^ j * l 0%nat ^ j)) * (c (S i) * c (S i))) with ((s * s * (c (S i) * c (S i))) * (q ^ (2 * j) * (l 0%nat ^ j * l 0%nat ^ j))) by ring.
    apply Rmult_le_compat_l; [|exact B]. apply Rmult_le_pos; nra.
  - apply Rmult_le_compat_l; [apply pow_le; tauto|]. set (T := sumR (p - 1) (fun i => c (S i) * c (S i)) / (c 0%nat * c 0%nat)).
    assert (0 <= T). { unfold T, Rdiv. apply Rmult_le_pos; [apply sumR_nonneg; intros; nra|]. left. apply Rinv_0_lt_compat. nra. } nra.
Qed.
Lemma rayleigh_d d q : (0 < p)%nat -> dominant p l q -> sumR p (fun i => d i * d i) = 1 ->
  Rabs (sumR p (fun i => d i * (l i * d i)) - l 0%nat) <= 2 * Rabs (l 0%nat) * sumR (p - 1) (fun i => d (S i) * d (S i)).
Proof using.
  intros Hp Hd U1. replace (sumR p (fun i => d i * (l i * d i)) - l 0%nat) with (sumR p (fun i => (l i - l 0%nat) * (d i * d i))).
  2:{ transitivity (sumR p (fun i => d i * (l i * d i)) - l 0%nat * sumR p (fun i => d i * d i)); [|f_equal; rewrite U1; ring]. rewrite sumR_mul, <- sumR_sub. apply sumR_ext. intros. ring. }
  rewrite sumR_first by auto. rewrite Rminus_eq_0, Rmult_0_l, Rplus_0_l.
  eapply Rle_trans; [apply sumR_abs|]. rewrite sumR_mul. apply sumR_le. intros i Hi. rewrite Rabs_mult, (Rabs_pos_eq (d (S i) * d (S i))) by nra. apply Rmult_le_compat_r; [nra|].
  destruct Hd as (Hq & _ & Hl). specialize (Hl (S i) ltac:(lia) ltac:(lia)). pose proof (Rabs_pos (l 0%nat)).
  assert (B : Rabs (l (S i) - l 0%nat) <= Rabs (l (S i)) + Rabs (l 0%nat)) by (unfold Rminus; eapply Rle_trans; [apply Rabs_triang|]; rewrite Rabs_Ropp; lra). nra.
Qed.
Lemma rayleigh_near c v q j u : (0 < p)%nat -> dominant p l q -> c 0%nat <> 0 -> expands n p w c v -> unit_along Rnum n (power_vec Rnum n a v j) u ->
  Rabs (dot Rnum n u (app Rnum n a u) - l 0%nat) <= 2 * Rabs (l 0%nat) * (q ^ (2 * j) * tangent2 p c) /\
  1 - dot Rnum n u (w 0%nat) * dot Rnum n u (w 0%nat) <= q ^ (2 * j) * tangent2 p c.
Proof using E.
  intros Hp Hd Hc Hv (U1 & s & Us). pose proof (power_expands c v j Hv) as Hj. pose proof (scale_expands _ _ s u Hj Us) as Hu. cbn beta in Hu.
  rewrite (dot_expands _ _ _ _ Hu Hu) in U1. change (none_ Rnum) with 1 in U1.
  pose proof (others_small c q s j Hp Hd Hc U1) as [O0 O1]. split.
  - rewrite (dot_expands _ _ _ _ Hu (app_expands _ _ Hu)). eapply Rle_trans; [apply (rayleigh_d (fun i => s * (l i ^ j * c i)) q Hp Hd U1)|].
    apply Rmult_le_compat_l; [pose proof (Rabs_pos (l 0%nat)); lra|exact O1].
  - rewrite (dot_w _ _ 0%nat Hu Hp). rewrite sumR_first in U1 by auto. lra.
Qed.
(* a small residual: there is an eigenvalue nearby *)
Lemma residual_near c u e r : expands n p w c u -> dot Rnum n u u = 1 -> 0 <= r ->
  (forall k, (k < n)%nat -> Rabs (app Rnum n a u k - e * u k) < r) -> exists i, (i < p)%nat /\ Rabs (l i - e) <= sqrt (INR n) * r.
Proof using E.
  intros Hu U1 Hr Hs. rewrite (dot_expands _ _ _ _ Hu Hu) in U1.
  assert (Hd : expands n p w (fun i => (l i - e) * c i) (fun k => app Rnum n a u k - e * u k)).
  { intros k Hk. cbn beta. rewrite (app_expands _ _ Hu k Hk), (Hu k Hk). rewrite sumR_mul, <- sumR_sub. apply sumR_ext. intros. ring. }
  assert (D : sumR p (fun i => ((l i - e) * c i) * ((l i - e) * c i)) <= INR n * (r * r)).
  { rewrite <- (dot_expands _ _ _ _ Hd Hd), dot_sum. apply sumR_bound. intros k Hk. specialize (Hs k Hk). apply Rabs_def2 in Hs. nra. }
  assert (X : (exists i, (i < p)%nat /\ (l i - e) * (l i - e) <= INR n * (r * r)) \/ sumR p (fun i => INR n * (r * r) * (c i * c i)) < sumR p (fun i => ((l i - e) * c i) * ((l i - e) * c i)) \/ sumR p (fun i => c i * c i) = 0).
  { clear - Hr. induction p as [|m IH].
    - right. right. reflexivity.
    - destruct IH as [(i & Hi & H)|IH]; [left; exists i; split; [lia|exact H]|].
      destruct (Rle_dec ((l m - e) * (l m - e)) (INR n * (r * r))) as [L|L]; [left; exists m; split; [lia|exact L]|]. right.
      rewrite !sumR_S. assert (G : INR n * (r * r) < (l m - e) * (l m - e)) by lra.
      assert (Q : 0 <= c m * c m) by nra. destruct IH as [IH|IH].
      + left. apply Rplus_lt_le_compat; [exact IH|]. replace ((l m - e) * c m * ((l m - e) * c m)) with ((l m - e) * (l m - e) * (c m * c m)) by ring. apply Rmult_le_compat_r; lra.
      + destruct (Req_dec (c m * c m) 0) as [Z|Z]; [right; lra|left].
        assert (S3 : sumR m (fun i => INR n * (r * r) * (c i * c i)) = 0) by (rewrite <- sumR_mul, IH; ring).
        assert (S2 : 0 <= sumR m (fun i => (l i - e) * c i * ((l i - e) * c i))) by (apply sumR_nonneg; intros i _; apply Rle_0_sqr).
        replace ((l m - e) * c m * ((l m - e) * c m)) with ((l m - e) * (l m - e) * (c m * c m)) by ring.
        assert (INR n * (r * r) * (c m * c m) < (l m - e) * (l m - e) * (c m * c m)) by (apply Rmult_lt_compat_r; lra). lra. }
  rewrite <- sumR_mul in X. change (none_ Rnum) with 1 in U1. rewrite U1 in X. destruct X as [(i & Hi & H)|[X|X]]; [|lra|lra].
  exists i. split; [exact Hi|]. apply Rsqr_incr_0_var; [|apply Rmult_le_pos; [apply sqrt_pos|exact Hr]].
  rewrite <- Rsqr_abs. unfold Rsqr. replace (sqrt (INR n) * r * (sqrt (INR n) * r)) with ((sqrt (INR n) * sqrt (INR n)) * (r * r)) by ring. rewrite sqrt_sqrt by apply pos_INR. exact H.
Qed.
Lemma power_nonzero c v j : (0 < p)%nat -> c 0%nat <> 0 -> l 0%nat <> 0 -> expands n p w c v ->
  dot Rnum n (power_vec Rnum n a v j) (power_vec Rnum n a v j) <> 0.
Proof using E.
  intros Hp Hc Hl Hv. rewrite (dot_expands _ _ _ _ (power_expands c v j Hv) (power_expands c v j Hv)). rewrite sumR_first by auto.
  assert (l 0%nat ^ j <> 0) by (apply pow_nonzero, Hl).
  assert (0 <= sumR (p - 1) (fun i => l (S i) ^ j * c (S i) * (l (S i) ^ j * c (S i)))) by (apply sumR_nonneg; intros; nra).
  assert (l 0%nat ^ j * c 0%nat <> 0) by (apply Rmult_integral_contrapositive; auto). nra.
Qed.
End Spectrum.

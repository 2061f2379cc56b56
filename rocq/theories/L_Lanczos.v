From Coq Require Import Arith Lia Reals Lra List Bool.
Import ListNotations.
From Verif Require Import S_Lanczos M_Lanczos.
Open Scope R_scope.

(* ---- sums ---- *)

Lemma sum_ext : forall n x y, (forall i, (i < n)%nat -> x i = y i) -> sum n x = sum n y.
Proof. induction n; intros x y H; simpl; auto. rewrite (IHn x y), (H n); auto. Qed.

Lemma sum_0 : forall n x, (forall i, (i < n)%nat -> x i = 0) -> sum n x = 0.
Proof. induction n; intros x H; simpl; auto. rewrite IHn, H; auto; lra. Qed.

Lemma sum_plus : forall n x y, sum n (fun i => x i + y i) = sum n x + sum n y.
Proof. induction n; intros; simpl; [lra|]. rewrite IHn. lra. Qed.

Lemma sum_scal : forall n c x, sum n (fun i => c * x i) = c * sum n x.
Proof. induction n; intros; simpl; [lra|]. rewrite IHn. lra. Qed.

Lemma sum_scal_r : forall n c x, sum n (fun i => x i * c) = sum n x * c.
Proof. induction n; intros; simpl; [lra|]. rewrite IHn. lra. Qed.

Lemma sum_minus : forall n x y, sum n (fun i => x i - y i) = sum n x - sum n y.
Proof. induction n; intros; simpl; [lra|]. rewrite IHn. lra. Qed.

Lemma sum_swap : forall n m (x : nat -> nat -> R),
  sum n (fun i => sum m (fun j => x i j)) = sum m (fun j => sum n (fun i => x i j)).
Proof.
  induction n; intros; simpl; [symmetry; apply sum_0; auto|].
  rewrite IHn, sum_plus. reflexivity.
Qed.

Lemma sum_one : forall n c x, (c < n)%nat ->
  (forall i, (i < n)%nat -> i <> c -> x i = 0) -> sum n x = x c.
Proof.
  induction n; intros c x Hc H; [lia|]. simpl.
  destruct (Nat.eq_dec c n).
  - subst. rewrite sum_0; [lra|]. intros; apply H; lia.
  - rewrite (IHn c); [|lia|intros; apply H; lia]. rewrite (H n); lia || lra.
Qed.

Lemma sum_nonneg : forall n x, (forall i, (i < n)%nat -> 0 <= x i) -> 0 <= sum n x.
Proof.
  induction n; intros x H; simpl; [lra|].
  specialize (IHn x (fun i Hi => H i (Nat.lt_lt_succ_r _ _ Hi))). specialize (H n). 
  assert (0 <= x n) by (apply H; lia). lra.
Qed.

Lemma sum_nonneg_0 : forall n x, (forall i, (i < n)%nat -> 0 <= x i) -> sum n x = 0 ->
  forall i, (i < n)%nat -> x i = 0.
Proof.
  induction n; intros x H E i Hi; [lia|]. simpl in E.
  assert (0 <= sum n x) by (apply sum_nonneg; intros; apply H; lia).
  assert (0 <= x n) by (apply H; lia).
  destruct (Nat.eq_dec i n); [subst; lra|]. apply IHn; try lia; [intros; apply H; lia|lra].
Qed.

(* ---- scalar products ---- *)

Lemma dot_ext : forall n x y x' y',
  (forall i, (i < n)%nat -> x i = x' i) -> (forall i, (i < n)%nat -> y i = y' i) ->
  dot n x y = dot n x' y'.
Proof. intros. apply sum_ext. intros. rewrite H, H0; auto. Qed.

Lemma dot_comm : forall n x y, dot n x y = dot n y x.
Proof. intros. apply sum_ext. intros. ring. Qed.

Lemma dot_plus : forall n x y z, dot n x (fun i => y i + z i) = dot n x y + dot n x z.
Proof. intros. unfold dot. rewrite <- sum_plus. apply sum_ext. intros. ring. Qed.

Lemma dot_minus : forall n x y z, dot n x (fun i => y i - z i) = dot n x y - dot n x z.
Proof. intros. unfold dot. rewrite <- sum_minus. apply sum_ext. intros. ring. Qed.

Lemma dot_scal : forall n c x y, dot n x (fun i => c * y i) = c * dot n x y.
Proof. intros. unfold dot. rewrite <- sum_scal. apply sum_ext. intros. ring. Qed.

Lemma dot_0 : forall n x y, (forall i, (i < n)%nat -> y i = 0) -> dot n x y = 0.
Proof. intros. apply sum_0. intros. rewrite H; auto. ring. Qed.

Lemma dot_combine : forall n k v y x,
  dot n x (combine k v y) = sum k (fun a => dot n x (v a) * y a).
Proof.
  intros. unfold dot, combine.
  transitivity (sum n (fun i => sum k (fun a => x i * v a i * y a))).
  - apply sum_ext. intros. rewrite <- sum_scal. apply sum_ext. intros. ring.
  - rewrite sum_swap. apply sum_ext. intros. apply sum_scal_r.
Qed.

Lemma dot_self : forall n x, 0 <= dot n x x.
Proof. intros. apply sum_nonneg. intros. apply Rle_0_sqr. Qed.

Lemma len_nonneg : forall n x, 0 <= len n x.
Proof. intros. apply sqrt_pos. Qed.

Lemma len_sqr : forall n x, len n x * len n x = dot n x x.
Proof. intros. apply sqrt_sqrt. apply dot_self. Qed.

Lemma len_ext : forall n x y, (forall i, (i < n)%nat -> x i = y i) -> len n x = len n y.
Proof. intros. unfold len. f_equal. apply dot_ext; auto. Qed.

Lemma len_0 : forall n x, len n x = 0 -> forall i, (i < n)%nat -> x i = 0.
Proof.
  intros n x H. pose proof (len_sqr n x) as E. rewrite H in E.
  assert (D : dot n x x = 0) by lra. intros i Hi.
  apply Rsqr_0_uniq. unfold Rsqr.
  apply (sum_nonneg_0 n (fun i => x i * x i)); auto. intros. apply Rle_0_sqr.
Qed.

Lemma len_zero : forall n x, (forall i, (i < n)%nat -> x i = 0) -> len n x = 0.
Proof. intros. unfold len. rewrite dot_0; auto. apply sqrt_0. Qed.

Lemma len_not_pos : forall n x, ~ 0 < len n x -> len n x = 0.
Proof. intros. pose proof (len_nonneg n x). lra. Qed.

(* ---- the matrix ---- *)

Lemma mul_ext : forall n A x y i, (forall j, (j < n)%nat -> x j = y j) -> mul n A x i = mul n A y i.
Proof. intros. apply sum_ext. intros. rewrite H; auto. Qed.

Lemma mul_combine : forall n A k v y i,
  mul n A (combine k v y) i = sum k (fun a => mul n A (v a) i * y a).
Proof.
  intros. unfold mul, combine.
  transitivity (sum n (fun j => sum k (fun a => A i j * v a j * y a))).
  - apply sum_ext. intros. rewrite <- sum_scal. apply sum_ext. intros. ring.
  - rewrite sum_swap. apply sum_ext. intros. apply sum_scal_r.
Qed.

Lemma mul_symmetric : forall n A x y, symmetric n A ->
  dot n (mul n A x) y = dot n x (mul n A y).
Proof.
  intros n A x y H. unfold dot, mul.
  transitivity (sum n (fun i => sum n (fun j => A i j * x j * y i))).
  { apply sum_ext. intros. rewrite <- sum_scal_r. reflexivity. }
  rewrite sum_swap. apply sum_ext. intros j Hj. rewrite <- sum_scal.
  apply sum_ext. intros i Hi. rewrite (H i j); auto. ring.
Qed.

(* ---- Gram-Schmidt ---- *)

Lemma put_same : forall X (f : nat -> X) j x, put f j x j = x.
Proof. intros. unfold put. rewrite Nat.eqb_refl. reflexivity. Qed.

Lemma put_other : forall X (f : nat -> X) j x i, i <> j -> put f j x i = f i.
Proof. intros. unfold put. destruct (Nat.eqb_spec i j); congruence. Qed.

Lemma gemv_t_spec : forall n k v x a, (a < k)%nat -> gemv_t n k v x a = dot n (v a) x.
Proof. intros. unfold gemv_t. destruct (Nat.ltb_spec a k); [reflexivity|lia]. Qed.

Lemma project_orthogonal : forall n k v r, orthonormal n k v ->
  forall a, (a < k)%nat -> dot n (v a) (gemv_n k v (gemv_t n k v r) r) = 0.
Proof.
  intros n k v r H a Ha. unfold gemv_n. rewrite dot_minus, dot_combine.
  rewrite (sum_one k a); auto.
  - rewrite H, Nat.eqb_refl, gemv_t_spec by auto. lra.
  - intros b Hb Hn. rewrite H by auto. destruct (Nat.eqb_spec a b); [congruence|lra].
Qed.

Lemma project_fixed : forall n k v r, (forall a, (a < k)%nat -> dot n (v a) r = 0) ->
  (forall i, gemv_n k v (gemv_t n k v r) r i = r i) /\
  (forall a, gemv_t n k v r a = 0).
Proof.
  intros n k v r H.
  assert (E : forall a, gemv_t n k v r a = 0).
  { intros a. unfold gemv_t. destruct (Nat.ltb_spec a k); auto. }
  split; auto. intros i. unfold gemv_n, combine. rewrite sum_0; [lra|].
  intros. rewrite E. lra.
Qed.

Lemma near_lt : forall x, 0 < x -> x * near < x.
Proof. intros. unfold near. lra. Qed.

Lemma near_pos : forall x, 0 <= x -> 0 <= x * near.
Proof. intros. unfold near. lra. Qed.

Lemma orth_spec : forall tries n k v r rnorm0 r' rnorm,
  orthonormal n k v -> 0 <= rnorm0 ->
  orth tries n k v r rnorm0 = Some (r', rnorm) ->
  (forall a, (a < k)%nat -> dot n (v a) r' = 0) /\ rnorm = len n r' /\ 0 < rnorm.
Proof.
  induction tries; intros n k v r rnorm0 r' rnorm Ho Hp E; simpl in E; [discriminate|].
  destruct (Rlt_dec _ _) as [L|L].
  - injection E as <- <-. split; [apply project_orthogonal; auto|].
    split; auto. pose proof (near_pos rnorm0 Hp). lra.
  - eapply IHtries in E; eauto. apply len_nonneg.
Qed.

Lemma restart_spec : forall tries n k rand v drawn r x drawn',
  orthonormal n k v -> restart tries n k rand v drawn = (Some (r, x), drawn') ->
  (forall a, (a < k)%nat -> dot n (v a) r = 0) /\ x = len n r.
Proof.
  induction tries; intros n k rand v drawn r x drawn' Ho E; simpl in E; [discriminate|].
  destruct (getv0 n k v (rand drawn)) as [[r0 x0]|] eqn:G.
  - injection E as -> -> _. unfold getv0 in G. destruct (Nat.eqb_spec k 0).
    + injection G as <- <-. split; auto. intros; lia.
    + apply orth_spec in G; auto; [tauto|apply len_nonneg].
  - eauto.
Qed.

(* in exact arithmetic the second pass changes nothing *)
Lemma refine_spec : forall tries n k v fresh alpha beta r rnorm,
  (0 < tries)%nat ->
  (forall a, (a < k)%nat -> dot n (v a) r = 0) -> rnorm = len n r ->
  (fresh = true -> beta = 0) ->
  exists r', refine tries n k v fresh alpha beta r rnorm = (alpha, beta, r', rnorm) /\
    (forall i, (i < n)%nat -> r' i = r i).
Proof.
  induction tries; intros n k v fresh alpha beta r rnorm Ht Ho Hn Hf; [lia|]. simpl.
  destruct (project_fixed n k v r Ho) as [Er Es].
  rewrite Es, Rplus_0_r.
  rewrite (len_ext n _ r) by (intros; apply Er).
  assert (Eb : (if fresh then 0 else beta) = beta) by (destruct fresh; auto; symmetry; auto).
  rewrite Eb, Hn.
  destruct (Rlt_dec _ _) as [L|L].
  - eexists. split; [reflexivity|]. intros. apply Er.
  - assert (Z : len n r = 0).
    { apply len_not_pos. intros P. apply L. apply near_lt; auto. }
    destruct (Nat.eq_dec tries 0).
    + subst tries. simpl. rewrite Z. eexists. split; [reflexivity|].
      intros. symmetry. apply len_0 with n; auto.
    + destruct (IHtries n k v fresh alpha beta (gemv_n k v (gemv_t n k v r) r) (len n r)) as (r' & E & H'); auto.
      * lia.
      * intros a Ha. rewrite (dot_ext n (v a) _ (v a) r); auto.
      * symmetry. apply len_ext; auto.
      * exists r'. split; auto. intros. rewrite H', Er; auto.
Qed.

(* ---- one step ---- *)

Lemma orthonormal_ext : forall n k v v', (forall a i, (a < k)%nat -> (i < n)%nat -> v a i = v' a i) ->
  orthonormal n k v -> orthonormal n k v'.
Proof.
  intros n k v v' E H a b Ha Hb. rewrite <- (H a b) by auto. symmetry.
  apply dot_ext; intros; apply E; auto.
Qed.

Lemma orthonormal_grow : forall n k v x, orthonormal n k v ->
  (forall a, (a < k)%nat -> dot n (v a) x = 0) -> dot n x x = 1 ->
  orthonormal n (S k) (put v k x).
Proof.
  intros n k v x H Ho H1 a b Ha Hb.
  destruct (Nat.eq_dec a k) as [->|Na], (Nat.eq_dec b k) as [->|Nb].
  - rewrite put_same, Nat.eqb_refl. auto.
  - rewrite put_same, put_other by auto. rewrite dot_comm, Ho by lia.
    destruct (Nat.eqb_spec k b); [congruence|reflexivity].
  - rewrite put_same, put_other by auto. rewrite Ho by lia.
    destruct (Nat.eqb_spec a k); [congruence|reflexivity].
  - rewrite !put_other by auto. apply H; lia.
Qed.

Lemma grow_lanczos : forall n A k rstart last s f,
  symmetric n A -> lanczos n A k (lv s) (ld s) (lb s) f ->
  (forall a, (a < k)%nat -> dot n (lv s a) (lres s) = 0) ->
  lnrm s = len n (lres s) -> 0 < lnrm s ->
  (rstart = false -> forall i, (i < n)%nat -> f i = lres s i) ->
  (rstart = true -> forall i, (i < n)%nat -> f i = 0) ->
  let s' := grow n A k rstart last s in
  lanczos n A (S k) (lv s') (ld s') (lb s') (lres s') /\
  lnrm s' = len n (lres s') /\ lrnd s' = lrnd s /\
  (forall c i, (c < k)%nat -> lv s' c i = lv s c i).
Proof.
  intros n A k rstart last s f Hs (Ho & Hf & Hr & Hb) Hres Hn Hp Hf1 Hf2.
  set (x := fun i => lres s i / lnrm s).
  assert (Hx : forall a, (a < k)%nat -> dot n (lv s a) x = 0).
  { intros a Ha. rewrite (dot_ext n (lv s a) x (lv s a) (fun i => / lnrm s * lres s i)); auto.
    - rewrite dot_scal, Hres; auto. lra.
    - intros. unfold x. field. lra. }
  assert (H1 : dot n x x = 1).
  { rewrite (dot_ext n x x (fun i => / lnrm s * lres s i) (fun i => / lnrm s * lres s i));
      try (intros; unfold x; field; lra).
    rewrite dot_scal, dot_comm, dot_scal. rewrite <- len_sqr, <- Hn. field. lra. }
  pose proof (orthonormal_grow n k _ x Ho Hx H1) as Ho'.
  set (v := put (lv s) k x) in *.
  assert (Vk : v k = x) by apply put_same.
  assert (Vo : forall a, (a < k)%nat -> v a = lv s a) by (intros; apply put_other; lia).
  set (w := mul n A (v k)).
  set (c := gemv_t n (S k) v w).
  set (r := gemv_n (S k) v c w).
  set (fresh := (Nat.eqb k 0 || rstart)%bool).
  set (beta := if fresh then 0 else lnrm s).
  assert (Hbeta : 0 <= beta) by (unfold beta; destruct fresh; lra).
  assert (Hfb : forall i, (0 < k)%nat -> (i < n)%nat -> f i = beta * x i).
  { intros i Hk Hi. unfold beta, fresh. destruct (Nat.eqb_spec k 0); [lia|]. simpl.
    destruct rstart.
    - rewrite Hf2 by auto. lra.
    - rewrite Hf1 by auto. unfold x. field. lra. }
  assert (Hrorth : forall a, (a < S k)%nat -> dot n (v a) r = 0) by (apply project_orthogonal; auto).
  (* the coefficients of A v_k *)
  assert (Hc : forall a, (a < k)%nat -> c a = if Nat.eqb (S a) k then beta else 0).
  { intros a Ha. unfold c. rewrite gemv_t_spec by lia. unfold w.
    rewrite <- mul_symmetric by auto. rewrite (Vo a Ha), Vk.
    rewrite (dot_ext n (mul n A (lv s a)) x
      (fun i => (if Nat.eqb a 0 then 0 else lb s a * lv s (a - 1)%nat i) + ld s a * lv s a i
                + (if Nat.eqb (S a) k then beta * x i else lb s (S a) * lv s (S a) i)) x); auto.
    2:{ intros i Hi. rewrite Hr by auto. destruct (Nat.eqb_spec (S a) k); auto.
        rewrite Hfb by lia. reflexivity. }
    rewrite dot_comm, !dot_plus, dot_scal.
    rewrite (dot_comm n x (lv s a)), Hx by auto.
    replace (dot n x (fun i => if Nat.eqb a 0 then 0 else lb s a * lv s (a - 1)%nat i)) with 0.
    2:{ destruct (Nat.eqb_spec a 0).
        - symmetry. apply dot_0. auto.
        - rewrite dot_scal, dot_comm, Hx by lia. lra. }
    destruct (Nat.eqb_spec (S a) k).
    - rewrite dot_scal, H1. lra.
    - rewrite dot_scal, dot_comm, Hx by lia. lra. }
  assert (Hw : forall i, w i = (if Nat.eqb k 0 then 0 else beta * v (k - 1)%nat i) + c k * v k i + r i).
  { intros i. unfold r, gemv_n, combine. simpl. 
    assert (E : sum k (fun a => v a i * c a) = if Nat.eqb k 0 then 0 else beta * v (k - 1)%nat i).
    { destruct (Nat.eqb_spec k 0); [subst; reflexivity|].
      rewrite (sum_one k (k - 1)); [|lia|].
      - rewrite Hc by lia. destruct (Nat.eqb_spec (S (k - 1)) k); [lra|lia].
      - intros a Ha Hn'. rewrite Hc by lia. destruct (Nat.eqb_spec (S a) k); [lia|lra]. }
    rewrite E. lra. }
  assert (Main : forall r', (forall i, (i < n)%nat -> r' i = r i) ->
    lanczos n A (S k) v (put (ld s) k (c k)) (put (lb s) k beta) r').
  { intros r' Er. split; [exact Ho'|]. split; [|split].
    - intros a Ha. rewrite (dot_ext n (v a) r' (v a) r); auto.
    - intros a i Ha Hi. destruct (Nat.eq_dec a k) as [->|Na].
      + rewrite !Nat.eqb_refl, !put_same, Er by auto. fold w. rewrite Hw. reflexivity.
      + assert (Ha' : (a < k)%nat) by lia.
        rewrite (Vo a Ha'), Hr by auto. rewrite (put_other _ (ld s)) by auto.
        destruct (Nat.eqb_spec (S a) (S k)); [lia|].
        assert (E1 : (if Nat.eqb a 0 then 0 else lb s a * lv s (a - 1)%nat i)
                     = (if Nat.eqb a 0 then 0 else put (lb s) k beta a * v (a - 1)%nat i)).
        { destruct (Nat.eqb_spec a 0); auto. rewrite put_other, Vo by lia. reflexivity. }
        rewrite E1. f_equal.
        destruct (Nat.eqb_spec (S a) k) as [->|N].
        * rewrite put_same, Vk. apply Hfb; lia.
        * rewrite put_other, Vo by lia. reflexivity.
    - intros a Ha. destruct (Nat.eq_dec a k) as [->|]; [rewrite put_same; auto|].
      rewrite put_other by auto. apply Hb; lia. }
  assert (Hfin : exists r', (forall i, (i < n)%nat -> r' i = r i) /\
    (if Rlt_dec (len n w * near) (len n r) then (c k, beta, r, len n r)
     else refine 2 n (S k) v fresh (c k) beta r (len n r)) = (c k, beta, r', len n r)).
  { destruct (Rlt_dec _ _).
    - exists r. auto.
    - destruct (refine_spec 2 n (S k) v fresh (c k) beta r (len n r)) as (r' & E & Er); auto.
      + intros F. unfold beta. rewrite F. reflexivity.
      + exists r'. rewrite E. auto. }
  destruct Hfin as (r' & Er & E).
  assert (G : grow n A k rstart last s
              = Lst v (put (ld s) k (c k)) (put (lb s) k beta) r' (len n r) (lrnd s)).
  { unfold grow. fold x. fold v. fold w. fold c. fold r. fold fresh. fold beta.
    cbv zeta. rewrite E. destruct (Rlt_dec beta 0); [lra|reflexivity]. }
  cbv zeta. rewrite G. simpl. split; [apply Main; auto|]. split; [|split; auto].
  - apply len_ext. intros. symmetry. auto.
  - intros a i Ha. rewrite Vo; auto.
Qed.

Lemma lanczos_ext : forall n A k v d b f v' d' b' f',
  (forall a i, (a < k)%nat -> (i < n)%nat -> v a i = v' a i) ->
  (forall a, (a < k)%nat -> d a = d' a) -> (forall a, (0 < a < k)%nat -> b a = b' a) ->
  (forall i, (i < n)%nat -> f i = f' i) ->
  lanczos n A k v d b f -> lanczos n A k v' d' b' f'.
Proof.
  intros n A k v d b f v' d' b' f' Ev Ed Eb Ef (Ho & Hf & Hr & Hb).
  split; [eapply orthonormal_ext; eauto|]. split; [|split].
  - intros a Ha. rewrite <- (Hf a Ha). symmetry. apply dot_ext; auto.
  - intros c i Hc Hi. rewrite <- (mul_ext n A (v c)) by auto. rewrite Hr by auto.
    rewrite (Ev c i), (Ed c) by auto. f_equal; [f_equal|].
    + destruct (Nat.eqb_spec c 0); auto. rewrite Eb, Ev by lia. reflexivity.
    + destruct (Nat.eqb_spec (S c) k); auto. rewrite Eb, Ev by lia. reflexivity.
  - intros c Hc. rewrite <- Eb by auto. auto.
Qed.

(* dsaitr *)
Lemma saitr_lanczos : forall np n A rand k s,
  symmetric n A -> (0 < k)%nat \/ 0 < lnrm s ->
  lanczos n A k (lv s) (ld s) (lb s) (lres s) -> lnrm s = len n (lres s) ->
  exists info s', saitr n A rand np k s = Ended info s' /\
    lnrm s' = len n (lres s') /\
    (forall c i, (c < k)%nat -> lv s' c i = lv s c i) /\
    ((info = 0%nat /\ lanczos n A (k + np) (lv s') (ld s') (lb s') (lres s'))
     \/ ((0 < info)%nat /\ (k <= info < k + np)%nat /\
         lanczos n A info (lv s') (ld s') (lb s') (lres s') /\
         forall i, (i < n)%nat -> lres s' i = 0)).
Proof.
  induction np; intros n A rand k s Hs Hk HL Hn; cbn [saitr].
  { exists 0%nat, s. rewrite Nat.add_0_r. repeat split; auto; left; split; auto. }
  pose proof HL as (Ho & Hf & _).
  destruct (Rlt_dec 0 (lnrm s)) as [P|P].
  - destruct (grow_lanczos n A k false (Nat.eqb np 0) s (lres s)) as (HL' & Hn' & _ & Hv'); auto.
    { discriminate. }
    destruct (IHnp n A rand (S k) (grow n A k false (Nat.eqb np 0) s)) as (info & s' & E & En & Ev & C); auto.
    { left; lia. }
    exists info, s'. split; auto. split; auto. split.
    { intros. rewrite Ev, Hv' by lia. reflexivity. }
    destruct C as [[C1 C2]|(C1 & C2 & C3)]; [left|right].
    + split; auto. replace (k + S np)%nat with (S k + np)%nat by lia. auto.
    + split; auto. split; auto. lia.
  - assert (Z : len n (lres s) = 0) by (apply len_not_pos; rewrite <- Hn; auto).
    destruct Hk as [Hk|Hk]; [|contradiction].
    destruct (restart 3 n k rand (lv s) (lrnd s)) as [[[r x]|] drawn] eqn:G.
    + assert (Hx : 0 < x /\ (forall a, (a < k)%nat -> dot n (lv s a) r = 0) /\ x = len n r).
      { pose proof (restart_spec _ _ _ _ _ _ _ _ _ Ho G) as [Hr Hx]. split; auto.
        clear - G Ho Hk. revert G. generalize (lrnd s). generalize 3%nat.
        induction n0; intros dr G; simpl in G; [discriminate|].
        destruct (getv0 n k (lv s) (rand dr)) as [[r0 x0]|] eqn:G0.
        - injection G as -> -> _. unfold getv0 in G0. destruct (Nat.eqb_spec k 0); [lia|].
          apply orth_spec in G0; auto; [tauto|apply len_nonneg].
        - eauto. }
      destruct Hx as (Hx & Hr & Ex).
      destruct (Req_EM_T x 0); [lra|].
      set (s0 := Lst (lv s) (ld s) (lb s) r x drawn).
      destruct (grow_lanczos n A k true (Nat.eqb np 0) s0 (lres s)) as (HL' & Hn' & _ & Hv'); auto.
      { discriminate. }
      { intros _. apply len_0. auto. }
      destruct (IHnp n A rand (S k) (grow n A k true (Nat.eqb np 0) s0)) as (info & s' & E & En & Ev & C); auto.
      all: try (left; lia).
      exists info, s'. split; auto. split; auto. split.
      { intros. rewrite Ev, Hv' by lia. reflexivity. }
      destruct C as [[C1 C2]|(C1 & C2 & C3)]; [left|right].
      * split; auto. replace (k + S np)%nat with (S k + np)%nat by lia. auto.
      * split; auto. split; auto. lia.
    + exists k. eexists. split; [reflexivity|]. simpl. split.
      { symmetry. apply len_zero. auto. }
      split; auto. right. split; auto. split; [lia|]. split; auto.
      eapply lanczos_ext; eauto. intros. apply len_0 with n; auto.
Qed.

(* the value of a step, for any matrix, when the new vectors are orthonormal *)
Lemma grow_value : forall n A k rstart last s,
  0 <= lnrm s ->
  let v := put (lv s) k (fun i => lres s i / lnrm s) in
  let beta := if (Nat.eqb k 0 || rstart)%bool then 0 else lnrm s in
  orthonormal n (S k) v ->
  exists r, grow n A k rstart last s
    = Lst v (put (ld s) k (dot n (v k) (mul n A (v k)))) (put (lb s) k beta) r (len n r) (lrnd s) /\
    (forall i, (i < n)%nat -> r i = mul n A (v k) i
       - sum (S k) (fun a => v a i * dot n (v a) (mul n A (v k)))).
Proof.
  intros n A k rstart last s Hp v beta Ho.
  set (w := mul n A (v k)). set (c := gemv_t n (S k) v w). set (r := gemv_n (S k) v c w).
  set (fresh := (Nat.eqb k 0 || rstart)%bool) in *.
  assert (Hbeta : 0 <= beta) by (unfold beta; destruct fresh; lra).
  assert (Hc : forall a, (a < S k)%nat -> c a = dot n (v a) w) by (intros; apply gemv_t_spec; auto).
  assert (Hrv : forall i, r i = w i - sum (S k) (fun a => v a i * dot n (v a) w)).
  { intros i. unfold r, gemv_n, combine. f_equal. apply sum_ext. intros a Ha. rewrite Hc; auto. }
  assert (Hfin : exists r', (forall i, (i < n)%nat -> r' i = r i) /\
    (if Rlt_dec (len n w * near) (len n r) then (c k, beta, r, len n r)
     else refine 2 n (S k) v fresh (c k) beta r (len n r)) = (c k, beta, r', len n r)).
  { destruct (Rlt_dec _ _).
    - exists r. auto.
    - destruct (refine_spec 2 n (S k) v fresh (c k) beta r (len n r)) as (r' & E & Er); auto.
      + apply project_orthogonal; auto.
      + intros F. unfold beta. rewrite F. reflexivity.
      + exists r'. rewrite E. auto. }
  destruct Hfin as (r' & Er & E). exists r'. split.
  - assert (El : len n r' = len n r) by (apply len_ext; auto). rewrite El.
    assert (Ec : dot n (v k) w = c k) by (symmetry; apply Hc; lia).
    rewrite Ec.
    unfold grow. fold v. fold w. fold c. fold r. fold fresh. fold beta.
    cbv zeta. rewrite E. destruct (Rlt_dec beta 0); [lra|reflexivity].
  - intros i Hi. rewrite Er by auto. apply Hrv.
Qed.

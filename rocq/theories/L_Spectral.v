(* The spectral theorem for symmetric matrices of real numbers: they have an
   orthonormal basis of eigenvectors. The least value of the quadratic form on
   the unit vectors orthogonal to the eigenvectors found before is attained, at
   an eigenvector. *)
From Coq Require Import Arith Lia Reals Lra List Bool Classical.
Import ListNotations.
From Verif Require Import S_Lanczos M_Lanczos M_Sapps L_Lanczos L_LanczosShift.
Open Scope R_scope.

(* ---- a point of accumulation, coordinate by coordinate ---- *)

(* sets of vectors that shrink with d *)
Definition shrinks (P : R -> vec -> Prop) : Prop := forall d e x, 0 < d -> d <= e -> P d x -> P e x.
Definition inhabited (P : R -> vec -> Prop) : Prop := forall d, 0 < d -> exists x, P d x.

Lemma accumulates_1 : forall P k, shrinks P -> inhabited P -> (forall d x, P d x -> -1 <= x k <= 1) ->
  exists t, forall d, 0 < d -> exists x, P d x /\ Rabs (x k - t) <= d.
Proof.
  intros P k Hs Hi Hb.
  set (E := fun t => forall d, 0 < d -> exists x, P d x /\ - x k >= t).
  destruct (completeness E) as [m [Hu Hl]].
  - exists 1. intros t Ht. destruct (Ht 1 ltac:(lra)) as (x & Hx & L). specialize (Hb _ _ Hx). lra.
  - exists (-1). intros d Hd. destruct (Hi d Hd) as (x & Hx). exists x. split; auto. specialize (Hb _ _ Hx). lra.
  - exists (- m). intros d Hd.
    assert (A1 : exists t, E t /\ m - d < t).
    { apply NNPP. intros N. assert (m <= m - d); [|lra]. apply Hl. intros t Ht. apply Rnot_lt_le. intros L. apply N. exists t. auto. }
    destruct A1 as (t & Ht & L).
    assert (A2 : exists d', 0 < d' /\ forall x, P d' x -> - x k < m + d).
    { apply NNPP. intros N. assert (m + d <= m); [|lra]. apply Hu. intros e He. apply NNPP. intros N'. apply N. exists e. split; auto.
      intros x Hx. apply Rnot_le_lt. intros L'. apply N'. exists x. split; auto. lra. }
    destruct A2 as (d' & Hd' & A2).
    destruct (Ht (Rmin d d')) as (x & Hx & L'); [apply Rmin_pos; auto|].
    exists x. split; [apply (Hs (Rmin d d')); [apply Rmin_pos; auto|apply Rmin_l|auto]|].
    assert (Hx' : P d' x) by (apply (Hs (Rmin d d')); [apply Rmin_pos; auto|apply Rmin_r|auto]).
    specialize (A2 x Hx'). apply Rabs_le. lra.
Qed.

Lemma accumulates : forall n P, shrinks P -> inhabited P -> (forall d x k, P d x -> (k < n)%nat -> -1 <= x k <= 1) ->
  exists t : vec, forall d, 0 < d -> exists x, P d x /\ forall k, (k < n)%nat -> Rabs (x k - t k) <= d.
Proof.
  induction n; intros P Hs Hi Hb.
  - exists (fun _ => 0). intros d Hd. destruct (Hi d Hd) as (x & Hx). exists x. split; auto. intros. lia.
  - destruct (IHn P Hs Hi) as (t & Ht). { intros. apply (Hb d); auto. }
    destruct (accumulates_1 (fun d x => P d x /\ forall k, (k < n)%nat -> Rabs (x k - t k) <= d) n) as (u & Hu).
    + intros d e x Hd He [H1 H2]. split; [eapply Hs; eauto|]. intros k Hk. specialize (H2 k Hk). lra.
    + exact Ht.
    + intros d x [H1 _]. apply (Hb d); auto.
    + exists (put t n u). intros d Hd. destruct (Hu d Hd) as (x & [H1 H2] & H3). exists x. split; auto.
      intros k Hk. destruct (Nat.eq_dec k n) as [->|Hn]; [rewrite put_same; auto|rewrite put_other by auto; apply H2; lia].
Qed.

Lemma Rabs_le_inv : forall x a, Rabs x <= a -> - a <= x <= a.
Proof. intros x a H. pose proof (Rle_abs x). pose proof (Rle_abs (- x)) as H1. rewrite Rabs_Ropp in H1. lra. Qed.

(* ---- continuous functions of vectors ---- *)

Definition close (n : nat) (d : R) (x t : vec) : Prop := forall k, (k < n)%nat -> Rabs (x k - t k) <= d.
Definition cont (n : nat) (f : vec -> R) : Prop :=
  forall t e, 0 < e -> exists d, 0 < d /\ forall x, close n d x t -> Rabs (f x - f t) <= e.

Lemma cont_const : forall n c, cont n (fun _ => c).
Proof. intros n c t e He. exists 1. split; [lra|]. intros x Hx. rewrite (Rminus_diag_eq c c eq_refl), Rabs_R0. lra. Qed.

Lemma cont_coord : forall n k, (k < n)%nat -> cont n (fun x => x k).
Proof. intros n k Hk t e He. exists e. split; [exact He|]. intros x Hx. apply Hx; auto. Qed.

Lemma close_le : forall n d e x t, d <= e -> close n d x t -> close n e x t.
Proof. intros n d e x t He H k Hk. specialize (H k Hk). lra. Qed.

Lemma cont_plus : forall n f g, cont n f -> cont n g -> cont n (fun x => f x + g x).
Proof.
  intros n f g Hf Hg t e He. destruct (Hf t (e / 2) ltac:(lra)) as (d1 & P1 & H1). destruct (Hg t (e / 2) ltac:(lra)) as (d2 & P2 & H2).
  exists (Rmin d1 d2). split; [apply Rmin_pos; auto|]. intros x Hx.
  specialize (H1 x (close_le _ _ _ _ _ (Rmin_l _ _) Hx)). specialize (H2 x (close_le _ _ _ _ _ (Rmin_r _ _) Hx)).
  replace (f x + g x - (f t + g t)) with ((f x - f t) + (g x - g t)) by ring.
  eapply Rle_trans; [apply Rabs_triang|]. lra.
Qed.

Lemma cont_mult : forall n f g, cont n f -> cont n g -> cont n (fun x => f x * g x).
Proof.
  intros n f g Hf Hg t e He.
  pose proof (Rabs_pos (f t)) as Pf. pose proof (Rabs_pos (g t)) as Pg.
  set (c := 1 + Rabs (f t) + Rabs (g t)).
  set (h := Rmin 1 (e / c)).
  assert (Pc : 0 < c) by (unfold c; lra).
  assert (Ph : 0 < h) by (unfold h; apply Rmin_pos; [lra|apply Rdiv_lt_0_compat; auto]).
  destruct (Hf t h Ph) as (d1 & P1 & H1). destruct (Hg t h Ph) as (d2 & P2 & H2).
  exists (Rmin d1 d2). split; [apply Rmin_pos; auto|]. intros x Hx.
  specialize (H1 x (close_le _ _ _ _ _ (Rmin_l _ _) Hx)). specialize (H2 x (close_le _ _ _ _ _ (Rmin_r _ _) Hx)).
  replace (f x * g x - f t * g t) with ((f x - f t) * (g x - g t) + (f t * (g x - g t) + g t * (f x - f t))) by ring.
  assert (Hh1 : h <= 1) by apply Rmin_l.
  assert (Hh2 : h * c <= e). { apply Rle_trans with (e / c * c); [apply Rmult_le_compat_r; [lra|apply Rmin_r]|]. right. field. lra. }
  eapply Rle_trans; [apply Rabs_triang|]. eapply Rle_trans; [apply Rplus_le_compat_l; apply Rabs_triang|].
  rewrite !Rabs_mult. pose proof (Rabs_pos (f x - f t)). pose proof (Rabs_pos (g x - g t)).
  assert (Rabs (f x - f t) * Rabs (g x - g t) <= h * 1) by (apply Rmult_le_compat; lra).
  assert (Rabs (f t) * Rabs (g x - g t) <= Rabs (f t) * h) by (apply Rmult_le_compat_l; lra).
  assert (Rabs (g t) * Rabs (f x - f t) <= Rabs (g t) * h) by (apply Rmult_le_compat_l; lra).
  unfold c in Hh2. nra.
Qed.

Lemma cont_sum : forall n m f, (forall i, (i < m)%nat -> cont n (f i)) -> cont n (fun x => sum m (fun i => f i x)).
Proof.
  intros n m f H. induction m; simpl; [apply cont_const|]. apply cont_plus; [apply IHm; auto|apply H; auto].
Qed.

Lemma cont_dot : forall n u, cont n (fun x => dot n u x).
Proof. intros. unfold dot. apply cont_sum. intros. apply cont_mult; [apply cont_const|apply cont_coord; auto]. Qed.

Lemma cont_self : forall n, cont n (fun x => dot n x x).
Proof. intros. unfold dot. apply cont_sum. intros. apply cont_mult; apply cont_coord; auto. Qed.

Lemma cont_form : forall n A, cont n (fun x => dot n x (mul n A x)).
Proof.
  intros. unfold dot, mul. apply cont_sum. intros. apply cont_mult; [apply cont_coord; auto|].
  apply cont_sum. intros. apply cont_mult; [apply cont_const|apply cont_coord; auto].
Qed.

(* if f is near c on a sequence that comes close to t, then f t = c *)
Lemma cont_limit : forall n f t c, cont n f ->
  (forall d, 0 < d -> exists x, close n d x t /\ f x <= c + d) -> f t <= c.
Proof.
  intros n f t c Hf H. apply Rnot_lt_le. intros L.
  set (e := (f t - c) / 3). assert (He : 0 < e) by (unfold e; lra).
  destruct (Hf t e He) as (d & Pd & Hd).
  destruct (H (Rmin d e)) as (x & Hx & Lx); [apply Rmin_pos; auto|].
  specialize (Hd x (close_le _ _ _ _ _ (Rmin_l _ _) Hx)). pose proof (Rmin_r d e). apply Rabs_le_inv in Hd. unfold e in *. lra.
Qed.

(* ---- unit vectors orthogonal to others ---- *)

Definition free (n k : nat) (u : nat -> vec) (x : vec) : Prop :=
  dot n x x = 1 /\ forall a, (a < k)%nat -> dot n (u a) x = 0.

(* the unit vector i without its components along u *)
Definition rest (k : nat) (u : nat -> vec) (i : nat) : vec := fun j => unit i j - combine k u (fun a => u a i) j.

Lemma rest_orthogonal : forall n k u i, orthonormal n k u -> (i < n)%nat ->
  forall a, (a < k)%nat -> dot n (u a) (rest k u i) = 0.
Proof.
  intros n k u i H Hi a Ha. unfold rest. rewrite dot_minus, dot_combine, (dot_comm n (u a)), dot_unit by auto.
  rewrite (sum_one k a); auto.
  - rewrite H, Nat.eqb_refl by auto. lra.
  - intros b Hb Hn. rewrite H by auto. destruct (Nat.eqb_spec a b); [congruence|lra].
Qed.

Lemma rest_self : forall n k u i, orthonormal n k u -> (i < n)%nat ->
  dot n (rest k u i) (rest k u i) = 1 - sum k (fun a => u a i * u a i).
Proof.
  intros n k u i H Hi.
  assert (E : dot n (rest k u i) (rest k u i) = dot n (rest k u i) (unit i) - dot n (rest k u i) (combine k u (fun a => u a i))).
  { rewrite <- dot_minus. reflexivity. }
  rewrite E, dot_combine, (sum_0 k).
  - rewrite dot_comm, dot_unit by auto. unfold rest, combine, unit. rewrite Nat.eqb_refl. lra.
  - intros a Ha. rewrite dot_comm, rest_orthogonal by auto. lra.
Qed.

Lemma sum_const : forall n c, sum n (fun _ => c) = INR n * c.
Proof. induction n; intros; [simpl; lra|]. rewrite S_INR. cbn [sum]. rewrite IHn. lra. Qed.

Lemma rests : forall n k u, orthonormal n k u -> sum n (fun i => dot n (rest k u i) (rest k u i)) = INR n - INR k.
Proof.
  intros n k u H. rewrite (sum_ext n _ (fun i => 1 - sum k (fun a => u a i * u a i))) by (intros; apply rest_self; auto).
  rewrite sum_minus, sum_const, sum_swap.
  rewrite (sum_ext k _ (fun _ => 1)); [rewrite sum_const; lra|].
  intros a Ha. change (dot n (u a) (u a) = 1). rewrite H by auto. rewrite Nat.eqb_refl. reflexivity.
Qed.

Lemma free_exists : forall n k u, orthonormal n k u -> (k < n)%nat -> exists x, free n k u x.
Proof.
  intros n k u H Hk.
  assert (E : exists i, (i < n)%nat /\ dot n (rest k u i) (rest k u i) <> 0).
  { apply NNPP. intros N. pose proof (rests n k u H) as S. rewrite sum_0 in S.
    - apply lt_INR in Hk. lra.
    - intros i Hi. apply NNPP. intros N'. apply N. exists i. auto. }
  destruct E as (i & Hi & Hne). pose proof (dot_self n (rest k u i)) as P.
  set (r := dot n (rest k u i) (rest k u i)) in *.
  exists (fun j => / sqrt r * rest k u i j). split.
  - rewrite dot_scal, dot_comm, dot_scal. fold r. rewrite <- (sqrt_sqrt r) at 3 by auto. field. apply Rgt_not_eq. apply sqrt_lt_R0. lra.
  - intros a Ha. rewrite dot_scal, rest_orthogonal by auto. lra.
Qed.

(* n orthonormal vectors span the space *)
Lemma orthonormal_spans : forall n u, orthonormal n n u ->
  forall (x : vec) i, (i < n)%nat -> x i = combine n u (fun k => dot n (u k) x) i.
Proof.
  intros n u H x i Hi.
  assert (Z : dot n (rest n u i) (rest n u i) = 0).
  { apply (sum_nonneg_0 n (fun i => dot n (rest n u i) (rest n u i))); auto; [intros; apply dot_self|rewrite rests by auto; lra]. }
  assert (R : forall j, (j < n)%nat -> rest n u i j = 0).
  { intros j Hj. apply (len_0 n (rest n u i)); auto. unfold len. rewrite Z. apply sqrt_0. }
  rewrite <- (dot_unit n i x Hi). unfold combine, dot.
  transitivity (sum n (fun j => sum n (fun a => u a i * (u a j * x j)))).
  - apply sum_ext. intros j Hj. specialize (R j Hj). unfold rest in R. replace (unit i j) with (combine n u (fun a => u a i) j) by lra.
    unfold combine. rewrite <- sum_scal_r. apply sum_ext. intros. ring.
  - rewrite sum_swap. apply sum_ext. intros. rewrite sum_scal. reflexivity.
Qed.

(* ---- the least value of the form ---- *)

Lemma free_bound : forall n k u x i, free n k u x -> (i < n)%nat -> -1 <= x i <= 1.
Proof.
  intros n k u x i [H _] Hi.
  assert (L : x i * x i <= 1).
  { rewrite <- H. unfold dot. clear H. induction n; [lia|]. cbn [sum].
    assert (P : 0 <= sum n (fun i => x i * x i)) by apply (dot_self n x).
    destruct (Nat.eq_dec i n) as [->|]; [lra|]. specialize (IHn ltac:(lia)). pose proof (Rle_0_sqr (x n)). unfold Rsqr in *. lra. }
  split; nra.
Qed.

Lemma form_bound : forall n A, exists c, forall x, (forall i, (i < n)%nat -> -1 <= x i <= 1) -> - c <= dot n x (mul n A x).
Proof.
  intros n A. exists (sum n (fun i => sum n (fun j => Rabs (A i j)))). intros x Hx.
  assert (B : forall m f g, (forall i, (i < m)%nat -> - g i <= f i) -> - sum m g <= sum m f).
  { intros m f g H. induction m; cbn [sum]; [lra|]. specialize (IHm ltac:(auto)). specialize (H m ltac:(auto)). lra. }
  assert (B' : forall m f g, (forall i, (i < m)%nat -> f i <= g i) -> sum m f <= sum m g).
  { intros m f g H. induction m; cbn [sum]; [lra|]. specialize (IHm ltac:(auto)). specialize (H m ltac:(auto)). lra. }
  apply B. intros i Hi. unfold mul.
  assert (M : Rabs (sum n (fun j => A i j * x j)) <= sum n (fun j => Rabs (A i j))).
  { assert (C : forall j, (j < n)%nat -> - Rabs (A i j) <= A i j * x j <= Rabs (A i j)).
    { intros j Hj. apply Rabs_le_inv. rewrite Rabs_mult. rewrite <- (Rmult_1_r (Rabs (A i j))) at 2. apply Rmult_le_compat_l; [apply Rabs_pos|].
      apply Rabs_le. apply Hx; auto. }
    apply Rabs_le. split; [apply B|apply B']; intros j Hj; apply C; auto. }
  set (y := sum n (fun j => A i j * x j)) in *.
  assert (Rabs (x i * y) <= 1 * sum n (fun j => Rabs (A i j))).
  { rewrite Rabs_mult. apply Rmult_le_compat; auto using Rabs_pos. apply Rabs_le. apply Hx; auto. }
  apply Rabs_le_inv in H. lra.
Qed.

Lemma least_form : forall n A k u, orthonormal n k u -> (k < n)%nat ->
  exists x, free n k u x /\ forall y, free n k u y -> dot n x (mul n A x) <= dot n y (mul n A y).
Proof.
  intros n A k u H Hk. destruct (form_bound n A) as (c & Hc).
  set (f := fun x => dot n x (mul n A x)).
  destruct (completeness (fun t => exists x, free n k u x /\ t = - f x)) as [m [Hu Hl]].
  - exists c. intros t (x & Hx & ->). specialize (Hc x (fun i Hi => free_bound n k u x i Hx Hi)). fold (f x) in Hc. lra.
  - destruct (free_exists n k u H Hk) as (x & Hx). exists (- f x), x. auto.
  - destruct (accumulates n (fun d x => free n k u x /\ f x <= - m + d)) as (t & Ht).
    + intros d e x Hd He [H1 H2]. split; auto. lra.
    + intros d Hd. apply NNPP. intros N. assert (m <= m - d); [|lra]. apply Hl. intros t (x & Hx & ->).
      apply Rnot_lt_le. intros L. apply N. exists x. split; auto. lra.
    + intros d x i [H1 _] Hi. eapply free_bound; eauto.
    + assert (S1 : dot n t t <= 1).
      { apply (cont_limit n (fun x => dot n x x)); [apply cont_self|]. intros d Hd. destruct (Ht d Hd) as (x & [[F1 _] _] & Cx). exists x. split; auto. lra. }
      assert (S2 : - dot n t t <= - 1).
      { assert (Q : -1 * dot n t t <= -1); [|lra].
        apply (cont_limit n (fun x => -1 * dot n x x)); [apply cont_mult; [apply cont_const|apply cont_self]|]. intros d Hd.
        destruct (Ht d Hd) as (x & [[F1 _] _] & Cx). exists x. split; auto. lra. }
      assert (S3 : forall a, (a < k)%nat -> dot n (u a) t = 0).
      { intros a Ha. apply Rle_antisym.
        - apply (cont_limit n (fun x => dot n (u a) x)); [apply cont_dot|]. intros d Hd. destruct (Ht d Hd) as (x & [[_ F2] _] & Cx). exists x. split; auto. rewrite F2; auto. lra.
        - assert (Q : -1 * dot n (u a) t <= 0); [|lra].
          apply (cont_limit n (fun x => -1 * dot n (u a) x)); [apply cont_mult; [apply cont_const|apply cont_dot]|]. intros d Hd.
          destruct (Ht d Hd) as (x & [[_ F2] _] & Cx). exists x. split; auto. rewrite F2; auto. lra. }
      assert (S4 : f t <= - m).
      { apply (cont_limit n f); [apply cont_form|]. intros d Hd. destruct (Ht d Hd) as (x & [_ F2] & Cx). exists x. auto. }
      exists t. split; [split; [lra|auto]|]. intros y Hy. fold (f t) (f y).
      assert (- f y <= m) by (apply Hu; exists y; auto). lra.
Qed.

(* where the form is least there is an eigenvector *)
Lemma form_plus : forall n A x y s, symmetric n A ->
  dot n (fun i => x i + s * y i) (mul n A (fun i => x i + s * y i)) =
  dot n x (mul n A x) + 2 * s * dot n y (mul n A x) + s * s * dot n y (mul n A y).
Proof.
  intros n A x y s Hs.
  assert (E : forall i, mul n A (fun i => x i + s * y i) i = mul n A x i + s * mul n A y i).
  { intros i. unfold mul. rewrite <- sum_scal, <- sum_plus. apply sum_ext. intros. ring. }
  rewrite (dot_ext n _ _ (fun i => x i + s * y i) (fun i => mul n A x i + s * mul n A y i)) by auto.
  rewrite dot_plus, dot_scal, !(dot_comm n (fun i => x i + s * y i)), !dot_plus, !dot_scal.
  rewrite (dot_comm n (mul n A x) x), (dot_comm n (mul n A y) y), (dot_comm n (mul n A x) y), (mul_symmetric n A y x Hs). ring.
Qed.

Lemma quadratic_0 : forall b c, (forall s, 0 <= 2 * s * b + s * s * c) -> b = 0.
Proof.
  intros b c H. destruct (Req_dec b 0) as [|Hb]; auto. exfalso.
  destruct (Rle_lt_dec c 0) as [Hc|Hc].
  - specialize (H (- b)). assert (0 < b * b) by (apply Rsqr_pos_lt; auto). nra.
  - specialize (H (- b / c)). replace (2 * (- b / c) * b + - b / c * (- b / c) * c) with (- (b * b) / c) in H by (field; lra).
    assert (0 < b * b / c) by (apply Rdiv_lt_0_compat; auto; apply Rsqr_pos_lt; auto). unfold Rdiv in *. lra.
Qed.

Lemma least_eigen : forall n A k u l x, symmetric n A -> orthonormal n k u ->
  (forall a i, (a < k)%nat -> (i < n)%nat -> mul n A (u a) i = l a * u a i) ->
  free n k u x -> (forall y, free n k u y -> dot n x (mul n A x) <= dot n y (mul n A y)) ->
  forall i, (i < n)%nat -> mul n A x i = dot n x (mul n A x) * x i.
Proof.
  intros n A k u l x Hs Hu He [X1 X2] Hm. set (m := dot n x (mul n A x)) in *.
  set (y := fun i => mul n A x i - m * x i).
  assert (Yu : forall a, (a < k)%nat -> dot n (u a) y = 0).
  { intros a Ha. unfold y. rewrite dot_minus, dot_scal, X2 by auto. rewrite <- mul_symmetric by auto.
    rewrite (dot_ext n _ _ (fun i => l a * u a i) x) by auto. rewrite dot_comm, dot_scal, dot_comm, X2 by auto. ring. }
  assert (Yx : dot n x y = 0) by (unfold y; rewrite dot_minus, dot_scal, X1; fold m; ring).
  assert (Z : dot n y (mul n A x) = 0).
  { apply (quadratic_0 _ (dot n y (mul n A y) - m * dot n y y)). intros s.
    set (z := fun i => x i + s * y i).
    assert (Zz : dot n z z = 1 + s * s * dot n y y).
    { unfold z. rewrite dot_plus, dot_scal, !(dot_comm n (fun i => x i + s * y i)), !dot_plus, !dot_scal, (dot_comm n y x), X1, Yx. ring. }
    assert (Pz : 0 < dot n z z). { rewrite Zz. pose proof (dot_self n y). pose proof (Rle_0_sqr s). unfold Rsqr in *. nra. }
    set (c := / sqrt (dot n z z)).
    set (w := fun i => c * z i).
    assert (Ps : 0 < sqrt (dot n z z)) by (apply sqrt_lt_R0; auto).
    assert (Qs : c * c * dot n z z = 1).
    { assert (Q0 : sqrt (dot n z z) * sqrt (dot n z z) = dot n z z) by (apply sqrt_sqrt; lra). unfold c. clear -Q0 Ps.
      generalize dependent (sqrt (dot n z z)). intros q Q1 Q2. rewrite <- Q2. field. lra. }
    assert (Fw : free n k u w).
    { split.
      - unfold w. rewrite (dot_scal n c (fun i => c * z i) z), (dot_comm n (fun i => c * z i) z), (dot_scal n c z z). lra.
      - intros a Ha. unfold w. rewrite (dot_scal n c (u a) z). unfold z. rewrite dot_plus, dot_scal, X2, Yu by auto. ring. }
    specialize (Hm w Fw).
    assert (Ew : dot n w (mul n A w) = c * c * dot n z (mul n A z)).
    { rewrite (dot_ext n w (mul n A w) w (fun i => c * mul n A z i)); auto.
      - unfold w. rewrite (dot_scal n c (fun i => c * z i)), (dot_comm n (fun i => c * z i)), (dot_scal n c), (dot_comm n (mul n A z) z). ring.
      - intros i Hi. unfold w, mul. rewrite <- sum_scal. apply sum_ext. intros. ring. }
    rewrite Ew in Hm.
    assert (G : m * dot n z z <= dot n z (mul n A z)).
    { apply Rmult_le_reg_l with (c * c).
      - apply Rmult_lt_0_compat; unfold c; apply Rinv_0_lt_compat; auto.
      - replace (c * c * (m * dot n z z)) with (m * (c * c * dot n z z)) by ring. rewrite Qs. lra. }
    rewrite Zz in G. unfold z in G. rewrite form_plus in G by auto. fold m in G. lra. }
  assert (N : dot n y y = 0).
  { unfold y at 2. rewrite dot_minus, dot_scal, Z, (dot_comm n y x), Yx. ring. }
  intros i Hi. assert (Yi : y i = 0) by (apply (len_0 n y); auto; unfold len; rewrite N; apply sqrt_0).
  unfold y in Yi. lra.
Qed.

Lemma eigenvectors : forall n A, symmetric n A -> forall k, (k <= n)%nat ->
  exists u l, orthonormal n k u /\ forall a i, (a < k)%nat -> (i < n)%nat -> mul n A (u a) i = l a * u a i.
Proof.
  intros n A Hs k. induction k; intros Hk.
  - exists (fun _ _ => 0), (fun _ => 0). split; [intros a b Ha; lia|intros a i Ha; lia].
  - destruct (IHk ltac:(lia)) as (u & l & Hu & He).
    destruct (least_form n A k u Hu ltac:(lia)) as (x & Hx & Hm).
    exists (put u k x), (put l k (dot n x (mul n A x))). split.
    + destruct Hx as [X1 X2]. apply orthonormal_grow; auto.
    + intros a i Ha Hi. destruct (Nat.eq_dec a k) as [->|Hn].
      * rewrite !put_same. eapply least_eigen; eauto.
      * rewrite !put_other by auto. apply He; auto. lia.
Qed.

Lemma spectral : forall n A, symmetric n A -> exists u l, eigenbasis n A u l.
Proof.
  intros n A Hs. destruct (eigenvectors n A Hs n (le_n n)) as (u & l & Hu & He). exists u, l. split; [|split]; auto.
  apply orthonormal_spans. auto.
Qed.

From Coq Require Import Arith Lia Reals Lra List Bool.
Import ListNotations.
From Coquelicot Require Import Complex.
From Verif Require Import S_Arnoldi M_Arnoldi.
Open Scope R_scope.
Open Scope C_scope.

Lemma Ceq : forall x y : C, Re x = Re y -> Im x = Im y -> x = y.
Proof. intros [a b] [c d]; simpl; intros; subst; reflexivity. Qed.

Ltac cx := apply Ceq; unfold Re, Im; cbn [fst snd Cplus Cmult Copp Cminus Cconj RtoC]; try lra.

Lemma conj_plus : forall x y, Cconj (x + y) = Cconj x + Cconj y.
Proof. intros [a b] [c d]. unfold Cconj, Cplus. simpl. f_equal. ring. Qed.
Lemma conj_mult : forall x y, Cconj (x * y) = Cconj x * Cconj y.
Proof. intros [a b] [c d]. unfold Cconj, Cmult. simpl. f_equal; ring. Qed.
Lemma conj_opp : forall x, Cconj (- x) = - Cconj x.
Proof. intros [a b]. unfold Cconj, Copp. simpl. reflexivity. Qed.
Lemma conj_minus : forall x y, Cconj (x - y) = Cconj x - Cconj y.
Proof. intros. unfold Cminus. rewrite conj_plus, conj_opp. reflexivity. Qed.
Lemma conj_conj : forall x, Cconj (Cconj x) = x.
Proof. intros [a b]. unfold Cconj. simpl. f_equal. ring. Qed.
Lemma conj_R : forall x : R, Cconj (RtoC x) = RtoC x.
Proof. intros. unfold Cconj, RtoC. simpl. f_equal. ring. Qed.
Lemma conj_0_inv : forall x, Cconj x = 0 -> x = 0.
Proof. intros x H. rewrite <- (conj_conj x), H. apply conj_R. Qed.
Lemma conj_mod : forall z, Cconj z * z = RtoC (Cmod z * Cmod z).
Proof.
  intros [a b]. unfold Cmod. rewrite sqrt_sqrt.
  - unfold Cconj, Cmult, RtoC. simpl. f_equal; ring.
  - simpl. nra.
Qed.

(* ---- sums ---- *)

Lemma csum_ext : forall n x y, (forall i, (i < n)%nat -> x i = y i) -> csum n x = csum n y.
Proof. induction n; intros x y H; simpl; auto. rewrite (IHn x y), (H n); auto. Qed.

Lemma csum_0 : forall n (x : nat -> C), (forall i, (i < n)%nat -> x i = 0) -> csum n x = 0.
Proof. induction n; intros x H; simpl; auto. rewrite IHn, H; auto. ring. Qed.

Lemma csum_plus : forall n x y, csum n (fun i => x i + y i) = csum n x + csum n y.
Proof. induction n; intros; simpl; [ring|]. rewrite IHn. ring. Qed.

Lemma csum_scal : forall n c x, csum n (fun i => c * x i) = c * csum n x.
Proof. induction n; intros; simpl; [ring|]. rewrite IHn. ring. Qed.

Lemma csum_scal_r : forall n c x, csum n (fun i => x i * c) = csum n x * c.
Proof. induction n; intros; simpl; [ring|]. rewrite IHn. ring. Qed.

Lemma csum_minus : forall n x y, csum n (fun i => x i - y i) = csum n x - csum n y.
Proof. induction n; intros; simpl; [ring|]. rewrite IHn. ring. Qed.

Lemma csum_conj : forall n x, Cconj (csum n x) = csum n (fun i => Cconj (x i)).
Proof. induction n; intros; simpl; [apply conj_R|]. rewrite conj_plus, IHn. reflexivity. Qed.

Lemma csum_swap : forall n m (x : nat -> nat -> C),
  csum n (fun i => csum m (fun j => x i j)) = csum m (fun j => csum n (fun i => x i j)).
Proof.
  induction n; intros; simpl; [symmetry; apply csum_0; auto|].
  rewrite IHn, csum_plus. reflexivity.
Qed.

Lemma csum_one : forall n c (x : nat -> C), (c < n)%nat ->
  (forall i, (i < n)%nat -> i <> c -> x i = 0) -> csum n x = x c.
Proof.
  induction n; intros c x Hc H; [lia|]. simpl.
  destruct (Nat.eq_dec c n).
  - subst. rewrite csum_0; [ring|]. intros; apply H; lia.
  - rewrite (IHn c); [|lia|intros; apply H; lia]. rewrite (H n) by lia. ring.
Qed.

Lemma csum_trunc : forall m k (x : nat -> C), (k <= m)%nat -> (forall i, (k <= i < m)%nat -> x i = 0) -> csum m x = csum k x.
Proof.
  induction m; intros k x Hk H; [replace k with 0%nat by lia; reflexivity|].
  destruct (Nat.eq_dec k (S m)); [subst; reflexivity|]. simpl.
  rewrite (IHm k), (H m) by (intros; try apply H; lia). ring.
Qed.

Lemma csum_pos : forall n x, (forall i, (i < n)%nat -> (0 <= Re (x i))%R) -> (0 <= Re (csum n x))%R.
Proof.
  induction n; intros x H; [simpl; lra|]. cbn [csum].
  change (0 <= Re (csum n x) + Re (x n))%R.
  assert (0 <= Re (csum n x))%R by (apply IHn; intros; apply H; lia).
  assert (0 <= Re (x n))%R by (apply H; lia). lra.
Qed.

Lemma csum_pos_0 : forall n x, (forall i, (i < n)%nat -> (0 <= Re (x i))%R) -> Re (csum n x) = 0%R ->
  forall i, (i < n)%nat -> Re (x i) = 0%R.
Proof.
  induction n; intros x H E i Hi; [lia|]. cbn [csum] in E.
  change (Re (csum n x) + Re (x n) = 0)%R in E.
  assert (0 <= Re (csum n x))%R by (apply csum_pos; intros; apply H; lia).
  assert (0 <= Re (x n))%R by (apply H; lia).
  destruct (Nat.eq_dec i n); [subst; lra|]. apply IHn; try lia; [intros; apply H; lia|lra].
Qed.

(* ---- scalar products ---- *)

Lemma cdot_ext : forall n x y x' y',
  (forall i, (i < n)%nat -> x i = x' i) -> (forall i, (i < n)%nat -> y i = y' i) ->
  cdot n x y = cdot n x' y'.
Proof. intros. apply csum_ext. intros. rewrite H, H0; auto. Qed.

Lemma cdot_conj : forall n x y, cdot n y x = Cconj (cdot n x y).
Proof.
  intros. unfold cdot. rewrite csum_conj. apply csum_ext. intros.
  rewrite conj_mult, conj_conj. ring.
Qed.

Lemma cdot_plus : forall n x y z, cdot n x (fun i => y i + z i) = cdot n x y + cdot n x z.
Proof. intros. unfold cdot. rewrite <- csum_plus. apply csum_ext. intros. ring. Qed.

Lemma cdot_minus : forall n x y z, cdot n x (fun i => y i - z i) = cdot n x y - cdot n x z.
Proof. intros. unfold cdot. rewrite <- csum_minus. apply csum_ext. intros. ring. Qed.

Lemma cdot_scal : forall n c x y, cdot n x (fun i => c * y i) = c * cdot n x y.
Proof. intros. unfold cdot. rewrite <- csum_scal. apply csum_ext. intros. ring. Qed.

Lemma cdot_scal_l : forall n c x y, cdot n (fun i => c * x i) y = Cconj c * cdot n x y.
Proof.
  intros. unfold cdot. rewrite <- csum_scal. apply csum_ext. intros. rewrite conj_mult. ring.
Qed.

Lemma cdot_0 : forall n (x y : cvec), (forall i, (i < n)%nat -> y i = 0) -> cdot n x y = 0.
Proof. intros. apply csum_0. intros. rewrite H; auto. ring. Qed.

Lemma cdot_combine : forall n k v y x,
  cdot n x (ccombine k v y) = csum k (fun a => cdot n x (v a) * y a).
Proof.
  intros. unfold cdot, ccombine.
  transitivity (csum n (fun i => csum k (fun a => Cconj (x i) * v a i * y a))).
  - apply csum_ext. intros. rewrite <- csum_scal. apply csum_ext. intros. ring.
  - rewrite csum_swap. apply csum_ext. intros. apply csum_scal_r.
Qed.

Lemma self_pos : forall z, (0 <= Re (Cconj z * z)%C)%R.
Proof. intros. rewrite conj_mod. simpl. nra. Qed.

Lemma self_0 : forall z, Re (Cconj z * z) = 0%R -> z = 0.
Proof.
  intros z H. rewrite conj_mod in H. simpl in H. apply Cmod_eq_0. nra.
Qed.

Lemma cdot_self_re : forall n x, (0 <= Re (cdot n x x))%R.
Proof. intros. apply csum_pos. intros. apply self_pos. Qed.

Lemma cdot_self_im : forall n x, cdot n x x = RtoC (Re (cdot n x x)).
Proof.
  intros. unfold cdot. induction n; [reflexivity|]. cbn [csum]. 
  set (a := csum n (fun i : nat => Cconj (x i) * x i)) in *.
  rewrite conj_mod. rewrite IHn. cx.
Qed.

Lemma clen_nonneg : forall n x, (0 <= clen n x)%R.
Proof. intros. apply sqrt_pos. Qed.

Lemma clen_sqr : forall n x, RtoC (clen n x * clen n x)%R = cdot n x x.
Proof. intros. unfold clen. rewrite sqrt_sqrt by apply cdot_self_re. symmetry. apply cdot_self_im. Qed.

Lemma clen_ext : forall n x y, (forall i, (i < n)%nat -> x i = y i) -> clen n x = clen n y.
Proof. intros. unfold clen. do 2 f_equal. apply cdot_ext; auto. Qed.

Lemma clen_0 : forall n x, clen n x = 0%R -> forall i, (i < n)%nat -> x i = 0.
Proof.
  intros n x H. pose proof (clen_sqr n x) as E. rewrite H in E.
  assert (D : Re (cdot n x x) = 0%R) by (rewrite <- E; simpl; ring). intros i Hi.
  apply self_0. apply (csum_pos_0 n (fun i => Cconj (x i) * x i)); auto. intros. apply self_pos.
Qed.

Lemma clen_zero : forall n (x : cvec), (forall i, (i < n)%nat -> x i = 0) -> clen n x = 0%R.
Proof. intros. unfold clen. rewrite cdot_0; auto. simpl. apply sqrt_0. Qed.

Lemma clen_not_pos : forall n x, ~ (0 < clen n x)%R -> clen n x = 0%R.
Proof. intros. pose proof (clen_nonneg n x). lra. Qed.

(* ---- the matrix ---- *)

Lemma cmul_ext : forall n A x y i, (forall j, (j < n)%nat -> x j = y j) -> cmul n A x i = cmul n A y i.
Proof. intros. apply csum_ext. intros. rewrite H; auto. Qed.

Lemma cmul_combine : forall n A k v y i,
  cmul n A (ccombine k v y) i = csum k (fun a => cmul n A (v a) i * y a).
Proof.
  intros. unfold cmul, ccombine.
  transitivity (csum n (fun j => csum k (fun a => A i j * v a j * y a))).
  - apply csum_ext. intros. rewrite <- csum_scal. apply csum_ext. intros. ring.
  - rewrite csum_swap. apply csum_ext. intros. apply csum_scal_r.
Qed.

(* ---- Gram-Schmidt ---- *)

Lemma zput_same : forall X (f : nat -> X) j x, zput f j x j = x.
Proof. intros. unfold zput. rewrite Nat.eqb_refl. reflexivity. Qed.

Lemma zput_other : forall X (f : nat -> X) j x i, i <> j -> zput f j x i = f i.
Proof. intros. unfold zput. destruct (Nat.eqb_spec i j); congruence. Qed.

Lemma zput2_spec : forall h r c x r' c',
  zput2 h r c x r' c' = if (Nat.eqb r' r && Nat.eqb c' c)%bool then x else h r' c'.
Proof.
  intros. unfold zput2, zput. destruct (Nat.eqb_spec r' r); simpl; auto. subst. 
  destruct (Nat.eqb c' c); auto.
Qed.

Lemma zgemv_c_spec : forall n k v x a, (a < k)%nat -> zgemv_c n k v x a = cdot n (v a) x.
Proof. intros. unfold zgemv_c. destruct (Nat.ltb_spec a k); [reflexivity|lia]. Qed.

Lemma zproject_orthogonal : forall n k v r, corthonormal n k v ->
  forall a, (a < k)%nat -> cdot n (v a) (zgemv_n k v (zgemv_c n k v r) r) = 0.
Proof.
  intros n k v r H a Ha. unfold zgemv_n. rewrite cdot_minus, cdot_combine.
  rewrite (csum_one k a); auto.
  - rewrite H, Nat.eqb_refl, zgemv_c_spec by auto. ring.
  - intros b Hb Hn. rewrite H by auto. destruct (Nat.eqb_spec a b); [congruence|ring].
Qed.

Lemma zproject_fixed : forall n k v r, (forall a, (a < k)%nat -> cdot n (v a) r = 0) ->
  (forall i, zgemv_n k v (zgemv_c n k v r) r i = r i) /\
  (forall a, zgemv_c n k v r a = 0).
Proof.
  intros n k v r H.
  assert (E : forall a, zgemv_c n k v r a = 0).
  { intros a. unfold zgemv_c. destruct (Nat.ltb_spec a k); auto. }
  split; auto. intros i. unfold zgemv_n, ccombine. rewrite csum_0; [ring|].
  intros. rewrite E. ring.
Qed.

Lemma znear_lt : forall x, (0 < x -> x * znear < x)%R.
Proof. intros. unfold znear. lra. Qed.

Lemma znear_pos : forall x, (0 <= x -> 0 <= x * znear)%R.
Proof. intros. unfold znear. lra. Qed.

Lemma zorth_spec : forall tries n k v r rnorm0 r' rnorm,
  corthonormal n k v -> (0 <= rnorm0)%R ->
  zorth tries n k v r rnorm0 = Some (r', rnorm) ->
  (forall a, (a < k)%nat -> cdot n (v a) r' = 0) /\ rnorm = clen n r' /\ (0 < rnorm)%R.
Proof.
  induction tries; intros n k v r rnorm0 r' rnorm Ho Hp E; simpl in E; [discriminate|].
  destruct (Rlt_dec _ _) as [L|L].
  - injection E as <- <-. split; [apply zproject_orthogonal; auto|].
    split; auto. pose proof (znear_pos rnorm0 Hp). lra.
  - eapply IHtries in E; eauto. apply clen_nonneg.
Qed.

Lemma zrestart_spec : forall tries n k rand v drawn r x drawn', (0 < k)%nat ->
  corthonormal n k v -> zrestart tries n k rand v drawn = (Some (r, x), drawn') ->
  (forall a, (a < k)%nat -> cdot n (v a) r = 0) /\ x = clen n r /\ (0 < x)%R.
Proof.
  induction tries; intros n k rand v drawn r x drawn' Hk Ho E; cbn [zrestart] in E; [discriminate|].
  destruct (zgetv0 n k v (rand drawn)) as [[r0 x0]|] eqn:G.
  - injection E as -> -> _. unfold zgetv0 in G. destruct (Nat.eqb_spec k 0); [lia|].
    apply zorth_spec in G; auto. apply clen_nonneg.
  - eauto.
Qed.

Definition same_upto (m : nat) (h h' : nat -> nat -> C) : Prop :=
  forall r c, (r < m)%nat -> (c < m)%nat -> h r c = h' r c.

(* in exact arithmetic the second pass changes nothing *)
Lemma zrefine_spec : forall tries n k v h r rnorm,
  (0 < tries)%nat ->
  (forall a, (a < k)%nat -> cdot n (v a) r = 0) -> rnorm = clen n r ->
  exists h' r', zrefine tries n k v h r rnorm = (h', r', rnorm) /\
    (forall a b, h' a b = h a b) /\ (forall i, (i < n)%nat -> r' i = r i).
Proof.
  induction tries; intros n k v h r rnorm Ht Ho Hn; [lia|]. cbn [zrefine].
  destruct (zproject_fixed n k v r Ho) as [Er Es].
  set (h1 := zcolumn h k (k - 1) (fun a => h a (k - 1)%nat + zgemv_c n k v r a)).
  assert (Eh : forall a b, h1 a b = h a b).
  { intros a b. unfold h1, zcolumn. rewrite Es.
    destruct (Nat.eqb_spec b (k - 1)), (Nat.ltb a k); simpl; subst; auto. ring. }
  rewrite (clen_ext n _ r) by (intros; apply Er). rewrite Hn.
  destruct (Rlt_dec _ _) as [L|L].
  - do 2 eexists. split; [reflexivity|]. split; auto.
  - assert (Z : clen n r = 0%R).
    { apply clen_not_pos. intros P. apply L. apply znear_lt; auto. }
    destruct (Nat.eq_dec tries 0).
    + subst tries. cbn [zrefine]. rewrite Z. do 2 eexists. split; [reflexivity|]. split; auto.
      intros. symmetry. apply clen_0 with n; auto.
    + destruct (IHtries n k v h1 (zgemv_n k v (zgemv_c n k v r) r) (clen n r)) as (h' & r' & E & H' & H''); auto.
      * lia.
      * intros a Ha. rewrite (cdot_ext n (v a) _ (v a) r); auto.
      * symmetry. apply clen_ext; auto.
      * exists h', r'. split; auto. split; intros; [rewrite H'|rewrite H'', Er]; auto.
Qed.

(* ---- one step ---- *)

Lemma corthonormal_ext : forall n k v v', (forall a i, (a < k)%nat -> (i < n)%nat -> v a i = v' a i) ->
  corthonormal n k v -> corthonormal n k v'.
Proof.
  intros n k v v' E H a b Ha Hb. rewrite <- (H a b) by auto. symmetry.
  apply cdot_ext; intros; apply E; auto.
Qed.

Lemma corthonormal_grow : forall n k v x, corthonormal n k v ->
  (forall a, (a < k)%nat -> cdot n (v a) x = 0) -> cdot n x x = 1 ->
  corthonormal n (S k) (zput v k x).
Proof.
  intros n k v x H Ho H1 a b Ha Hb.
  destruct (Nat.eq_dec a k) as [->|Na], (Nat.eq_dec b k) as [->|Nb].
  - rewrite zput_same, Nat.eqb_refl. auto.
  - rewrite zput_same, zput_other by auto. rewrite cdot_conj, Ho by lia.
    destruct (Nat.eqb_spec k b); [congruence|apply conj_R].
  - rewrite zput_same, zput_other by auto. rewrite Ho by lia.
    destruct (Nat.eqb_spec a k); [congruence|reflexivity].
  - rewrite !zput_other by auto. apply H; lia.
Qed.

Lemma ccombine_S : forall k v y i, ccombine (S k) v y i = ccombine k v y i + v k i * y k.
Proof. reflexivity. Qed.

Lemma RtoC_neq : forall x, x <> 0%R -> RtoC x <> 0.
Proof. intros x H E. apply H. apply RtoC_inj. auto. Qed.

(* zero below the first subdiagonal *)
Definition hess (m : nat) (h : nat -> nat -> C) : Prop :=
  forall r c, (r < m)%nat -> (S c < r)%nat -> h r c = 0.

Lemma zgrow_arnoldi : forall n A m k rstart s f,
  arnoldi n A k (av s) (ah s) f -> (k < m)%nat -> hess m (ah s) ->
  (forall a, (a < k)%nat -> cdot n (av s a) (ares s) = 0) ->
  anrm s = clen n (ares s) -> (0 < anrm s)%R ->
  (rstart = false -> forall i, (i < n)%nat -> f i = ares s i) ->
  (rstart = true -> forall i, (i < n)%nat -> f i = 0) ->
  let s' := zgrow n A k rstart s in
  arnoldi n A (S k) (av s') (ah s') (ares s') /\ hess m (ah s') /\
  anrm s' = clen n (ares s') /\ arnd s' = arnd s /\
  (forall c i, (c < k)%nat -> av s' c i = av s c i).
Proof.
  intros n A m k rstart s f (Ho & Hf & Hr & Hh & Hb) Hkm Hhm Hres Hn Hp Hf1 Hf2.
  assert (NZ : RtoC (anrm s) <> 0) by (apply RtoC_neq; lra).
  set (x := fun i => ares s i / RtoC (anrm s)).
  assert (Ex : forall i, x i = / RtoC (anrm s) * ares s i).
  { intros. unfold x. field. auto. }
  assert (Hx : forall a, (a < k)%nat -> cdot n (av s a) x = 0).
  { intros a Ha. rewrite (cdot_ext n (av s a) x (av s a) (fun i => / RtoC (anrm s) * ares s i)); auto.
    rewrite cdot_scal, Hres; auto. ring. }
  assert (H1 : cdot n x x = 1).
  { rewrite (cdot_ext n x x (fun i => / RtoC (anrm s) * ares s i) (fun i => / RtoC (anrm s) * ares s i)); auto.
    rewrite cdot_scal, cdot_scal_l. rewrite <- clen_sqr, <- Hn.
    rewrite <- RtoC_inv by lra. rewrite conj_R, <- !RtoC_mult. f_equal. field. lra. }
  pose proof (corthonormal_grow n k _ x Ho Hx H1) as Ho'.
  set (v := zput (av s) k x) in *.
  assert (Vk : v k = x) by apply zput_same.
  assert (Vo : forall a, (a < k)%nat -> v a = av s a) by (intros; apply zput_other; lia).
  set (w := cmul n A (v k)).
  set (c := zgemv_c n (S k) v w).
  set (r := zgemv_n (S k) v c w).
  set (betaj := if rstart then 0%R else anrm s).
  set (h := if Nat.ltb 0 k then zput2 (zcolumn (ah s) (S k) k c) k (k - 1) betaj
            else zcolumn (ah s) (S k) k c).
  assert (Hbeta : (0 <= betaj)%R) by (unfold betaj; destruct rstart; lra).
  assert (Hfb : forall i, (i < n)%nat -> f i = RtoC betaj * x i).
  { intros i Hi. unfold betaj. destruct rstart.
    - rewrite Hf2 by auto. ring.
    - rewrite Hf1 by auto. unfold x. field. auto. }
  assert (Hrorth : forall a, (a < S k)%nat -> cdot n (v a) r = 0) by (apply zproject_orthogonal; auto).
  assert (Hk : forall a, (a <= k)%nat -> h a k = c a).
  { intros a Ha. unfold h. destruct (Nat.ltb_spec 0 k).
    - rewrite zput2_spec. destruct (Nat.eqb_spec k (k - 1)); [lia|]. rewrite andb_false_r.
      unfold zcolumn. rewrite Nat.eqb_refl. destruct (Nat.ltb_spec a (S k)); [reflexivity|lia].
    - unfold zcolumn. rewrite Nat.eqb_refl. destruct (Nat.ltb_spec a (S k)); [reflexivity|lia]. }
  assert (Hold : forall a b, (b < k)%nat -> h a b = if (Nat.eqb a k && Nat.eqb (S b) k)%bool then RtoC betaj else ah s a b).
  { intros a b Hbk. unfold h. destruct (Nat.ltb_spec 0 k); [|lia].
    rewrite zput2_spec. replace (Nat.eqb b (k - 1)) with (Nat.eqb (S b) k).
    2:{ destruct (Nat.eqb_spec (S b) k), (Nat.eqb_spec b (k - 1)); auto; lia. }
    destruct (Nat.eqb a k && Nat.eqb (S b) k)%bool; auto.
    unfold zcolumn. destruct (Nat.eqb_spec b k); [lia|reflexivity]. }
  (* what is at row k of the old columns: irrelevant before, now it must be zero *)
  assert (Main : forall h' r', (forall a b, h' a b = h a b) -> (forall i, (i < n)%nat -> r' i = r i) ->
    (forall b, (S b < k)%nat -> ah s k b = 0) ->
    arnoldi n A (S k) v h' r').
  { intros h' r' Eh Er Hz. split; [exact Ho'|]. split; [|split; [|split]].
    - intros a Ha. rewrite (cdot_ext n (v a) r' (v a) r); auto.
    - intros a i Ha Hi. rewrite ccombine_S, Eh. destruct (Nat.eq_dec a k) as [->|Na].
      + rewrite !Nat.eqb_refl, Er by auto. fold w. rewrite Hk by lia.
        unfold r, zgemv_n. rewrite ccombine_S.
        assert (E : ccombine k v (fun r0 => h' r0 k) i = ccombine k v c i).
        { unfold ccombine. apply csum_ext. intros b Hb'. rewrite Eh, Hk by lia. reflexivity. }
        rewrite E. ring.
      + assert (Ha' : (a < k)%nat) by lia.
        rewrite (Vo a Ha'), Hr by auto. 
        destruct (Nat.eqb_spec (S a) (S k)); [lia|].
        assert (E1 : ccombine k (av s) (fun r => ah s r a) i = ccombine k v (fun r => h' r a) i).
        { unfold ccombine. apply csum_ext. intros b Hb'. rewrite Eh, Hold, Vo by lia.
          destruct (Nat.eqb_spec b k); [lia|]. reflexivity. }
        rewrite E1. rewrite Hold by lia. rewrite Nat.eqb_refl. cbn [andb]. rewrite Vk.
        destruct (Nat.eqb_spec (S a) k).
        * rewrite Hfb by auto. ring.
        * rewrite Hz by lia. ring.
    - intros a b Ha Hb'. rewrite Eh. rewrite Hold by lia.
      destruct (Nat.eqb_spec a k); cbn [andb].
      + destruct (Nat.eqb_spec (S b) k); [lia|]. subst a. apply Hz. lia.
      + apply Hh; lia.
    - intros a Ha. rewrite Eh, Hold by lia. destruct (Nat.eqb_spec (S a) k); cbn [andb].
      + simpl. split; auto.
      + apply Hb. lia. }
  assert (Hess : hess m h).
  { intros a b Ha Hab. destruct (Nat.ltb_spec b k).
    - rewrite Hold by auto. destruct (Nat.eqb_spec a k); cbn [andb]; [|apply Hhm; auto].
      destruct (Nat.eqb_spec (S b) k); [lia|]. apply Hhm; auto.
    - assert (Ez : zcolumn (ah s) (S k) k c a b = 0).
      { unfold zcolumn. destruct (Nat.eqb_spec b k), (Nat.ltb_spec a (S k)); cbn [andb]; try lia; apply Hhm; auto. }
      unfold h. destruct (Nat.ltb_spec 0 k); auto. rewrite zput2_spec.
      destruct (Nat.eqb_spec b (k - 1)); [lia|]. rewrite andb_false_r. auto. }
  assert (Hfin : exists h' r', (forall a b, h' a b = h a b) /\ (forall i, (i < n)%nat -> r' i = r i) /\
    (if Rlt_dec (clen n w * znear) (clen n r) then (h, r, clen n r)
     else zrefine 2 n (S k) v h r (clen n r)) = (h', r', clen n r)).
  { destruct (Rlt_dec _ _).
    - exists h, r. auto.
    - destruct (zrefine_spec 2 n (S k) v h r (clen n r)) as (h' & r' & E & E1 & E2); auto.
      exists h', r'. rewrite E. auto. }
  destruct Hfin as (h' & r' & Eh & Er & E).
  assert (G : zgrow n A k rstart s = Ast v h' r' (clen n r) (arnd s)).
  { unfold zgrow. fold x. fold v. fold w. fold betaj. fold c. fold r.
    cbv zeta. fold h. rewrite E. reflexivity. }
  cbv zeta. rewrite G. cbn [av ah ares anrm arnd]. split; [apply Main; auto|]. split; [|split; [|split; auto]].
  - intros a b Ha Hab. rewrite Eh. apply Hess; auto.
  - apply clen_ext. intros. symmetry. auto.
  - intros a i Ha. rewrite Vo; auto.
Qed.

Lemma arnoldi_ext : forall n A k v h f v' h' f',
  (forall a i, (a < k)%nat -> (i < n)%nat -> v a i = v' a i) ->
  (forall a b, (a < k)%nat -> (b < k)%nat -> h a b = h' a b) ->
  (forall i, (i < n)%nat -> f i = f' i) ->
  arnoldi n A k v h f -> arnoldi n A k v' h' f'.
Proof.
  intros n A k v h f v' h' f' Ev Eh Ef (Ho & Hf & Hr & Hh & Hb).
  split; [eapply corthonormal_ext; eauto|]. split; [|split; [|split]].
  - intros a Ha. rewrite <- (Hf a Ha). symmetry. apply cdot_ext; auto.
  - intros c i Hc Hi. rewrite <- (cmul_ext n A (v c)) by auto. rewrite Hr by auto. f_equal.
    + unfold ccombine. apply csum_ext. intros. rewrite Ev, Eh by auto. reflexivity.
    + destruct (Nat.eqb (S c) k); auto.
  - intros r c Hrk Hc. rewrite <- Eh by lia. auto.
  - intros c Hc. rewrite <- Eh by lia. auto.
Qed.

Lemma zsteps_arnoldi : forall np n A rand m k s,
  (0 < k)%nat \/ (0 < anrm s)%R -> (k + np <= m)%nat -> hess m (ah s) ->
  arnoldi n A k (av s) (ah s) (ares s) -> anrm s = clen n (ares s) ->
  exists info s', zsteps n A rand np k s = Zended info s' /\
    anrm s' = clen n (ares s') /\ hess m (ah s') /\
    (forall c i, (c < k)%nat -> av s' c i = av s c i) /\
    ((info = 0%nat /\ arnoldi n A (k + np) (av s') (ah s') (ares s'))
     \/ ((0 < info)%nat /\ (k <= info < k + np)%nat /\
         arnoldi n A info (av s') (ah s') (ares s') /\
         forall i, (i < n)%nat -> ares s' i = 0)).
Proof.
  induction np; intros n A rand m k s Hk Hm HH HL Hn; cbn [zsteps].
  { exists 0%nat, s. rewrite Nat.add_0_r. split; auto. split; auto. }
  pose proof HL as (Ho & Hf & _).
  destruct (Rlt_dec 0 (anrm s)) as [P|P].
  - destruct (zgrow_arnoldi n A m k false s (ares s)) as (HL' & HH' & Hn' & _ & Hv'); auto.
    { lia. } { discriminate. }
    destruct (IHnp n A rand m (S k) (zgrow n A k false s)) as (info & s' & E & En & EH & Ev & C); auto.
    all: try lia; try (left; lia).
    exists info, s'. split; auto. split; auto. split; auto. split.
    { intros. rewrite Ev, Hv' by lia. reflexivity. }
    destruct C as [[C1 C2]|(C1 & C2 & C3)]; [left|right].
    + split; auto. replace (k + S np)%nat with (S k + np)%nat by lia. auto.
    + split; auto. split; auto. lia.
  - assert (Z : clen n (ares s) = 0%R) by (apply clen_not_pos; rewrite <- Hn; auto).
    destruct Hk as [Hk|Hk]; [|contradiction].
    destruct (zrestart 3 n k rand (av s) (arnd s)) as [[[r x]|] drawn] eqn:G.
    + pose proof (zrestart_spec _ _ _ _ _ _ _ _ _ Hk Ho G) as (Hr & Ex & Hx).
      destruct (Req_EM_T x 0); [lra|].
      set (s0 := Ast (av s) (ah s) r x drawn).
      destruct (zgrow_arnoldi n A m k true s0 (ares s)) as (HL' & HH' & Hn' & _ & Hv'); auto.
      { lia. } { discriminate. }
      { intros _. apply clen_0. auto. }
      destruct (IHnp n A rand m (S k) (zgrow n A k true s0)) as (info & s' & E & En & EH & Ev & C); auto.
      all: try lia; try (left; lia).
      exists info, s'. split; auto. split; auto. split; auto. split.
      { intros. rewrite Ev, Hv' by lia. reflexivity. }
      destruct C as [[C1 C2]|(C1 & C2 & C3)]; [left|right].
      * split; auto. replace (k + S np)%nat with (S k + np)%nat by lia. auto.
      * split; auto. split; auto. lia.
    + exists k. eexists. split; [reflexivity|]. cbn [av ah ares anrm]. split.
      { symmetry. apply clen_zero. auto. }
      split; auto. split; auto. right. split; auto. split; [lia|]. split; auto.
      eapply arnoldi_ext; eauto. intros. apply clen_0 with n; auto.
Qed.

(* without tolerances, the check at the end changes nothing *)
Lemma ztrim_same : forall cnt m i h a b, ztrim 0 0 m cnt i h a b = h a b.
Proof.
  induction cnt; intros m i h a b; cbn [ztrim]; auto.
  rewrite IHcnt. destruct (Rle_dec _ _) as [L|L]; auto.
  assert (Z : small_aitr 0 0 m h i = 0%R).
  { unfold small_aitr. rewrite Rmult_0_l. apply Rmax_left. lra. }
  rewrite Z in L. rewrite zput2_spec.
  destruct (Nat.eqb_spec a (S i)), (Nat.eqb_spec b i); cbn [andb]; subst; auto.
  symmetry. apply Cmod_eq_0. pose proof (Cmod_ge_0 (h (S i) i)). lra.
Qed.

Lemma znaitr_arnoldi : forall np n A rand m k s,
  (0 < k)%nat \/ (0 < anrm s)%R -> (k + np <= m)%nat -> hess m (ah s) ->
  arnoldi n A k (av s) (ah s) (ares s) -> anrm s = clen n (ares s) ->
  exists info s', znaitr 0 0 n A rand np k s = Zended info s' /\
    anrm s' = clen n (ares s') /\ hess m (ah s') /\
    (forall c i, (c < k)%nat -> av s' c i = av s c i) /\
    ((info = 0%nat /\ arnoldi n A (k + np) (av s') (ah s') (ares s'))
     \/ ((0 < info)%nat /\ (k <= info < k + np)%nat /\
         arnoldi n A info (av s') (ah s') (ares s') /\
         forall i, (i < n)%nat -> ares s' i = 0)).
Proof.
  intros np n A rand m k s Hk Hm HH HL Hn.
  destruct (zsteps_arnoldi np n A rand m k s Hk Hm HH HL Hn) as (info & s' & E & En & EH & Ev & C).
  unfold znaitr. rewrite E. destruct info as [|info].
  2:{ exists (S info), s'. auto 6. }
  exists 0%nat. eexists. split; [reflexivity|]. cbn [av ah ares anrm].
  split; auto. split; [intros a b Ha Hab; rewrite ztrim_same; auto|]. split; auto.
  destruct C as [[_ C]|[C _]]; [|lia]. left. split; auto.
  eapply arnoldi_ext; [| | |exact C]; auto. intros. symmetry. apply ztrim_same.
Qed.

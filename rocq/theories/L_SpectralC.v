(* The spectral theorem for Hermitian matrices, from the one for real symmetric
   matrices of twice the order. *)
From Coq Require Import Arith Lia Reals Lra List Bool.
Import ListNotations.
From Coquelicot Require Import Complex.
From Verif Require Import S_Lanczos M_Lanczos L_Lanczos L_Spectral S_Arnoldi M_Arnoldi L_Arnoldi.
Open Scope R_scope.
Open Scope C_scope.

Lemma split_index : forall k, exists i, k = (2 * i)%nat \/ k = (2 * i + 1)%nat.
Proof.
  intros k. destruct (Nat.Even_or_Odd k) as [[i Hi]|[i Hi]]; exists i; auto.
Qed.
Lemma div2_even : forall i, Nat.div2 (2 * i) = i.
Proof. intros. apply Nat.div2_double. Qed.
Lemma div2_odd : forall i, Nat.div2 (2 * i + 1) = i.
Proof. intros. replace (2 * i + 1)%nat with (S (2 * i)) by lia. apply Nat.div2_succ_double. Qed.
Lemma even_even : forall i, Nat.even (2 * i) = true.
Proof. intros. apply Nat.even_spec. exists i. lia. Qed.
Lemma even_odd : forall i, Nat.even (2 * i + 1) = false.
Proof. intros. rewrite <- Nat.negb_odd. replace (Nat.odd (2 * i + 1)) with true; auto. symmetry. apply Nat.odd_spec. exists i. lia. Qed.

(* the real and imaginary parts of the components, one after the other *)
Definition emb (x : cvec) : vec := fun k => if Nat.even k then Re (x (Nat.div2 k)) else Im (x (Nat.div2 k)).
Definition unemb (r : vec) : cvec := fun i => (r (2 * i)%nat, r (2 * i + 1)%nat).
Definition embm (A : nat -> nat -> C) : nat -> nat -> R := fun k l =>
  let a := A (Nat.div2 k) (Nat.div2 l) in
  if Nat.even k then if Nat.even l then Re a else (- Im a)%R else if Nat.even l then Im a else Re a.

Lemma emb_even : forall x i, emb x (2 * i)%nat = Re (x i).
Proof. intros. unfold emb. rewrite even_even, div2_even. reflexivity. Qed.
Lemma emb_odd : forall x i, emb x (2 * i + 1)%nat = Im (x i).
Proof. intros. unfold emb. rewrite even_odd, div2_odd. reflexivity. Qed.
Lemma emb_unemb : forall r k, emb (unemb r) k = r k.
Proof. intros. destruct (split_index k) as [i [->| ->]]; [rewrite emb_even|rewrite emb_odd]; reflexivity. Qed.
Lemma emb_eq : forall n x y, (forall k, (k < 2 * n)%nat -> emb x k = emb y k) -> forall i, (i < n)%nat -> x i = y i.
Proof.
  intros n x y H i Hi. apply Ceq.
  - rewrite <- !emb_even. apply H. lia.
  - rewrite <- !emb_odd. apply H. lia.
Qed.

Lemma sum_pairs : forall n f, sum (2 * n) f = sum n (fun i => f (2 * i)%nat + f (2 * i + 1)%nat)%R.
Proof.
  induction n; intros; [reflexivity|]. replace (2 * S n)%nat with (S (S (2 * n))) by lia. cbn [sum]. rewrite IHn.
  replace (S (2 * n)) with (2 * n + 1)%nat by lia. lra.
Qed.
Lemma Re_csum : forall n x, Re (csum n x) = sum n (fun i => Re (x i)).
Proof. induction n; intros; [reflexivity|]. cbn [csum sum]. rewrite <- IHn. reflexivity. Qed.
Lemma Im_csum : forall n x, Im (csum n x) = sum n (fun i => Im (x i)).
Proof. induction n; intros; [reflexivity|]. cbn [csum sum]. rewrite <- IHn. reflexivity. Qed.

Lemma emb_dot : forall n x y, dot (2 * n) (emb x) (emb y) = Re (cdot n x y).
Proof.
  intros. unfold dot, cdot. rewrite Re_csum, sum_pairs. apply sum_ext. intros i Hi. rewrite !emb_even, !emb_odd.
  destruct (x i) as [a b], (y i) as [c d]. cbn. ring.
Qed.

Lemma emb_mul : forall n A x k, mul (2 * n) (embm A) (emb x) k = emb (cmul n A x) k.
Proof.
  intros. unfold mul. rewrite sum_pairs. destruct (split_index k) as [i [->| ->]].
  - rewrite emb_even. unfold cmul. rewrite Re_csum. apply sum_ext. intros j Hj. rewrite !emb_even, !emb_odd. unfold embm.
    rewrite !even_even, !even_odd, !div2_even, !div2_odd. destruct (A i j) as [a b], (x j) as [c d]. cbn. ring.
  - rewrite emb_odd. unfold cmul. rewrite Im_csum. apply sum_ext. intros j Hj. rewrite !emb_even, !emb_odd. unfold embm.
    rewrite !even_even, !even_odd, !div2_even, !div2_odd. destruct (A i j) as [a b], (x j) as [c d]. cbn. ring.
Qed.

Lemma embm_symmetric : forall n A, hermitian n A -> symmetric (2 * n) (embm A).
Proof.
  intros n A H k l Hk Hl. destruct (split_index k) as [i Ei], (split_index l) as [j Ej].
  assert (Hi : (i < n)%nat) by lia. assert (Hj : (j < n)%nat) by lia. pose proof (H i j Hi Hj) as E.
  unfold embm. destruct Ei as [->| ->], Ej as [->| ->]; rewrite ?even_even, ?even_odd, ?div2_even, ?div2_odd, E;
    destruct (A j i) as [a b]; cbn; ring.
Qed.

(* the vectors u and i u *)
Definition embs (u : nat -> cvec) : nat -> vec := fun b =>
  if Nat.even b then emb (u (Nat.div2 b)) else emb (fun i => Ci * u (Nat.div2 b) i).
Lemma embs_even : forall u i, embs u (2 * i)%nat = emb (u i).
Proof. intros. unfold embs. rewrite even_even, div2_even. reflexivity. Qed.
Lemma embs_odd : forall u i, embs u (2 * i + 1)%nat = emb (fun j => Ci * u i j).
Proof. intros. unfold embs. rewrite even_odd, div2_odd. reflexivity. Qed.

Lemma embs_dot : forall n u i x,
  dot (2 * n) (embs u (2 * i)%nat) (emb x) = Re (cdot n (u i) x) /\
  dot (2 * n) (embs u (2 * i + 1)%nat) (emb x) = Im (cdot n (u i) x).
Proof.
  intros. rewrite embs_even, embs_odd, !emb_dot, cdot_scal_l. split; [reflexivity|].
  destruct (cdot n (u i) x) as [a b]. cbn. ring.
Qed.

Lemma embs_orthonormal : forall n k u, corthonormal n k u -> orthonormal (2 * n) (2 * k) (embs u).
Proof.
  intros n k u H a b Ha Hb. destruct (split_index a) as [i Ei], (split_index b) as [j Ej].
  assert (Hi : (i < k)%nat) by lia. assert (Hj : (j < k)%nat) by lia.
  pose proof (H i j Hi Hj) as E. destruct Ej as [->| ->].
  - rewrite embs_even. destruct (embs_dot n u i (u j)) as [D1 D2]. rewrite E in D1, D2. destruct Ei as [->| ->].
    + rewrite D1. destruct (Nat.eqb_spec i j), (Nat.eqb_spec (2 * i) (2 * j)); try lia; reflexivity.
    + rewrite D2. destruct (Nat.eqb_spec (2 * i + 1) (2 * j)); try lia. destruct (Nat.eqb i j); reflexivity.
  - rewrite embs_odd. destruct (embs_dot n u i (fun l => Ci * u j l)) as [D1 D2]. rewrite cdot_scal, E in D1, D2. destruct Ei as [->| ->].
    + rewrite D1. destruct (Nat.eqb_spec (2 * i) (2 * j + 1)); try lia. destruct (Nat.eqb i j); cbn; ring.
    + rewrite D2. destruct (Nat.eqb_spec i j), (Nat.eqb_spec (2 * i + 1) (2 * j + 1)); try lia; cbn; ring.
Qed.

Lemma corthonormal_spans : forall n u, corthonormal n n u ->
  forall (x : cvec) i, (i < n)%nat -> x i = ccombine n u (fun k => cdot n (u k) x) i.
Proof.
  intros n u H x. apply emb_eq. intros k Hk.
  rewrite (orthonormal_spans (2 * n) (embs u) (embs_orthonormal n n u H) (emb x) k Hk).
  unfold combine. rewrite sum_pairs. destruct (split_index k) as [j Ej].
  destruct Ej as [->| ->]; [rewrite emb_even|rewrite emb_odd]; unfold ccombine; [rewrite Re_csum|rewrite Im_csum]; apply sum_ext; intros a Ha;
    destruct (embs_dot n u a x) as [D1 D2]; rewrite D1, D2, embs_even, embs_odd, ?emb_even, ?emb_odd;
    destruct (u a j) as [c d], (cdot n (u a) x) as [e f]; cbn; ring.
Qed.

Lemma ceigenvectors : forall n A, hermitian n A -> forall k, (k <= n)%nat ->
  exists u (l : nat -> R), corthonormal n k u /\ forall a i, (a < k)%nat -> (i < n)%nat -> cmul n A (u a) i = RtoC (l a) * u a i.
Proof.
  intros n A Hs k. induction k; intros Hk.
  - exists (fun _ _ => 0), (fun _ => 0%R). split; [intros a b Ha; lia|intros a i Ha; lia].
  - destruct (IHk ltac:(lia)) as (u & l & Hu & He).
    pose proof (embs_orthonormal n k u Hu) as Ho. pose proof (embm_symmetric n A Hs) as Hm.
    destruct (least_form (2 * n) (embm A) (2 * k) (embs u) Ho ltac:(lia)) as (r & Hr & Hl).
    assert (Er : forall i, (i < 2 * n)%nat -> mul (2 * n) (embm A) r i = (dot (2 * n) r (mul (2 * n) (embm A) r) * r i)%R).
    { apply (least_eigen (2 * n) (embm A) (2 * k) (embs u) (fun b => l (Nat.div2 b))); auto.
      intros b i Hb Hi. destruct (split_index b) as [a [->| ->]]; [rewrite embs_even, div2_even|rewrite embs_odd, div2_odd]; rewrite emb_mul.
      - destruct (split_index i) as [j [->| ->]]; rewrite ?emb_even, ?emb_odd, He by lia; destruct (u a j) as [c d]; cbn; ring.
      - assert (Ec : forall j, (j < n)%nat -> cmul n A (fun i => Ci * u a i) j = Ci * (RtoC (l a) * u a j)).
        { intros j Hj. rewrite <- He by lia. unfold cmul. rewrite <- csum_scal. apply csum_ext. intros. ring. }
        destruct (split_index i) as [j [->| ->]]; rewrite ?emb_even, ?emb_odd, Ec by lia; destruct (u a j) as [c d]; cbn; ring. }
    set (m := dot (2 * n) r (mul (2 * n) (embm A) r)) in *. destruct Hr as [R1 R2].
    set (x := unemb r).
    assert (Xr : forall i, emb x i = r i) by (intros; apply emb_unemb).
    exists (zput u k x), (zput l k m). split.
    + apply corthonormal_grow; auto.
      * intros a Ha. destruct (embs_dot n u a x) as [D1 D2].
        rewrite (dot_ext _ _ _ (embs u (2 * a)%nat) r) in D1 by auto. rewrite (dot_ext _ _ _ (embs u (2 * a + 1)%nat) r) in D2 by auto.
        rewrite R2 in D1, D2 by lia. apply Ceq; symmetry; auto.
      * rewrite cdot_self_im. rewrite <- emb_dot, (dot_ext _ _ _ r r), R1 by auto. reflexivity.
    + intros a i Ha Hi. destruct (Nat.eq_dec a k) as [->|Hn].
      * rewrite !zput_same. revert i Hi. apply emb_eq. intros j Hj. rewrite <- emb_mul.
        rewrite (mul_ext _ _ _ r) by auto. rewrite Er by auto.
        destruct (split_index j) as [h [->| ->]]; rewrite ?emb_even, ?emb_odd; [rewrite <- (Xr (2 * h)%nat), emb_even|rewrite <- (Xr (2 * h + 1)%nat), emb_odd];
          destruct (x h) as [c d]; cbn; ring.
      * rewrite !zput_other by auto. apply He; auto. lia.
Qed.

Lemma cspectral : forall n A, hermitian n A -> exists u l, ceigenbasis n A u l /\ forall k, Im (l k) = 0%R.
Proof.
  intros n A Hs. destruct (ceigenvectors n A Hs n (le_n n)) as (u & l & Hu & He). exists u, (fun k => RtoC (l k)). split; [|reflexivity].
  split; [|split]; auto. apply corthonormal_spans. auto.
Qed.

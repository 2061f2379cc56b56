(* C70 for symmetric matrices: the expansion in eigenvectors always exists. *)
From Coq Require Import Arith Lia Reals Lra List Bool.
Import ListNotations.
From Verif Require Import Base Spec S_Fold S_Cgs S_Power S_Lanczos M_Lanczos M_Sapps L_Lanczos L_LanczosShift L_Spectral.
Open Scope R_scope.

(* an eigenvector can be completed to a basis of eigenvectors *)
Lemma eigenvectors_from : forall n A x lam, symmetric n A -> dot n x x = 1 ->
  (forall i, (i < n)%nat -> mul n A x i = lam * x i) -> forall k, (k < n)%nat ->
  exists u l, orthonormal n (S k) u /\ (forall a i, (a < S k)%nat -> (i < n)%nat -> mul n A (u a) i = l a * u a i) /\
    u 0%nat = x /\ l 0%nat = lam.
Proof.
  intros n A x lam Hs Hx Hl k. induction k; intros Hk.
  - exists (fun _ => x), (fun _ => lam). split; [|split; [|auto]].
    + intros a b Ha Hb. replace a with 0%nat by lia. replace b with 0%nat by lia. exact Hx.
    + intros a i Ha Hi. auto.
  - destruct (IHk ltac:(lia)) as (u & l & Hu & He & U0 & L0).
    destruct (least_form n A (S k) u Hu ltac:(lia)) as (y & Hy & Hm).
    exists (put u (S k) y), (put l (S k) (dot n y (mul n A y))). split; [|split; [|split]].
    + destruct Hy as [X1 X2]. apply orthonormal_grow; auto.
    + intros a i Ha Hi. destruct (Nat.eq_dec a (S k)) as [->|Hn].
      * rewrite !put_same. eapply least_eigen; eauto.
      * rewrite !put_other by auto. apply He; auto. lia.
    + rewrite put_other by lia. exact U0.
    + rewrite put_other by lia. exact L0.
Qed.

Lemma classic_nonzero : forall n (x : nat -> R), (forall i, (i < n)%nat -> x i = 0) \/ exists i, (i < n)%nat /\ x i <> 0.
Proof.
  induction n; intros x; [left; intros; lia|].
  destruct (IHn x) as [Z|(i & Hi & Z)]; [|right; exists i; auto].
  destruct (Req_dec (x n) 0) as [E|E]; [|right; exists n; auto].
  left. intros i Hi. destruct (Nat.eq_dec i n) as [->|]; auto. apply Z. lia.
Qed.

Lemma sum_same : forall n f, sum_n Rnum n f = sum n f.
Proof. induction n; intros f; simpl; [reflexivity|]. rewrite IHn. reflexivity. Qed.
Lemma dot_same : forall n u v, S_Cgs.dot Rnum n u v = dot n u v.
Proof. intros. apply sum_same. Qed.
Lemma app_same : forall n a v i, app Rnum n a v i = mul n a v i.
Proof. intros. apply sum_same. Qed.

Lemma sum_first : forall n f, (0 < n)%nat -> sum n f = f 0%nat + sum (n - 1) (fun i => f (S i)).
Proof.
  intros n f Hn. destruct n; [lia|]. replace (S n - 1)%nat with n by lia. clear Hn.
  induction n; simpl in *; lra.
Qed.

Lemma leading_basis : forall n a lam q x start, (0 < n)%nat -> (forall i k, (i < n)%nat -> (k < n)%nat -> a i k = a k i) ->
  leading n a lam q x -> S_Cgs.dot Rnum n start x <> 0 ->
  let t := S_Cgs.dot Rnum n start x in
  exists w l c, S_Power.eigenvectors n a n w l /\ dominant n l q /\ c 0%nat <> 0 /\ expands n n w c start /\
    w 0%nat = x /\ l 0%nat = lam /\ tangent2 n c = (S_Cgs.dot Rnum n start start - t * t) / (t * t).
Proof.
  intros n a lam q x start Hn Hs (X1 & X2 & Hq & H0 & Hd) Ht t. unfold t. clear t. rewrite dot_same in X1. rewrite !dot_same in *. set (t := dot n start x).
  assert (En : exists k, n = S k) by (destruct n; [lia|eauto]). destruct En as (k & En).
  destruct (eigenvectors_from n a x lam Hs X1 ltac:(intros; rewrite <- app_same; auto) k ltac:(lia)) as (w & l & Hw & He & W0 & L0).
  rewrite <- En in *.
  exists w, l, (fun i => dot n (w i) start).
  assert (Hx : expands n n w (fun i => dot n (w i) start) start).
  { intros i Hi. rewrite (orthonormal_spans n w Hw start i Hi) at 1. unfold combine. unfold sumR. rewrite sum_same.
    apply sum_ext. intros. ring. }
  split; [|split; [|split; [|split; [|split; [|split]]]]]; auto.
  - split; [intros i j Hi Hj; rewrite dot_same; apply Hw; auto|]. intros i j Hi Hj. rewrite app_same. apply He; auto.
  - split; [exact Hq|]. rewrite L0. split; [exact H0|]. intros i Hi Hin.
    apply (Hd (l i) (w i)).
    + rewrite <- W0, dot_same, Hw by lia.
      destruct (Nat.eqb_spec 0 i); [lia|reflexivity].
    + destruct (classic_nonzero n (w i)) as [Z|Z]; [|exact Z].
      exfalso. pose proof (Hw i i Hin Hin) as E. rewrite Nat.eqb_refl in E. rewrite dot_0 in E by auto. lra.
    + intros j Hj. rewrite app_same. apply He; auto.
  - rewrite W0. rewrite dot_comm. exact Ht.
  - assert (P : dot n start start = sum n (fun i => dot n (w i) start * dot n (w i) start)).
    { rewrite (dot_ext n start start start (combine n w (fun k => dot n (w k) start))) at 1; auto; [|intros; apply orthonormal_spans; auto].
      rewrite dot_combine. apply sum_ext. intros i Hi. rewrite (dot_comm n start (w i)). ring. }
    unfold tangent2, sumR. rewrite sum_same.
    rewrite P, (sum_first n) by auto. rewrite W0, (dot_comm n x start).
    fold t.
    replace (t * t + sum (n - 1) (fun i => dot n (w (S i)) start * dot n (w (S i)) start) - t * t)
      with (sum (n - 1) (fun i => dot n (w (S i)) start * dot n (w (S i)) start)) by ring. reflexivity.
Qed.

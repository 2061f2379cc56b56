(* C70 for symmetric matrices: the power method converges to the eigenvector of
   the largest eigenvalue from every start that is not orthogonal to it. *)
From Coq Require Import Arith Lia Reals Lra List Bool.
Import ListNotations.
From Verif Require Import Base Spec S_Fold S_Reduce S_Expm S_Sparse S_Cgs S_Power M_Tensor M_Reduce M_Sparse M_Cgs L_Expm L_Cgs P_Cgs P_CgsSparse L_Power P_Power L_PowerSym.
Open Scope R_scope.

(* The power method with a real symmetric matrix whose eigenvalue lam with the
   unit eigenvector x exceeds all others in modulus: as C70_converges, without
   anything supposed about other eigenvectors. The constant is the squared
   tangent of the angle between the start and x. *)
Theorem C70_symmetric : forall jdims junk tol0 jeig (m vector rnd : tensor R) (n : nat) (left_ : bool) iter tol lam q x,
  (0 < n)%nat -> wf m -> dims m = [n; n] ->
  (forall i k, (i < n)%nat -> (k < n)%nat -> val Rnum m [i; k] = val Rnum m [k; i]) ->
  let start := if (length (data vector) =? n)%nat then vector else rnd in
  wf start -> dims start = [n] ->
  let t := dot Rnum n (entry Rnum start) x in
  leading n (fun i k => val Rnum m [i; k]) lam q x -> t <> 0 ->
  let tan2 := (dot Rnum n (entry Rnum start) (entry Rnum start) - t * t) / (t * t) in
  let limit := if Rltb 0 tol then tol else tol0 in
  let steps := if (iter =? 0)%nat then Nat.max 20 n else iter in
  exists j e y, eig_power_matrix Rnum Rminus Rabs (fun x => x) sqrt Rmult Rltb 0 Rdiv jdims junk tol0 jeig m left_ vector rnd iter tol = Ok (e, y) /\
    (j <= steps)%nat /\ wf y /\ dims y = [n] /\ dot Rnum n (entry Rnum y) (entry Rnum y) = 1 /\
    Rabs (e - lam) <= 2 * Rabs lam * (q ^ (2 * j) * tan2) /\
    1 - dot Rnum n (entry Rnum y) x * dot Rnum n (entry Rnum y) x <= q ^ (2 * S j) * tan2 /\
    (j = steps \/
     (exists mu z, (exists i, (i < n)%nat /\ z i <> 0) /\ (forall i, (i < n)%nat -> app Rnum n (fun i k => val Rnum m [i; k]) z i = mu * z i) /\
        Rabs (mu - e) <= sqrt (INR n) * (limit * Rabs e)) \/
     ((0 < j)%nat /\ exists e', Rabs (e' - lam) <= 2 * Rabs lam * (q ^ (2 * (j - 1)) * tan2) /\ Rabs (e - e') < limit * Rabs e)).
Proof.
  intros jdims junk tol0 jeig m vector rnd n left_ iter tol lam q x Hn Wm Dm Hs start Ws Ds t Hx Ht tan2 limit steps.
  set (a0 := fun i k => val Rnum m [i; k]) in *.
  destruct (leading_basis n a0 lam q x (entry Rnum start) Hn Hs Hx Ht) as (w & l & c & He & Hd & Hc & Hv & W0 & L0 & Et).
  pose proof He as He0.
  assert (He' : eigenvectors n (fun i k => if left_ then val Rnum m [k; i] else val Rnum m [i; k]) n w l).
  { destruct He as [H1 H2]. split; [exact H1|]. intros i k Hi Hk. rewrite <- (H2 i k Hi Hk). destruct left_; [|reflexivity].
    rewrite !app_same. unfold S_Lanczos.mul. apply L_Lanczos.sum_ext. intros j Hj. unfold a0. rewrite (Hs k j) by auto. reflexivity. }
  destruct (C70_converges jdims junk tol0 jeig m vector rnd n left_ iter tol n w l c q Hn Wm Dm Ws Ds He' Hn Hd Hc Hv)
    as (j & e & y & E & Hj & Wy & Dy & Hy & B1 & B2 & Hend).
  fold t in Et. fold tan2 in Et. rewrite Et, L0 in *. rewrite W0 in *.
  exists j, e, y. repeat (split; [assumption|]).
  destruct Hend as [Hend|[(i & Hi & Hend)|Hend]]; [left; exact Hend| |right; right; exact Hend].
  right. left. exists (l i), (w i). destruct He0 as [H1 H2]. split; [|split; [|exact Hend]].
  - destruct (classic_nonzero n (w i)) as [Z|Z]; [|exact Z]. exfalso.
    specialize (H1 i i Hi Hi). rewrite Nat.eqb_refl, dot_same, L_Lanczos.dot_0 in H1 by auto. lra.
  - intros k Hk. apply H2; auto.
Qed.
Print Assumptions C70_symmetric.

(* the same for a sparse matrix *)
Theorem C70_symmetric_sparse : forall jdims junk tol0 jeig (s : sparse R) (vector rnd : tensor R) (n : nat) iter tol lam q x,
  (0 < n)%nat -> wf_sparse s -> srows s = n -> scols s = n ->
  let a := S_Sparse.entry 0 s in
  (forall i k, (i < n)%nat -> (k < n)%nat -> a i k = a k i) ->
  let start := if (length (data vector) =? n)%nat then vector else rnd in
  wf start -> dims start = [n] ->
  let t := dot Rnum n (entry Rnum start) x in
  leading n a lam q x -> t <> 0 ->
  let tan2 := (dot Rnum n (entry Rnum start) (entry Rnum start) - t * t) / (t * t) in
  let limit := if Rltb 0 tol then tol else tol0 in
  let steps := if (iter =? 0)%nat then Nat.max 20 n else iter in
  exists j e y, eig_power_sparse Rnum Rminus Rabs (fun x => x) sqrt Rmult Rltb 0 Rdiv jdims junk tol0 jeig s false vector rnd iter tol = Ok (e, y) /\
    (j <= steps)%nat /\ wf y /\ dims y = [n] /\ dot Rnum n (entry Rnum y) (entry Rnum y) = 1 /\
    Rabs (e - lam) <= 2 * Rabs lam * (q ^ (2 * j) * tan2) /\
    1 - dot Rnum n (entry Rnum y) x * dot Rnum n (entry Rnum y) x <= q ^ (2 * S j) * tan2 /\
    (j = steps \/
     (exists mu z, (exists i, (i < n)%nat /\ z i <> 0) /\ (forall i, (i < n)%nat -> app Rnum n a z i = mu * z i) /\
        Rabs (mu - e) <= sqrt (INR n) * (limit * Rabs e)) \/
     ((0 < j)%nat /\ exists e', Rabs (e' - lam) <= 2 * Rabs lam * (q ^ (2 * (j - 1)) * tan2) /\ Rabs (e - e') < limit * Rabs e)).
Proof.
  intros jdims junk tol0 jeig s vector rnd n iter tol lam q x Hn Wm Dr Dc a Hs start Ws Ds t Hx Ht tan2 limit steps.
  destruct (leading_basis n a lam q x (entry Rnum start) Hn Hs Hx Ht) as (w & l & c & He & Hd & Hc & Hv & W0 & L0 & Et).
  destruct (C70_converges_sparse jdims junk tol0 jeig s vector rnd n iter tol n w l c q Hn Wm Dr Dc Ws Ds He Hn Hd Hc Hv)
    as (j & e & y & E & Hj & Wy & Dy & Hy & B1 & B2 & Hend).
  fold t in Et. fold tan2 in Et. rewrite Et, L0 in *. rewrite W0 in *.
  exists j, e, y. repeat (split; [assumption|]).
  destruct Hend as [Hend|[(i & Hi & Hend)|Hend]]; [left; exact Hend| |right; right; exact Hend].
  right. left. exists (l i), (w i). destruct He as [H1 H2]. split; [|split; [|exact Hend]].
  - destruct (classic_nonzero n (w i)) as [Z|Z]; [|exact Z]. exfalso.
    specialize (H1 i i Hi Hi). rewrite Nat.eqb_refl, dot_same, L_Lanczos.dot_0 in H1 by auto. lra.
  - intros k Hk. apply H2; auto.
Qed.
Print Assumptions C70_symmetric_sparse.

(* the matrix [2 1; 1 2] from (1, 0): eigenvalue 3 with the eigenvector (1, 1),
   and the vectors orthogonal to it have the eigenvalue 1; the angle is 45
   degrees *)
Example C70_symmetric_meets : let m := mkT [2; 2]%nat [2; 1; 1; 2] in let h := / sqrt 2 in
  let start := entry Rnum (mkT [2]%nat [1; 0]) in let t := dot Rnum 2 start (fun _ => h) in
  wf m /\ (forall i k, (i < 2)%nat -> (k < 2)%nat -> val Rnum m [i; k] = val Rnum m [k; i]) /\
  leading 2 (fun i k => val Rnum m [i; k]) 3 (1 / 3) (fun _ => h) /\ t <> 0 /\
  (dot Rnum 2 start start - t * t) / (t * t) = 1.
Proof.
  intros m h start t. assert (H2 : h * h = 1 / 2).
  { unfold h. rewrite <- Rinv_mult, sqrt_sqrt by lra. lra. }
  assert (H0 : h <> 0) by nra.
  assert (Et : t = h) by (unfold t, start, dot; cbn; lra).
  split; [reflexivity|]. split; [|split; [|split]].
  - intros i k Hi Hk. destruct i as [|[|i]], k as [|[|k]]; try lia; reflexivity.
  - split; [unfold dot; cbn; lra|]. split; [|split; [lra|split; [lra|]]].
    + intros k Hk. unfold app. destruct k as [|[|k]]; try lia; cbn; lra.
    + intros mu y Ho (k & Hk & Hy) He. assert (E0 := He 0%nat ltac:(lia)). assert (E1 := He 1%nat ltac:(lia)).
      unfold dot in Ho. unfold app in E0, E1. cbn in Ho, E0, E1.
      assert (Y : y 1%nat = - y 0%nat) by nra.
      rewrite Y in E0, E1. assert (Z : y 0%nat <> 0) by (destruct k as [|[|k]]; [auto|lra|lia]).
      assert (mu = 1) by nra. subst mu. rewrite !Rabs_pos_eq by lra. lra.
  - rewrite Et. exact H0.
  - rewrite Et, H2. unfold start, dot. cbn. lra.
Qed.

(* Property C70: convergence of the power method, over the real numbers.
   Vocabulary: S_Cgs.v, S_Power.v *)
From Coq Require Import Reals Lra Psatz QArith Qcanon.
From Verif Require Import Base Spec S_Fold S_Reduce S_Expm S_Sparse S_Cgs S_Power M_Tensor M_Reduce M_Sparse M_Cgs L_Expm L_Cgs P_Cgs P_CgsSparse L_Power.
Local Open Scope R_scope.

Lemma Rroot n v : root_ok Rnum n (fun x => x) sqrt (fun x => x) v.
Proof. unfold root_ok. apply sqrt_sqrt. rewrite dot_sum. apply sumR_nonneg. intros i _. apply Rle_0_sqr. Qed.

(* what C70_power says, in numbers *)
Lemma converges n a p w l c q v steps limit e j u (y : nat -> R) : (0 < n)%nat ->
  eigenvectors n a p w l -> (0 < p)%nat -> dominant p l q -> c 0%nat <> 0 -> expands n p w c v ->
  unit_along Rnum n (power_vec Rnum n a v j) u -> e = dot Rnum n u (app Rnum n a u) -> unit_along Rnum n (power_vec Rnum n a v (S j)) y ->
  (j = steps \/
   (forall k, (k < n)%nat -> Rltb (Rabs (app Rnum n a u k - e * u k)) (limit * Rabs e) = true) \/
   ((0 < j)%nat /\ exists u', unit_along Rnum n (power_vec Rnum n a v (j - 1)) u' /\ Rltb (Rabs (e - dot Rnum n u' (app Rnum n a u'))) (limit * Rabs e) = true)) ->
  dot Rnum n y y = 1 /\ Rabs (e - l 0%nat) <= 2 * Rabs (l 0%nat) * (q ^ (2 * j) * tangent2 p c) /\
  1 - dot Rnum n y (w 0%nat) * dot Rnum n y (w 0%nat) <= q ^ (2 * S j) * tangent2 p c /\
  (j = steps \/ (exists i, (i < p)%nat /\ Rabs (l i - e) <= sqrt (INR n) * (limit * Rabs e)) \/
   ((0 < j)%nat /\ exists e', Rabs (e' - l 0%nat) <= 2 * Rabs (l 0%nat) * (q ^ (2 * (j - 1)) * tangent2 p c) /\ Rabs (e - e') < limit * Rabs e)).
Proof.
  intros Hn He Hp Hd Hc Hv Hu Ee Hy Hstop.
  destruct (rayleigh_near n a p w l He c v q j u Hp Hd Hc Hv Hu) as [B1 _]. rewrite <- Ee in B1.
  destruct (rayleigh_near n a p w l He c v q (S j) y Hp Hd Hc Hv Hy) as [_ B2].
  split; [apply Hy|]. split; [exact B1|]. split; [exact B2|]. destruct Hstop as [H|[H|(Hj & u' & Hu' & H)]]; [left; exact H|right; left|right; right].
  - assert (Hr : 0 <= limit * Rabs e) by (specialize (H 0%nat Hn); apply Rltb_spec in H; pose proof (Rabs_pos (app Rnum n a u 0%nat - e * u 0%nat)); lra).
    destruct Hu as (U1 & s & Us). pose proof (scale_expands n p w _ _ s u (power_expands n a p w l He c v j Hv) Us) as Hx.
    apply (residual_near n a p w l He _ u e (limit * Rabs e) Hx U1 Hr). intros k Hk. apply Rltb_spec, H, Hk.
  - split; [exact Hj|]. exists (dot Rnum n u' (app Rnum n a u')). split; [|apply Rltb_spec, H].
    apply (rayleigh_near n a p w l He c v q (j - 1) u' Hp Hd Hc Hv Hu').
Qed.

(* A start that is a combination of orthonormal eigenvectors, in which the one
   with the largest eigenvalue has a part: eig_power_right and eig_power_left
   return after j steps a number that differs from that eigenvalue, and a unit
   vector that differs from that eigenvector, by no more than q^(2 j) times a
   constant of the start.  They do all the steps asked for, unless the number is
   as close as the tolerance says to some eigenvalue, or changes by less than the
   tolerance. *)
Theorem C70_converges : forall jdims junk tol0 jeig (m vector rnd : tensor R) (n : nat) (left_ : bool) iter tol p w l c q,
  (0 < n)%nat -> wf m -> dims m = [n; n] ->
  let start := if (length (data vector) =? n)%nat then vector else rnd in
  wf start -> dims start = [n] ->
  let a := fun i k => if left_ then val Rnum m [k; i] else val Rnum m [i; k] in
  eigenvectors n a p w l -> (0 < p)%nat -> dominant p l q -> c 0%nat <> 0 -> expands n p w c (entry Rnum start) ->
  let limit := if Rltb 0 tol then tol else tol0 in
  let steps := if (iter =? 0)%nat then Nat.max 20 n else iter in
  exists j e y, eig_power_matrix Rnum Rminus Rabs (fun x => x) sqrt Rmult Rltb 0 Rdiv jdims junk tol0 jeig m left_ vector rnd iter tol = Ok (e, y) /\
    (j <= steps)%nat /\ wf y /\ dims y = [n] /\ dot Rnum n (entry Rnum y) (entry Rnum y) = 1 /\
    Rabs (e - l 0%nat) <= 2 * Rabs (l 0%nat) * (q ^ (2 * j) * tangent2 p c) /\
    1 - dot Rnum n (entry Rnum y) (w 0%nat) * dot Rnum n (entry Rnum y) (w 0%nat) <= q ^ (2 * S j) * tangent2 p c /\
    (j = steps \/ (exists i, (i < p)%nat /\ Rabs (l i - e) <= sqrt (INR n) * (limit * Rabs e)) \/
     ((0 < j)%nat /\ exists e', Rabs (e' - l 0%nat) <= 2 * Rabs (l 0%nat) * (q ^ (2 * (j - 1)) * tangent2 p c) /\ Rabs (e - e') < limit * Rabs e)).
Proof.
  intros jdims junk tol0 jeig m vector rnd n left_ iter tol p w l c q Hn Wm Dm start Ws Ds a He Hp Hd Hc Hv limit steps.
  destruct (C70_power R R Rnum Rfield Rabs (fun x => x) sqrt Rmult Rltb 0 Rdiv (fun x => x) jdims junk tol0 jeig m vector rnd n left_ iter tol)
    as (j & u & e & y & E & Hj & Hu & Ee & Wy & Dy & Hy & Hs); auto.
  - exact Rfield_laws.
  - exact Rltb_total.
  - intros j. apply (power_nonzero n a p w l He c); auto. apply Hd.
  - apply Rroot.
  - intros j u _. apply Rroot.
  - exists j, e, y. split; [exact E|]. split; [exact Hj|]. split; [exact Wy|]. split; [exact Dy|].
    exact (converges n a p w l c q (entry Rnum start) steps limit e j u (entry Rnum y) Hn He Hp Hd Hc Hv Hu Ee Hy Hs).
Qed.
Print Assumptions C70_converges.
(* the same for a sparse matrix *)
Theorem C70_converges_sparse : forall jdims junk tol0 jeig (s : sparse R) (vector rnd : tensor R) (n : nat) iter tol p w l c q,
  (0 < n)%nat -> wf_sparse s -> srows s = n -> scols s = n ->
  let start := if (length (data vector) =? n)%nat then vector else rnd in
  wf start -> dims start = [n] ->
  let a := S_Sparse.entry 0 s in
  eigenvectors n a p w l -> (0 < p)%nat -> dominant p l q -> c 0%nat <> 0 -> expands n p w c (entry Rnum start) ->
  let limit := if Rltb 0 tol then tol else tol0 in
  let steps := if (iter =? 0)%nat then Nat.max 20 n else iter in
  exists j e y, eig_power_sparse Rnum Rminus Rabs (fun x => x) sqrt Rmult Rltb 0 Rdiv jdims junk tol0 jeig s false vector rnd iter tol = Ok (e, y) /\
    (j <= steps)%nat /\ wf y /\ dims y = [n] /\ dot Rnum n (entry Rnum y) (entry Rnum y) = 1 /\
    Rabs (e - l 0%nat) <= 2 * Rabs (l 0%nat) * (q ^ (2 * j) * tangent2 p c) /\
    1 - dot Rnum n (entry Rnum y) (w 0%nat) * dot Rnum n (entry Rnum y) (w 0%nat) <= q ^ (2 * S j) * tangent2 p c /\
    (j = steps \/ (exists i, (i < p)%nat /\ Rabs (l i - e) <= sqrt (INR n) * (limit * Rabs e)) \/
     ((0 < j)%nat /\ exists e', Rabs (e' - l 0%nat) <= 2 * Rabs (l 0%nat) * (q ^ (2 * (j - 1)) * tangent2 p c) /\ Rabs (e - e') < limit * Rabs e)).
Proof.
  intros jdims junk tol0 jeig s vector rnd n iter tol p w l c q Hn Wm Dr Dc start Ws Ds a He Hp Hd Hc Hv limit steps.
  destruct (C70_sparse_right R R Rnum Rfield Rabs (fun x => x) sqrt Rmult Rltb 0 Rdiv (fun x => x) jdims junk tol0 jeig s vector rnd n iter tol)
    as (j & u & e & y & E & Hj & Hu & Ee & Wy & Dy & Hy & Hs); auto.
  - exact Rfield_laws.
  - exact Rltb_total.
  - intros j. apply (power_nonzero n a p w l He c); auto. apply Hd.
  - apply Rroot.
  - intros j u _. apply Rroot.
  - exists j, e, y. split; [exact E|]. split; [exact Hj|]. split; [exact Wy|]. split; [exact Dy|].
    exact (converges n a p w l c q (entry Rnum start) steps limit e j u (entry Rnum y) Hn He Hp Hd Hc Hv Hu Ee Hy Hs).
Qed.
Print Assumptions C70_converges_sparse.

(* the matrix [2 1; 1 2] from (1, 0): the eigenvectors (1, 1) and (1, -1) have
   the eigenvalues 3 and 1 *)
Example C70_converges_meets : let m := mkT [2; 2]%nat [2; 1; 1; 2] in let h := / sqrt 2 in
  let w := fun i k => match i, k with 1%nat, 1%nat => - h | _, _ => h end in
  let l := fun i => match i with 0%nat => 3 | _ => 1 end in
  wf m /\ eigenvectors 2 (fun i k => val Rnum m [i; k]) 2 w l /\ dominant 2 l (1 / 3) /\
  expands 2 2 w (fun _ => h) (entry Rnum (mkT [2]%nat [1; 0])) /\ h <> 0 /\ tangent2 2 (fun _ => h) = 1.
Proof.
  intros m h w l. assert (H2 : h * h = 1 / 2).
  { unfold h. rewrite <- Rinv_mult, sqrt_sqrt by lra. lra. }
  assert (H0 : h <> 0) by nra. split; [reflexivity|]. split; [split|split; [|split; [|split]]].
  - intros i j Hi Hj. unfold dot, w. destruct i as [|[|i]], j as [|[|j]]; try lia; cbn; lra.
  - intros i k Hi Hk. unfold app, w, l. destruct i as [|[|i]], k as [|[|k]]; try lia; cbn; lra.
  - split; [lra|]. split; [unfold l; lra|]. intros i Hi Hi2. assert (i = 1%nat) by lia. subst i. unfold l. rewrite !Rabs_pos_eq by lra. lra.
  - intros k Hk. unfold sumR. destruct k as [|[|k]]; try lia; cbn; lra.
  - exact H0.
  - unfold tangent2, sumR. cbn. rewrite Rplus_0_l. field. exact H0.
Qed.

(* A number that has stopped changing need not be an eigenvalue: the matrix
   [0 2; 2 0] from (3, 4), with 20 steps allowed; 48/25 is returned, the
   eigenvalues are 2 and -2 *)
Theorem C70_unchanged_refuted :
  let m := mkT [2; 2]%nat (map Q2Qc [0; 2; 2; 0]%Q) in let v := mkT [2]%nat (map Q2Qc [3; 4]%Q) in
  exists e y, power_Qc m false v m 0 (Q2Qc 0) = Ok (e, y) /\
    forall x, (forall i, (i < 2)%nat -> app Qcnum 2 (fun i k => val Qcnum m [i; k]) x i = (e * x i)%Qc) -> forall i, (i < 2)%nat -> x i = Q2Qc 0.
Proof.
  intros m v. destruct (C70_meets) as (_ & _ & _ & _ & _ & _ & _ & E). fold m v in E.
  destruct (power_Qc m false v m 0 (Q2Qc 0)) as [[e y]| | |]; try discriminate E. exists e, y. split; [reflexivity|].
  injection E as Ee _. intros x Hx.
  assert (X0 := Hx 0%nat ltac:(lia)). assert (X1 := Hx 1%nat ltac:(lia)). clear Hx.
  apply (f_equal this) in X0, X1. unfold app, m in X0, X1. cbn - [Qcplus Qcmult Q2Qc] in X0, X1.
  assert (F : forall a b : Q, a = b -> (a == b)%Q) by (intros a b ->; reflexivity). apply F in X0, X1.
  unfold Qcplus, Qcmult, Q2Qc in X0, X1; cbn [this] in X0, X1. rewrite !Qred_correct in X0, X1. rewrite Ee in X0, X1.
  assert (Z0 : (this (x 0%nat) == 0)%Q) by lra. assert (Z1 : (this (x 1%nat) == 0)%Q) by lra.
  intros i Hi. apply Qc_is_canon. change (this (Q2Qc 0)) with 0%Q. destruct i as [|[|i]]; try lia; assumption.
Qed.
Print Assumptions C70_unchanged_refuted.

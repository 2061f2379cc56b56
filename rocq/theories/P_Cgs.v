(* Properties C69 and C70: the method of conjugate gradients and the power
   method, in exact arithmetic. *)
From Coq Require Import QArith Qcanon Lqa.
From Verif Require Import Base Spec S_Fold S_Reduce S_Expm S_Cgs M_Tensor M_Arith M_Fold M_Reduce M_Expm M_Cgs
  L_Lin L_Tensor L_Fold L_Kron L_Reduce L_Expm L_BlockSvd L_Eig L_CgsAlg L_Cgs L_Gauss.
Local Open Scope nat_scope.

(* ---- C69 ---- *)

(* For every linear map and every start, what cgs returns is an approximation of
   the textbook iteration, whose residuals are the true residuals b - a x: the
   start if it is already good; otherwise the first one that is good, or the one
   after the last step allowed.  It aborts when the map is singular along the
   direction of the search. *)
Theorem C69_iterates : forall A R (N : numops A) (K : fieldops A) (rabs : A -> R) rsqrt rmul lt rzero junk f eps tol0 ds a b x0 maxiter tol,
  fieldlaws N K -> linear_map N f ds a -> wf b -> dims b = ds -> wf x0 -> dims x0 = ds -> (maxiter <> 0%Z \/ ds <> []) ->
  let n := nelem ds in
  let run := cgs N K rabs rsqrt rmul lt rzero junk f eps tol0 b x0 maxiter tol in
  let limit := if lt rzero tol then tol else tol0 in
  let steps := Z.to_nat ((if (maxiter =? 0)%Z then Z.of_nat (hd 0 ds) else maxiter) + 1) in
  let xs := cg_x N K n a (entry N b) (entry N x0) in
  let ps := cg_p N K n a (entry N b) (entry N x0) in
  let sq k := dot N n (residual N K n a (entry N b) (xs k)) (residual N K n a (entry N b) (xs k)) in
  let good k := lt (rsqrt (rabs (sq k))) limit in
  let singular k := lt (rabs (dot N n (ps k) (app N n a (ps k)))) (rmul eps (rabs (sq k))) in
  (lt limit (rsqrt (rabs (sq 0))) = false /\ run = Ok x0) \/
  (lt limit (rsqrt (rabs (sq 0))) = true /\
   exists j, j <= steps /\ (forall i, i < j -> singular i = false) /\ (forall i, 0 < i < j -> good i = false) /\
    ((run = Abort /\ j < steps /\ singular j = true /\ (0 < j -> good j = false)) \/
     (exists y, run = Ok y /\ wf y /\ dims y = ds /\ (forall i, i < n -> entry N y i = xs j i) /\ (j = steps \/ (0 < j /\ good j = true))))).
Proof.
  intros A R N K rabs rsqrt rmul lt rzero junk f eps tol0 ds a b x0 maxiter tol L HL Wb Db Wx Dx Hds n run limit steps xs ps sq good singular.
  destruct (cgs_ok N K L rabs rsqrt rmul lt rzero junk f eps tol0 ds a HL b x0 Wb Db Wx Dx maxiter tol Hds) as [H|(E & j & H1 & H2 & H3 & [H4|(y & Ey & (Wy & Dy & Hy) & H4)])].
  - left. exact H.
  - right. split; [exact E|]. exists j. split; [exact H1|]. split; [exact H2|]. split; [exact H3|]. left. exact H4.
  - right. split; [exact E|]. exists j. split; [exact H1|]. split; [exact H2|]. split; [exact H3|]. right. exists y.
    split; [exact Ey|]. split; [exact Wy|]. split; [exact Dy|]. split; [exact Hy|exact H4].
Qed.
Print Assumptions C69_iterates.

(* The solver solves: for a square matrix that is Hermitian and definite, away
   from zero by more than eps, and as many steps as there are unknowns, the
   solution has a residual within the tolerance. *)
Theorem C69_solves : forall A R (N : numops A) (K : fieldops A) (rabs : A -> R) rsqrt rmul (lt : R -> R -> bool) rzero jdims junk eps tol0 n (m b x0 : tensor A) maxiter tol,
  fieldlaws N K -> 0 < n -> wf m -> dims m = [n; n] -> wf b -> dims b = [n] -> wf x0 -> dims x0 = [n] ->
  let a := fun i k => val N m [i; k] in
  let limit := if lt rzero tol then tol else tol0 in
  hermitian N n a ->
  (forall v, dot N n v (app N n a v) = nzero N -> forall i, i < n -> v i = nzero N) ->
  (forall v, lt (rabs (dot N n v (app N n a v))) (rmul eps (rabs (dot N n v v))) = false) ->
  (forall x u w, lt x (rmul eps (rabs (nadd N (dot N n u u) (dot N n w w)))) = false -> lt x (rmul eps (rabs (dot N n u u))) = false) ->
  lt (rsqrt (rabs (nzero N))) limit = true -> lt limit (rsqrt (rabs (nzero N))) = false ->
  (maxiter = 0 \/ Z.of_nat n <= maxiter + 1)%Z ->
  exists y, cgs N K rabs rsqrt rmul lt rzero junk (matrix_map N jdims junk m false) eps tol0 b x0 maxiter tol = Ok y /\ wf y /\ dims y = [n] /\
    let r := residual N K n a (entry N b) (entry N y) in
    (lt (rsqrt (rabs (dot N n r r))) limit = true \/ lt limit (rsqrt (rabs (dot N n r r))) = false).
Proof.
  intros A R N K rabs rsqrt rmul lt rzero jd junk eps tol0 n m b x0 maxiter tol L Hn Wm Dm Wb Db Wx Dx a limit HH Hdef Hcond Hmono Hz Hz0 Hsteps.
  pose proof (matrix_map_linear N (f_num _ _ L) jd junk m n false Wm Dm Hn) as HL. cbv beta iota in HL. fold a in HL. pose proof (nelem_1 n) as En.
  destruct (cgs_solves N K L rabs rsqrt rmul lt rzero junk _ eps tol0 [n] a HL b x0 Wb Db Wx Dx maxiter tol ltac:(right; discriminate)) as (y & H); try (rewrite En; assumption); auto.
  - rewrite En. unfold steps. cbn [hd]. destruct (Z.eqb_spec maxiter 0); lia.
  - exists y. rewrite En in H. exact H.
Qed.
Print Assumptions C69_solves.

(* an exact solution of 2x + y = 1, x + 3y = 2 *)
Definition cgs_Qc := cgs Qcnum Qcfield Qc_abs (fun x => x) Qcmult Qc_ltb (Q2Qc 0) (fun _ => Q2Qc 7).
Example C69_meets :
  let m := mkT [2; 2] (map Q2Qc [2; 1; 1; 3]%Q) in let b := mkT [2] (map Q2Qc [1; 2]%Q) in let x0 := mkT [2] (map Q2Qc [5; 0]%Q) in
  let a := fun i k => val Qcnum m [i; k] in let eps := Q2Qc (1 # 1000) in
  wf m /\ wf b /\ wf x0 /\ hermitian Qcnum 2 a /\
  (forall v, Qc_ltb (Qc_abs (dot Qcnum 2 v (app Qcnum 2 a v))) (eps * Qc_abs (dot Qcnum 2 v v))%Qc = false) /\
  (forall v, dot Qcnum 2 v (app Qcnum 2 a v) = Q2Qc 0 -> forall i, i < 2 -> v i = Q2Qc 0) /\
  (forall x u w, Qc_ltb x (eps * Qc_abs (dot Qcnum 2 u u + dot Qcnum 2 w w)) = false -> Qc_ltb x (eps * Qc_abs (dot Qcnum 2 u u)) = false)%Qc /\
  (y <- cgs_Qc (matrix_map Qcnum (fun _ => 7) (fun _ => Q2Qc 7) m false) eps (Q2Qc (1 # 1000)) b x0 0 (Q2Qc 0) ;; Ok (map this (data y))) = Ok [1 # 5; 3 # 5]%Q.
Proof.
  intros m b x0 a eps.
  assert (D2 : forall u v, this (dot Qcnum 2 u v) == this (u 0) * this (v 0) + this (u 1) * this (v 1)).
  { intros u v. unfold dot. cbn - [Qcplus Qcmult]. unfold Qcplus, Qcmult, Q2Qc; cbn [this]. rewrite !Qred_correct. ring. }
  assert (P2 : forall v, this (dot Qcnum 2 v (app Qcnum 2 a v)) == this (v 0) * (2 * this (v 0) + this (v 1)) + this (v 1) * (this (v 0) + 3 * this (v 1))).
  { intros v. rewrite D2. unfold app, a, m. cbn - [Qcplus Qcmult Q2Qc]. unfold Qcplus, Qcmult, Q2Qc; cbn [this]. rewrite !Qred_correct. ring. }
  assert (Pos : forall x, (0 <= this x)%Q -> Qc_abs x = x).
  { intros x Hx. unfold Qc_abs. destruct (Qle_bool 0 x) eqn:E; [reflexivity|]. exfalso. apply Qle_bool_iff in Hx. cbn in *. congruence. }
  assert (H0 : forall v, (0 <= this (dot Qcnum 2 v v))%Q) by (intros v; rewrite D2; nra).
  assert (H1 : forall v, (this (dot Qcnum 2 v v) <= this (dot Qcnum 2 v (app Qcnum 2 a v)))%Q) by (intros v; rewrite P2, D2; nra).
  split; [reflexivity|]. split; [reflexivity|]. split; [reflexivity|]. split; [|split; [|split; [|split]]].
  - intros i k Hi Hk. destruct i as [|[|i]], k as [|[|k]]; try lia; reflexivity.
  - intros v. apply Qc_ltb_ge. rewrite !Pos by eauto using Qle_trans. pose proof (H0 v). pose proof (H1 v).
    unfold Qcle, eps, Qcmult, Q2Qc; cbn [this]. rewrite !Qred_correct. lra.
  - intros v E i Hi. apply (f_equal this) in E. apply (f_equal (fun q => q)) in E. pose proof (H0 v) as F0. pose proof (H1 v) as F1. rewrite E in F1. change (this (Q2Qc 0)) with 0%Q in F1.
    assert (E0 : (this (v 0%nat) * this (v 0%nat) + this (v 1%nat) * this (v 1%nat) <= 0)%Q) by (rewrite <- D2; exact F1).
    apply Qc_is_canon. change (this (Q2Qc 0)) with 0%Q. destruct i as [|[|i]]; [nra|nra|lia].
  - intros x u w. rewrite !Qc_ltb_ge. rewrite !Pos; [| apply H0 |].
    + unfold Qcle, eps, Qcmult, Qcplus, Q2Qc; cbn [this]. rewrite !Qred_correct. pose proof (H0 w). intros. lra.
    + unfold Qcplus, Q2Qc; cbn [this]. rewrite Qred_correct. pose proof (H0 u). pose proof (H0 w). lra.
  - vm_compute. reflexivity.
Qed.

(* ---- C70 ---- *)

(* What eig_power_right and eig_power_left return, for every square matrix none
   of whose powers takes the start to a vector of zero norm: for some j, with u
   the normalized A^j v, the number is <u, A u>, and the vector is the normalized
   A^(j+1) v.  The iteration stops when A u - e u is small, when e no longer
   changes, or after the number of steps asked for. *)
Theorem C70_power : forall A R (N : numops A) (K : fieldops A) (rabs rre : A -> R) rsqrt rmul (lt : R -> R -> bool) rzero divr (inj : R -> A)
    jdims junk tol0 jeig (m vector rnd : tensor A) (n : nat) (left_ : bool) iter tol,
  fieldlaws N K -> strict_total lt -> (forall s, nconj N (inj s) = inj s) -> (forall x s, inj s <> nzero N -> divr x s = fdiv K x (inj s)) ->
  0 < n -> wf m -> dims m = [n; n] ->
  let start := if length (data vector) =? n then vector else rnd in
  wf start -> dims start = [n] ->
  let a := fun i k => if left_ then val N m [k; i] else val N m [i; k] in
  let v := power_vec N n a (entry N start) in
  (forall j, dot N n (v j) (v j) <> nzero N) ->
  root_ok N n rre rsqrt inj (v 0) -> (forall j u, unit_along N n (v j) u -> root_ok N n rre rsqrt inj (app N n a u)) ->
  let limit := if lt rzero tol then tol else tol0 in
  let steps := if iter =? 0 then Nat.max 20 n else iter in
  exists j u e y, eig_power_matrix N (fsub K) rabs rre rsqrt rmul lt rzero divr jdims junk tol0 jeig m left_ vector rnd iter tol = Ok (e, y) /\
    j <= steps /\ unit_along N n (v j) u /\ e = dot N n u (app N n a u) /\
    wf y /\ dims y = [n] /\ unit_along N n (v (S j)) (entry N y) /\
    (j = steps \/
     (forall k, k < n -> lt (rabs (fsub K (app N n a u k) (nmul N e (u k)))) (rmul limit (rabs e)) = true) \/
     (0 < j /\ exists u', unit_along N n (v (j - 1)) u' /\ lt (rabs (fsub K e (dot N n u' (app N n a u')))) (rmul limit (rabs e)) = true)).
Proof. exact @eig_power_ok. Qed.
Print Assumptions C70_power.

(* Started at an eigenvector the vector stays there, and the number returned is
   the conjugate of the eigenvalue: the eigenvalue, when it is real. *)
Theorem C70_eigenvector : forall A R (N : numops A) (K : fieldops A) (rabs rre : A -> R) rsqrt rmul (lt : R -> R -> bool) rzero divr (inj : R -> A)
    jdims junk tol0 jeig (m vector rnd : tensor A) (n : nat) (left_ : bool) iter tol w,
  fieldlaws N K -> strict_total lt -> (forall s, nconj N (inj s) = inj s) -> (forall x s, inj s <> nzero N -> divr x s = fdiv K x (inj s)) ->
  0 < n -> wf m -> dims m = [n; n] -> wf vector -> dims vector = [n] ->
  let a := fun i k => if left_ then val N m [k; i] else val N m [i; k] in
  let v := power_vec N n a (entry N vector) in
  dot N n (entry N vector) (entry N vector) <> nzero N -> w <> nzero N ->
  (forall i, i < n -> app N n a (entry N vector) i = nmul N w (entry N vector i)) ->
  root_ok N n rre rsqrt inj (v 0) -> (forall j u, unit_along N n (v j) u -> root_ok N n rre rsqrt inj (app N n a u)) ->
  exists y, eig_power_matrix N (fsub K) rabs rre rsqrt rmul lt rzero divr jdims junk tol0 jeig m left_ vector rnd iter tol = Ok (nconj N w, y) /\
    wf y /\ dims y = [n] /\ unit_along N n (entry N vector) (entry N y) /\
    (forall i, i < n -> app N n a (entry N y) i = nmul N w (entry N y i)).
Proof. exact @eig_power_eigenvector. Qed.
Print Assumptions C70_eigenvector.

(* For Hermitian matrices the number returned is real. *)
Theorem C70_hermitian_real : forall A R (N : numops A) (K : fieldops A) (rabs rre : A -> R) rsqrt rmul (lt : R -> R -> bool) rzero divr (inj : R -> A)
    jdims junk tol0 jeig (m vector rnd : tensor A) (n : nat) (left_ : bool) iter tol e y,
  fieldlaws N K -> strict_total lt -> (forall s, nconj N (inj s) = inj s) -> (forall x s, inj s <> nzero N -> divr x s = fdiv K x (inj s)) ->
  0 < n -> wf m -> dims m = [n; n] ->
  let start := if length (data vector) =? n then vector else rnd in
  wf start -> dims start = [n] ->
  let a := fun i k => if left_ then val N m [k; i] else val N m [i; k] in
  let v := power_vec N n a (entry N start) in
  (forall j, dot N n (v j) (v j) <> nzero N) ->
  root_ok N n rre rsqrt inj (v 0) -> (forall j u, unit_along N n (v j) u -> root_ok N n rre rsqrt inj (app N n a u)) ->
  hermitian N n (fun i k => val N m [i; k]) ->
  eig_power_matrix N (fsub K) rabs rre rsqrt rmul lt rzero divr jdims junk tol0 jeig m left_ vector rnd iter tol = Ok (e, y) ->
  nconj N e = e.
Proof. intros. eapply eig_power_real; [..|eassumption]; eauto. Qed.
Print Assumptions C70_hermitian_real.

(* A matrix that is not square is refused. *)
Theorem C70_rejects : forall A R (N : numops A) sub (rabs rre : A -> R) rsqrt rmul (lt : R -> R -> bool) rzero divr
    jdims junk tol0 jeig (m vector rnd : tensor A) (r c : nat) (left_ : bool) iter tol,
  dims m = [r; c] -> r <> c ->
  eig_power_matrix N sub rabs rre rsqrt rmul lt rzero divr jdims junk tol0 jeig m left_ vector rnd iter tol = Abort.
Proof.
  intros. unfold eig_power_matrix. rewrite (dimension_ok m [] r [c] 0 H eq_refl : dimension m 0 = Ok r), (dimension_ok m [r] c [] 1 H eq_refl : dimension m 1 = Ok c).
  cbn [bind]. destruct (Nat.eqb_spec r c); [contradiction|]. reflexivity.
Qed.
Print Assumptions C70_rejects.

(* "the eigenvalue with the largest absolute value": for complex matrices it is
   not returned.  The matrix [i] has the eigenvalue i and no other; -i is
   returned. *)
Theorem C70_complex_refuted :
  let i1 : GQ := (Q2Qc 0, Q2Qc 1) in
  let m := mkT [1; 1] [i1] in
  exists jeig rnd, let run vector := eig_power_matrix GQnum (fsub GQfield) (fun z : GQ => Qc_abs (fst z) + Qc_abs (snd z))%Qc (fun z => fst z) (fun x => x) Qcmult Qc_ltb (Q2Qc 0)
    (fun z s => fdiv GQfield z (s, Q2Qc 0)) (fun _ => 7) (fun _ => i1) (Q2Qc (1 # 1000)) jeig m false vector rnd 0 (Q2Qc 0) in
  exists e y, run (mkT [1] [(Q2Qc 1, Q2Qc 0)]) = Ok (e, y) /\
    forall z, z <> nzero GQnum -> nmul GQnum i1 z <> nmul GQnum e z.
Proof.
  intros i1 m. exists i1, m. intros run.
  destruct (C70_eigenvector GQ Qc GQnum GQfield (fun z : GQ => Qc_abs (fst z) + Qc_abs (snd z))%Qc (fun z => fst z) (fun x => x) Qcmult Qc_ltb (Q2Qc 0)
    (fun z s => fdiv GQfield z (s, Q2Qc 0)) (fun s => (s, Q2Qc 0)) (fun _ => 7) (fun _ => i1) (Q2Qc (1 # 1000)) i1 m (mkT [1] [(Q2Qc 1, Q2Qc 0)]) m 1 false 0 (Q2Qc 0) i1) as (y & E & _); auto.
  - exact GQfield_laws.
  - exact Qc_ltb_total.
  - reflexivity.
  - reflexivity.
  - intros E. apply (f_equal (fun z : GQ => this (fst z))) in E. vm_compute in E. discriminate.
  - intros E. apply (f_equal (fun z : GQ => this (snd z))) in E. vm_compute in E. discriminate.
  - intros k Hk. assert (k = 0) by lia. subst k. unfold app, entry. cbn - [Qcplus Qcmult Qcminus Q2Qc]. unfold i1. cbn - [Qcplus Qcmult Qcminus Q2Qc]. f_equal; ring.
  - unfold root_ok, dot. cbn - [Qcplus Qcmult Qcminus Qcopp Q2Qc]. f_equal; ring.
  - intros j u (Hu & _). unfold root_ok.
    assert (Ed : dot GQnum 1 (app GQnum 1 (fun i k => val GQnum m [i; k]) u) (app GQnum 1 (fun i k => val GQnum m [i; k]) u) = dot GQnum 1 u u).
    { unfold dot, app. cbn - [Qcplus Qcmult Qcminus Qcopp Q2Qc]. destruct (u 0) as [x y]. unfold i1. cbn - [Qcplus Qcmult Qcminus Qcopp Q2Qc]. f_equal; ring. }
    rewrite Ed, Hu. cbn - [Qcplus Qcmult Qcminus Qcopp Q2Qc]. f_equal; ring.
  - exists (nconj GQnum i1), y. split; [exact E|]. intros [x x'] Hz Eq. apply Hz.
    pose proof (f_equal fst Eq) as E1. pose proof (f_equal snd Eq) as E2. unfold i1 in E1, E2. cbn - [Qcplus Qcmult Qcminus Qcopp Q2Qc] in E1, E2.
    apply (f_equal this) in E1. apply (f_equal this) in E2.
    assert (F : forall a, (a == - a)%Q -> (a == 0)%Q) by (intros; lra).
    unfold nzero. cbn. f_equal; apply Qc_is_canon; change (this (Q2Qc 0)) with 0%Q.
    + apply F. pose proof (Qeq_refl (this ((Q2Qc 0 * x' + Q2Qc 1 * x)%Qc))) as G. rewrite E2 in G at 2.
      unfold Qcplus, Qcmult, Qcopp, Q2Qc in G; cbn [this] in G. rewrite !Qred_correct in G. lra.
    + apply F. pose proof (Qeq_refl (this ((Q2Qc 0 * x - Q2Qc 1 * x')%Qc))) as G. rewrite E1 in G at 2.
      unfold Qcminus, Qcplus, Qcmult, Qcopp, Q2Qc in G; cbn [this] in G. rewrite !Qred_correct in G. lra.
Qed.
Print Assumptions C70_complex_refuted.

(* a case with rational norms: twice a reflection *)
Definition root_2_5 (x : Qc) : Qc := if Qeq_bool x 25 then Q2Qc 5 else Q2Qc 2.
Definition power_Qc := eig_power_matrix Qcnum (fsub Qcfield) Qc_abs (fun x => x) root_2_5 Qcmult Qc_ltb (Q2Qc 0) Qcdiv (fun _ => 7) (fun _ => Q2Qc 7) (Q2Qc (1 # 1000)) (Q2Qc 9).
Example C70_meets :
  let m := mkT [2; 2] (map Q2Qc [0; 2; 2; 0]%Q) in let v := mkT [2] (map Q2Qc [3; 4]%Q) in
  let a := fun i k => val Qcnum m [i; k] in
  fieldlaws Qcnum Qcfield /\ strict_total Qc_ltb /\ wf m /\ wf v /\
  (forall j, dot Qcnum 2 (power_vec Qcnum 2 a (entry Qcnum v) j) (power_vec Qcnum 2 a (entry Qcnum v) j) <> Q2Qc 0) /\
  root_ok Qcnum 2 (fun x => x) root_2_5 (fun x => x) (entry Qcnum v) /\
  (forall u, dot Qcnum 2 u u = Q2Qc 1 -> root_ok Qcnum 2 (fun x => x) root_2_5 (fun x => x) (app Qcnum 2 a u)) /\
  ('(e, y) <- power_Qc m false v m 0 (Q2Qc 0) ;; Ok (this e, map this (data y))) = Ok (48 # 25, [3 # 5; 4 # 5])%Q.
Proof.
  intros m v a. split; [exact Qcfield_laws|]. split; [exact Qc_ltb_total|]. split; [reflexivity|]. split; [reflexivity|].
  assert (E : forall u, dot Qcnum 2 (app Qcnum 2 a u) (app Qcnum 2 a u) = (Q2Qc 4 * dot Qcnum 2 u u)%Qc).
  { intros u. apply Qc_is_canon. unfold dot, app, a, m. cbn - [Qcplus Qcmult Q2Qc]. unfold Qcplus, Qcmult, Q2Qc; cbn [this]. rewrite !Qred_correct. ring. }
  split; [|split; [|split]].
  - induction j as [|j IH]; cbn [power_vec].
    + intros H. apply (f_equal this) in H. vm_compute in H. discriminate.
    + rewrite E. intros H. apply IH. destruct (Qcmult_integral _ _ H) as [H'|H']; [|exact H']. apply (f_equal this) in H'. vm_compute in H'. discriminate.
  - unfold root_ok. apply Qc_is_canon. vm_compute. reflexivity.
  - intros u Hu. unfold root_ok. rewrite E, Hu. apply Qc_is_canon. vm_compute. reflexivity.
  - vm_compute. reflexivity.
Qed.

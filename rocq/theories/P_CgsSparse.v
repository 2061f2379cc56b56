(* Properties C69 and C70 for sparse matrices and for maps given by functions. *)
From Coq Require Import QArith Qcanon Lqa.
From Verif Require Import Base Spec S_Fold S_Reduce S_Expm S_Sparse S_Cgs M_Tensor M_Arith M_Fold M_Reduce M_Expm M_Sparse M_Cgs
  L_Lin L_Tensor L_Fold L_Kron L_Reduce L_Expm L_BlockSvd L_Eig L_Sparse L_Sparse7 L_CgsAlg L_Cgs L_Gauss.
Local Open Scope nat_scope.
Local Notation sentry := S_Sparse.entry.
Local Notation entry := S_Cgs.entry.

Lemma sparse_map_linear {A} (N : numops A) (L : numlaws N) jd junk (s : sparse A) n : wf_sparse s -> srows s = n -> scols s = n ->
  linear_map N (sparse_map N jd junk s false) [n] (sentry (nzero N) s).
Proof.
  intros W Hr Hc t Wt Dt. unfold sparse_map. destruct (mmult_sp_t_wf N L jd junk s t []) as (u & Eu & Wu & Du & Hu); auto; [rewrite Hc; auto|].
  exists u. split; [auto|]. split; [auto|]. split; [congruence|]. rewrite Hr in Du. rewrite nelem_1. intros i Hi. specialize (Hu i [] ltac:(lia) ltac:(constructor)).
  rewrite (entry_vec N u n) by auto. unfold val at 1. rewrite Hu, Hc. unfold app. apply sum_ext. intros k Hk. rewrite (entry_vec N t n) by auto. reflexivity.
Qed.

Lemma normalize_total {A R} (N : numops A) (rre : A -> R) rsqrt divr (v : tensor A) : wf v ->
  exists u, normalize N rre rsqrt divr v = Ok u /\ dims u = dims v /\ wf u.
Proof.
  intros W. unfold normalize, norm2. rewrite (scprod_ok N v v eq_refl). cbn [bind].
  match goal with |- context [for_ ?m ?b ?s] => destruct (for_inv (fun _ (d : list A) => length d = length (data v)) m b s) as (d & -> & E) end.
  - reflexivity.
  - intros i d Hi Hd. destruct (nth_error_lt d i ltac:(lia)) as [x Hx]. rewrite (rd_ok _ _ _ Hx). cbn [bind]. rewrite wr_ok by lia.
    eexists. split; [reflexivity|]. rewrite length_upd. exact Hd.
  - cbn [bind]. eexists. split; [reflexivity|]. split; [reflexivity|]. unfold wf in *. cbn [data dims]. congruence.
Qed.

(* ---- C69 ---- *)

(* As C69_solves, for the cgs of sparse matrices. *)
Theorem C69_sparse : forall A R (N : numops A) (K : fieldops A) (rabs : A -> R) rsqrt rmul (lt : R -> R -> bool) rzero jdims junk eps tol0 n (s : sparse A) (b x0 : tensor A) maxiter tol,
  fieldlaws N K -> wf_sparse s -> srows s = n -> scols s = n -> wf b -> dims b = [n] -> wf x0 -> dims x0 = [n] ->
  let a := sentry (nzero N) s in
  let limit := if lt rzero tol then tol else tol0 in
  hermitian N n a ->
  (forall v, dot N n v (app N n a v) = nzero N -> forall i, i < n -> v i = nzero N) ->
  (forall v, lt (rabs (dot N n v (app N n a v))) (rmul eps (rabs (dot N n v v))) = false) ->
  (forall x u w, lt x (rmul eps (rabs (nadd N (dot N n u u) (dot N n w w)))) = false -> lt x (rmul eps (rabs (dot N n u u))) = false) ->
  lt (rsqrt (rabs (nzero N))) limit = true -> lt limit (rsqrt (rabs (nzero N))) = false ->
  (maxiter = 0 \/ Z.of_nat n <= maxiter + 1)%Z ->
  exists y, cgs N K rabs rsqrt rmul lt rzero junk (sparse_map N jdims junk s false) eps tol0 b x0 maxiter tol = Ok y /\ wf y /\ dims y = [n] /\
    let r := residual N K n a (entry N b) (entry N y) in
    (lt (rsqrt (rabs (dot N n r r))) limit = true \/ lt limit (rsqrt (rabs (dot N n r r))) = false).
Proof.
  intros A R N K rabs rsqrt rmul lt rzero jd junk eps tol0 n s b x0 maxiter tol L Ws Hr Hc Wb Db Wx Dx a limit HH Hdef Hcond Hmono Hz Hz0 Hsteps.
  pose proof (sparse_map_linear N (f_num _ _ L) jd junk s n Ws Hr Hc) as HL. fold a in HL. pose proof (nelem_1 n) as En.
  destruct (cgs_solves N K L rabs rsqrt rmul lt rzero junk _ eps tol0 [n] a HL b x0 Wb Db Wx Dx maxiter tol ltac:(right; discriminate)) as (y & H); try (rewrite En; assumption); auto.
  - rewrite En. unfold steps. cbn [hd]. destruct (Z.eqb_spec maxiter 0); lia.
  - exists y. rewrite En in H. exact H.
Qed.
Print Assumptions C69_sparse.

(* ---- C70 ---- *)

(* As C70_power, for eig_power of a function: any linear map on tensors of any
   shape. *)
Theorem C70_map : forall A R (N : numops A) (K : fieldops A) (rabs rre : A -> R) rsqrt rmul (lt : R -> R -> bool) rzero divr (inj : R -> A)
    junk f tol0 jeig (vector rnd : tensor A) ds a iter tol,
  fieldlaws N K -> strict_total lt -> (forall s, nconj N (inj s) = inj s) -> (forall x s, inj s <> nzero N -> divr x s = fdiv K x (inj s)) ->
  linear_map N f ds a ->
  let n := nelem ds in
  let start := if length (data vector) =? n then vector else rnd in
  wf start -> dims start = ds ->
  let v := power_vec N n a (entry N start) in
  (forall j, dot N n (v j) (v j) <> nzero N) ->
  root_ok N n rre rsqrt inj (v 0) -> (forall j u, unit_along N n (v j) u -> root_ok N n rre rsqrt inj (app N n a u)) ->
  let limit := if lt rzero tol then tol else tol0 in
  let steps := if iter =? 0 then Nat.max 20 n else iter in
  exists j u e y, eig_power N (fsub K) rabs rre rsqrt rmul lt rzero divr junk f tol0 jeig n vector rnd iter tol = Ok (e, y) /\
    j <= steps /\ unit_along N n (v j) u /\ e = dot N n u (app N n a u) /\
    wf y /\ dims y = ds /\ unit_along N n (v (S j)) (entry N y) /\
    (j = steps \/
     (forall k, k < n -> lt (rabs (fsub K (app N n a u k) (nmul N e (u k)))) (rmul limit (rabs e)) = true) \/
     (0 < j /\ exists u', unit_along N n (v (j - 1)) u' /\ lt (rabs (fsub K e (dot N n u' (app N n a u')))) (rmul limit (rabs e)) = true)).
Proof. intros. apply (eig_power_map_ok N K rabs rre rsqrt rmul lt rzero divr inj); auto. Qed.
Print Assumptions C70_map.

(* eig_power_right of a sparse matrix *)
Theorem C70_sparse_right : forall A R (N : numops A) (K : fieldops A) (rabs rre : A -> R) rsqrt rmul (lt : R -> R -> bool) rzero divr (inj : R -> A)
    jdims junk tol0 jeig (s : sparse A) (vector rnd : tensor A) (n : nat) iter tol,
  fieldlaws N K -> strict_total lt -> (forall s, nconj N (inj s) = inj s) -> (forall x s, inj s <> nzero N -> divr x s = fdiv K x (inj s)) ->
  wf_sparse s -> srows s = n -> scols s = n ->
  let start := if length (data vector) =? n then vector else rnd in
  wf start -> dims start = [n] ->
  let a := sentry (nzero N) s in
  let v := power_vec N n a (entry N start) in
  (forall j, dot N n (v j) (v j) <> nzero N) ->
  root_ok N n rre rsqrt inj (v 0) -> (forall j u, unit_along N n (v j) u -> root_ok N n rre rsqrt inj (app N n a u)) ->
  let limit := if lt rzero tol then tol else tol0 in
  let steps := if iter =? 0 then Nat.max 20 n else iter in
  exists j u e y, eig_power_sparse N (fsub K) rabs rre rsqrt rmul lt rzero divr jdims junk tol0 jeig s false vector rnd iter tol = Ok (e, y) /\
    j <= steps /\ unit_along N n (v j) u /\ e = dot N n u (app N n a u) /\
    wf y /\ dims y = [n] /\ unit_along N n (v (S j)) (entry N y) /\
    (j = steps \/
     (forall k, k < n -> lt (rabs (fsub K (app N n a u k) (nmul N e (u k)))) (rmul limit (rabs e)) = true) \/
     (0 < j /\ exists u', unit_along N n (v (j - 1)) u' /\ lt (rabs (fsub K e (dot N n u' (app N n a u')))) (rmul limit (rabs e)) = true)).
Proof.
  intros A R N K rabs rre rsqrt rmul lt rzero divr inj jd junk tol0 jeig s vector rnd n iter tol L Hlt Hinj Hdiv Ws Hr Hc start Wst Dst a v Hpw Hr0 Hroot limit steps.
  unfold eig_power_sparse. rewrite Hr, Hc, Nat.eqb_refl. cbn [assert_ bind].
  pose proof (sparse_map_linear N (f_num _ _ L) jd junk s n Ws Hr Hc) as HL. pose proof (nelem_1 n) as En.
  pose proof (eig_power_map_ok N K rabs rre rsqrt rmul lt rzero divr inj junk _ tol0 jeig vector rnd [n] a iter tol L Hlt Hinj Hdiv HL) as H.
  rewrite En in H. exact (H Wst Dst Hpw Hr0 Hroot).
Qed.
Print Assumptions C70_sparse_right.

(* eig_power_left of a sparse matrix never returns: whatever the matrix and the
   start, it stops at a failed assertion. *)
Theorem C70_sparse_left_refuted : forall A R (N : numops A) sub (rabs rre : A -> R) rsqrt rmul (lt : R -> R -> bool) rzero divr
    jdims junk tol0 jeig (s : sparse A) (vector rnd : tensor A) iter tol,
  let start := if length (data vector) =? scols s then vector else rnd in
  wf start -> dims start <> [] ->
  eig_power_sparse N sub rabs rre rsqrt rmul lt rzero divr jdims junk tol0 jeig s true vector rnd iter tol = Abort.
Proof.
  intros A R N sub rabs rre rsqrt rmul lt rzero divr jd junk tol0 jeig s vector rnd iter tol start Wst Dst.
  unfold eig_power_sparse. destruct (srows s =? scols s); [|reflexivity]. cbn [assert_ bind]. unfold eig_power. cbv zeta. fold start.
  destruct (normalize_total N rre rsqrt divr start Wst) as (u & -> & Du & _). cbn [bind power_loop].
  unfold sparse_map. rewrite mmult_t_sp_aborts by congruence. reflexivity.
Qed.
Print Assumptions C70_sparse_left_refuted.

(* A sparse matrix that is not square is refused. *)
Theorem C70_sparse_rejects : forall A R (N : numops A) sub (rabs rre : A -> R) rsqrt rmul (lt : R -> R -> bool) rzero divr
    jdims junk tol0 jeig (s : sparse A) (vector rnd : tensor A) (left_ : bool) iter tol,
  srows s <> scols s ->
  eig_power_sparse N sub rabs rre rsqrt rmul lt rzero divr jdims junk tol0 jeig s left_ vector rnd iter tol = Abort.
Proof. intros. unfold eig_power_sparse. destruct (Nat.eqb_spec (srows s) (scols s)); [contradiction|reflexivity]. Qed.
Print Assumptions C70_sparse_rejects.

Local Ltac good_tac :=
  repeat match goal with |- good _ _ => unfold good | |- Forall _ _ => constructor | |- good_row _ _ => split; [cbn; repeat constructor; cbn; lia|intros p Hp; cbn in Hp; intuition (subst; cbn; lia)] end.

(* the matrices of P_Cgs.C69_meets and C70_meets, stored as sparse ones, have the
   same entries and give the same results *)
Example C69_C70_sparse_meets :
  let s := mkS 2 2 [0; 2; 4] [0; 1; 0; 1] (map Q2Qc [2; 1; 1; 3]%Q) in
  let w := mkS 2 2 [0; 1; 2] [1; 0] (map Q2Qc [2; 2]%Q) in
  let root x := if Qeq_bool (this x) 25 then Q2Qc 5 else Q2Qc 2 in
  wf_sparse s /\ wf_sparse w /\
  (forall i k, i < 2 -> k < 2 -> sentry (Q2Qc 0) s i k = val Qcnum (mkT [2; 2] (map Q2Qc [2; 1; 1; 3]%Q)) [i; k]) /\
  (forall i k, i < 2 -> k < 2 -> sentry (Q2Qc 0) w i k = val Qcnum (mkT [2; 2] (map Q2Qc [0; 2; 2; 0]%Q)) [i; k]) /\
  (y <- cgs Qcnum Qcfield Qc_abs (fun x => x) Qcmult Qc_ltb (Q2Qc 0) (fun _ => Q2Qc 7) (sparse_map Qcnum (fun _ => 7) (fun _ => Q2Qc 7) s false) (Q2Qc (1 # 1000)) (Q2Qc (1 # 1000))
    (mkT [2] (map Q2Qc [1; 2]%Q)) (mkT [2] (map Q2Qc [5; 0]%Q)) 0 (Q2Qc 0) ;; Ok (map this (data y))) = Ok [1 # 5; 3 # 5]%Q /\
  ('(e, y) <- eig_power_sparse Qcnum (fsub Qcfield) Qc_abs (fun x => x) root Qcmult Qc_ltb (Q2Qc 0) Qcdiv (fun _ => 7) (fun _ => Q2Qc 7) (Q2Qc (1 # 1000)) (Q2Qc 9)
    w false (mkT [2] (map Q2Qc [3; 4]%Q)) (mkT [2] (map Q2Qc [3; 4]%Q)) 0 (Q2Qc 0) ;; Ok (this e, map this (data y))) = Ok (48 # 25, [3 # 5; 4 # 5])%Q.
Proof.
  intros s w root. split; [|split; [|split; [|split; [|split]]]].
  - change s with (pack 2 [[(0, Q2Qc 2); (1, Q2Qc 1)]; [(0, Q2Qc 1); (1, Q2Qc 3)]]). apply pack_wf. good_tac.
  - change w with (pack 2 [[(1, Q2Qc 2)]; [(0, Q2Qc 2)]]). apply pack_wf. good_tac.
  - intros i k Hi Hk. destruct i as [|[|i]], k as [|[|k]]; try lia; reflexivity.
  - intros i k Hi Hk. destruct i as [|[|i]], k as [|[|k]]; try lia; reflexivity.
  - vm_compute. reflexivity.
  - vm_compute. reflexivity.
Qed.

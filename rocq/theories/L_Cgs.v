(* Proofs about the iterative solvers. *)
From Verif Require Import Base Spec S_Fold S_Reduce S_Expm M_Tensor M_Arith M_Fold M_Reduce M_Cgs S_Cgs
  L_Lin L_Tensor L_Fold L_Arith L_Kron L_Reduce L_BlockSvd L_Expm L_Eig L_CgsAlg.
Local Open Scope nat_scope.

Lemma elt_entry {A} (N : numops A) (t : tensor A) i : wf t -> i < nelem (dims t) -> elt t (unlin (dims t) i) = Some (entry N t i).
Proof.
  intros W Hi. assert (Hp : i < prod (dims t)) by (unfold nelem in Hi; destruct (dims t); [lia|exact Hi]).
  rewrite elt_valid by (apply unlin_valid; auto). rewrite lin_unlin by auto. apply nth_error_nth'. rewrite W. auto.
Qed.

Section Rep.
Context {A : Type} (N : numops A) (ds : list nat).
Notation n := (nelem ds).
Definition vrep (t : tensor A) (f : nat -> A) : Prop := wf t /\ dims t = ds /\ forall i, i < n -> entry N t i = f i.
Lemma vrep_self t : wf t -> dims t = ds -> vrep t (entry N t).
Proof. intros. split; auto. Qed.
Lemma vrep_ext t f g : vrep t f -> (forall i, i < n -> f i = g i) -> vrep t g.
Proof. intros (W & D & H) E. split; [auto|]. split; [auto|]. intros i Hi. rewrite H; auto. Qed.
Lemma vrep_elt t f i : vrep t f -> i < n -> elt t (unlin ds i) = Some (f i).
Proof. intros (W & D & H) Hi. rewrite <- H by auto. rewrite <- D. apply elt_entry; [auto|rewrite D; auto]. Qed.
Lemma vrep_of t f : wf t -> dims t = ds -> (forall i, i < n -> elt t (unlin ds i) = Some (f i)) -> vrep t f.
Proof.
  intros W D H. split; [auto|]. split; [auto|]. intros i Hi. specialize (H i Hi). rewrite <- D, (elt_entry N) in H; [injection H as ->; auto|auto|rewrite D; auto].
Qed.
Lemma vrep_scprod t u f g : vrep t f -> vrep u g -> scprod N t u = Ok (dot N n f g).
Proof.
  intros (W & D & H) (Wu & Du & Hu). rewrite scprod_ok by (rewrite W, Wu, D, Du; auto). f_equal. rewrite W, D. unfold dot. apply sum_ext. intros i Hi.
  rewrite <- H, <- Hu by auto. reflexivity.
Qed.
Lemma vrep_op op junk t u f g : vrep t f -> vrep u g -> exists c, t_op_t op junk t u = Ok c /\ vrep c (fun i => op (f i) (g i)).
Proof.
  intros R1 R2. destruct (R1) as (W & D & _), (R2) as (Wu & Du & _). destruct (t_op_t_ok op junk t u) as (c & E & Wc & Dc & H); auto; [congruence|].
  exists c. split; [auto|]. apply vrep_of; [auto|congruence|]. intros i Hi. rewrite H, (vrep_elt t f), (vrep_elt u g) by auto. reflexivity.
Qed.
Lemma vrep_assign op t u f g : vrep t f -> vrep u g -> exists c, op_assign_t op t u = Ok c /\ vrep c (fun i => op (f i) (g i)).
Proof.
  intros R1 R2. destruct (R1) as (W & D & _), (R2) as (Wu & Du & _). destruct (op_assign_t_ok op t u) as (c & E & Wc & Dc & H); auto; [congruence|].
  exists c. split; [auto|]. apply vrep_of; [auto|congruence|]. intros i Hi. rewrite H, (vrep_elt t f), (vrep_elt u g) by auto. reflexivity.
Qed.
Lemma vrep_scale op junk (x : A) t f : vrep t f -> exists c, n_op_t op junk x t = Ok c /\ vrep c (fun i => op x (f i)).
Proof.
  intros R1. destruct (R1) as (W & D & _). rewrite n_op_t_unop. destruct (unop_ok (fun y => op x y) junk t W) as (c & E & Wc & Dc & H).
  exists c. split; [auto|]. apply vrep_of; [auto|congruence|]. intros i Hi. rewrite H, (vrep_elt t f) by auto. reflexivity.
Qed.
Lemma vrep_map Amap a t f : linear_map N Amap ds a -> vrep t f -> exists c, Amap t = Ok c /\ vrep c (app N n a f).
Proof.
  intros HL (W & D & H). destruct (HL t W D) as (u & E & Wu & Du & Hu). exists u. split; [auto|]. split; [auto|]. split; [auto|].
  intros i Hi. rewrite Hu by auto. unfold app. apply sum_ext. intros k Hk. rewrite H by auto. reflexivity.
Qed.
End Rep.

Section Cgs.
Context {A R : Type} (N : numops A) (K : fieldops A) (L : fieldlaws N K).
Context (rabs : A -> R) (rsqrt : R -> R) (rmul : R -> R -> R) (lt : R -> R -> bool) (rzero : R).
Context (junk : nat -> A) (Amap : tensor A -> outcome (tensor A)) (eps : R) (ds : list nat) (a : nat -> nat -> A) (HL : linear_map N Amap ds a).
Notation n := (nelem ds).
Context (b x0 : nat -> A).
Notation xs := (cg_x N K n a b x0). Notation rs := (cg_r N K n a b x0). Notation ps := (cg_p N K n a b x0).
Notation rho := (rho N K n a b x0). Notation qq := (qq N K n a b x0).
Context (tol : R).
Definition small (k : nat) : bool := lt (rsqrt (rabs (rho k))) tol.
Definition breakdown (k : nat) : bool := lt (rabs (qq k)) (rmul eps (rabs (rho k))).
Notation vrep := (vrep N ds).

Lemma cgs_loop_ok T : forall k x r p, vrep x (xs k) -> vrep r (rs k) -> vrep p (ps k) ->
  exists j, j <= T /\ (forall i, i < j -> breakdown (k + i) = false) /\ (forall i, 0 < i < j -> small (k + i) = false) /\
    ((cgs_loop N K rabs rsqrt rmul lt junk Amap eps tol T x r p (rho k) = Abort /\ j < T /\ breakdown (k + j) = true /\ (0 < j -> small (k + j) = false)) \/
     (exists y, cgs_loop N K rabs rsqrt rmul lt junk Amap eps tol T x r p (rho k) = Ok y /\ vrep y (xs (k + j)) /\ (j = T \/ (0 < j /\ small (k + j) = true)))).
Proof.
  induction T as [|T IH]; intros k x r p Rx Rr Rp.
  - exists 0. split; [lia|]. split; [lia|]. split; [lia|]. right. exists x. split; [reflexivity|]. rewrite Nat.add_0_r. auto.
  - cbn [cgs_loop]. destruct (vrep_map N ds Amap a p _ HL Rp) as (Ap & EA & RA). rewrite EA. cbn [bind].
    rewrite (vrep_scprod N ds _ _ _ _ Rp RA). cbn [bind]. change (dot N n (ps k) (app N n a (ps k))) with (qq k).
    destruct (lt (rabs (qq k)) (rmul eps (rabs (rho k)))) eqn:Eb.
    { exists 0. split; [lia|]. split; [lia|]. split; [lia|]. left. rewrite Nat.add_0_r. split; [auto|]. split; [lia|]. split; [exact Eb|lia]. }
    set (alpha := fdiv K (rho k) (qq k)).
    destruct (vrep_scale N ds (nmul N) junk alpha p _ Rp) as (ap & E1 & R1). rewrite E1. cbn [bind].
    destruct (vrep_assign N ds (nadd N) x ap _ _ Rx R1) as (x' & E2 & R2). rewrite E2. cbn [bind].
    destruct (vrep_scale N ds (nmul N) junk alpha Ap _ RA) as (aAp & E3 & R3). rewrite E3. cbn [bind].
    destruct (vrep_assign N ds (fsub K) r aAp _ _ Rr R3) as (r' & E4 & R4). rewrite E4. cbn [bind].
    assert (Rx' : vrep x' (xs (S k))) by (apply (vrep_ext N ds _ _ _ R2); intros i _; symmetry; apply (x_S N K)).
    assert (Rr' : vrep r' (rs (S k))) by (apply (vrep_ext N ds _ _ _ R4); intros i _; symmetry; apply (r_S N K L)).
    rewrite (vrep_scprod N ds _ _ _ _ Rr' Rr'). cbn [bind]. change (dot N n (rs (S k)) (rs (S k))) with (rho (S k)).
    destruct (lt (rsqrt (rabs (rho (S k)))) tol) eqn:Es.
    { exists 1. split; [lia|]. split; [intros i Hi; replace i with 0 by lia; rewrite Nat.add_0_r; exact Eb|]. split; [lia|].
      right. exists x'. split; [reflexivity|]. replace (k + 1) with (S k) by lia. split; [exact Rx'|]. right. split; [lia|exact Es]. }
    destruct (vrep_scale N ds (nmul N) junk (fdiv K (rho (S k)) (rho k)) p _ Rp) as (gp & E5 & R5). rewrite E5. cbn [bind].
    destruct (vrep_op N ds (nadd N) junk r' gp _ _ Rr' R5) as (p' & E6 & R6). rewrite E6. cbn [bind].
    assert (Rp' : vrep p' (ps (S k))) by (apply (vrep_ext N ds _ _ _ R6); intros i _; symmetry; apply (p_S N K)).
    destruct (IH (S k) x' r' p' Rx' Rr' Rp') as (j & Hj & HB & HS & HH). exists (S j). split; [lia|].
    split; [intros [|i] Hi; [rewrite Nat.add_0_r; exact Eb|rewrite Nat.add_succ_r; apply HB; lia]|].
    split.
    { intros [|[|i]] Hi; [lia| |].
      - replace (k + 1) with (S k) by lia. exact Es.
      - rewrite Nat.add_succ_r. apply (HS (S i)). lia. }
    replace (k + S j) with (S k + j) by lia. destruct HH as [(E & Hj' & HB' & HS')|(y & E & Ry & HH)].
    + left. split; [exact E|]. split; [lia|]. split; [exact HB'|]. intros _. destruct j as [|j]; [rewrite Nat.add_0_r; exact Es|apply HS'; lia].
    + right. exists y. split; [exact E|]. split; [exact Ry|]. destruct HH as [->|[Hj0 HH]]; [left; auto|right; split; [lia|exact HH]].
Qed.
End Cgs.

Section Cgs2.
Context {A R : Type} (N : numops A) (K : fieldops A) (L : fieldlaws N K).
Context (rabs : A -> R) (rsqrt : R -> R) (rmul : R -> R -> R) (lt : R -> R -> bool) (rzero : R).
Context (junk : nat -> A) (Amap : tensor A -> outcome (tensor A)) (eps tol0 : R) (ds : list nat) (a : nat -> nat -> A) (HL : linear_map N Amap ds a).
Notation n := (nelem ds).
Context (b x0 : tensor A) (Wb : wf b) (Db : dims b = ds) (Wx : wf x0) (Dx : dims x0 = ds) (maxiter : Z) (tol : R).
(* the tolerance, and the largest number of steps, that are applied *)
Definition limit := if lt rzero tol then tol else tol0.
Definition steps : nat := Z.to_nat ((if (maxiter =? 0)%Z then Z.of_nat (hd 0 ds) else maxiter) + 1).
Context (Hds : maxiter <> 0%Z \/ ds <> []).
Notation rho := (rho N K n a (entry N b) (entry N x0)).
Notation small := (small N K rabs rsqrt lt ds a (entry N b) (entry N x0) limit).
Notation breakdown := (breakdown N K rabs rmul lt eps ds a (entry N b) (entry N x0)).
Notation xs := (cg_x N K n a (entry N b) (entry N x0)).
Notation run := (cgs N K rabs rsqrt rmul lt rzero junk Amap eps tol0 b x0 maxiter tol).

Lemma cgs_ok :
  (lt limit (rsqrt (rabs (rho 0))) = false /\ run = Ok x0) \/
  (lt limit (rsqrt (rabs (rho 0))) = true /\
   exists j, j <= steps /\ (forall i, i < j -> breakdown i = false) /\ (forall i, 0 < i < j -> small i = false) /\
    ((run = Abort /\ j < steps /\ breakdown j = true /\ (0 < j -> small j = false)) \/
     (exists y, run = Ok y /\ vrep N ds y (xs j) /\ (j = steps \/ (0 < j /\ small j = true))))).
Proof.
  unfold cgs.
  assert (E0 : (if (maxiter =? 0)%Z then n <- dimension b 0;; Ok (Z.of_nat n) else Ok maxiter) = Ok (if (maxiter =? 0)%Z then Z.of_nat (hd 0 ds) else maxiter)).
  { destruct (Z.eqb_spec maxiter 0); [|reflexivity]. destruct Hds as [|Hd]; [contradiction|]. destruct ds as [|d ds']; [contradiction|].
    rewrite (dimension_ok b [] d ds' 0 Db eq_refl : dimension b 0 = Ok d). reflexivity. }
  rewrite E0. cbn [bind]. fold limit.
  pose proof (vrep_self N ds x0 Wx Dx) as Rx. pose proof (vrep_self N ds b Wb Db) as Rb.
  destruct (vrep_map N ds Amap a x0 _ HL Rx) as (Ax & E1 & R1). rewrite E1. cbn [bind].
  destruct (vrep_op N ds (fsub K) junk b Ax _ _ Rb R1) as (r & E2 & R2). rewrite E2. cbn [bind].
  change (vrep N ds r (cg_r N K n a (entry N b) (entry N x0) 0)) in R2.
  rewrite (vrep_scprod N ds _ _ _ _ R2 R2). cbn [bind]. change (dot N n _ _) with (rho 0).
  destruct (lt limit (rsqrt (rabs (rho 0)))) eqn:E; [|left; auto]. right. split; [auto|].
  destruct (cgs_loop_ok N K L rabs rsqrt rmul lt junk Amap eps ds a HL (entry N b) (entry N x0) limit steps 0 x0 r r) as (j & H); auto.
  exists j. exact H.
Qed.

(* Hermitian, definite matrices, and enough steps *)
Context (HH : hermitian N n a) (Hdef : forall v, dot N n v (app N n a v) = nzero N -> forall i, i < n -> v i = nzero N).
Context (Hcond : forall v, lt (rabs (dot N n v (app N n a v))) (rmul eps (rabs (dot N n v v))) = false).
Context (Hmono : forall x u w, lt x (rmul eps (rabs (nadd N (dot N n u u) (dot N n w w)))) = false -> lt x (rmul eps (rabs (dot N n u u))) = false).
Context (Hz : lt (rsqrt (rabs (nzero N))) limit = true) (Hn : n <= steps).

Lemma no_breakdown k : (forall j, j < k -> rho j <> nzero N) -> breakdown k = false.
Proof.
  intros Hr. unfold L_Cgs.breakdown. destruct k as [|k].
  - apply (Hcond (cg_p N K n a (entry N b) (entry N x0) 0)).
  - pose proof (Hcond (cg_p N K n a (entry N b) (entry N x0) (S k))) as Hc. rewrite (pp N K L n a _ _ HH Hdef k Hr) in Hc. apply Hmono in Hc. exact Hc.
Qed.
Lemma small_ne k : small k = false -> rho k <> nzero N.
Proof. intros Hs E. unfold L_Cgs.small in Hs. rewrite E, Hz in Hs. discriminate. Qed.

Lemma cgs_solves (Hz0 : lt limit (rsqrt (rabs (nzero N))) = false) :
  exists y, run = Ok y /\ wf y /\ dims y = ds /\
    let r := residual N K n a (entry N b) (entry N y) in
    (lt (rsqrt (rabs (dot N n r r))) limit = true \/ lt limit (rsqrt (rabs (dot N n r r))) = false).
Proof.
  destruct cgs_ok as [(E & ER)|(E & j & Hj & HB & HS & HX)].
  - exists x0. split; [auto|]. split; [auto|]. split; [auto|]. right. exact E.
  - assert (R0 : rho 0 <> nzero N) by (intros F; rewrite F, Hz0 in E; discriminate).
    destruct HX as [(_ & Hj' & HB' & HS')|(y & Ey & Ry & HX)].
    + exfalso. rewrite no_breakdown in HB'; [discriminate|]. intros i Hi. destruct i as [|i]; [exact R0|]. apply small_ne. apply HS. lia.
    + exists y. split; [auto|]. destruct Ry as (Wy & Dy & Hy). split; [auto|]. split; [auto|]. left.
      assert (Hs : small j = true).
      { destruct HX as [->|[_ HX]]; [|exact HX]. destruct (small steps) eqn:Es; [reflexivity|]. exfalso.
        assert (Hall : forall k, k <= steps -> rho k <> nzero N).
        { intros k Hk. destruct k as [|k]; [exact R0|]. apply small_ne. destruct (Nat.eq_dec (S k) steps) as [->|]; [exact Es|apply HS; lia]. }
        apply (cg_finite N K L n a (entry N b) (entry N x0) HH Hdef). intros k Hk. apply Hall. lia. }
      refine (eq_trans _ Hs). unfold L_Cgs.small. do 3 f_equal. assert (Er : forall i, residual N K n a (entry N b) (entry N y) i = cg_r N K n a (entry N b) (entry N x0) j i) by (intros i; unfold cg_r, residual; rewrite (app_ext N n a (entry N y) (xs j) i Hy); reflexivity). apply (dot_ext N n); intros i _; apply Er.
Qed.
End Cgs2.

(* ---- matrices as maps ---- *)
Lemma entry_vec {A} (N : numops A) (t : tensor A) n i : wf t -> dims t = [n] -> i < n -> entry N t i = val N t [i].
Proof. intros W D Hi. rewrite (val_vec N t n) by auto. reflexivity. Qed.
Lemma nelem_1 n : nelem [n] = n.
Proof. cbn. lia. Qed.
Lemma matrix_map_linear {A} (N : numops A) (L : numlaws N) jd junk (m : tensor A) n (tr : bool) : wf m -> dims m = [n; n] -> 0 < n ->
  linear_map N (matrix_map N jd junk m tr) [n] (fun i k => if tr then val N m [k; i] else val N m [i; k]).
Proof.
  intros Wm Dm Hn t Wt Dt. unfold matrix_map, mmult, fold. rewrite nelem_1. destruct tr.
  - destruct (do_fold_ok N false jd junk t m (-1) 0 [] n [] [] [n]) as (u & E & Wu & Du & H); auto; try discriminate.
    { rewrite Dt. split; cbn; [lia|auto]. }
    { rewrite Dm. split; cbn; [lia|auto]. }
    exists u. split; [exact E|]. split; [exact Wu|]. split; [exact Du|]. intros i Hi. rewrite (entry_vec N u n) by auto.
    specialize (H [] [] [] [i] ltac:(constructor) ltac:(constructor) ltac:(constructor) ltac:(repeat constructor; auto)). cbn [List.app S_Fold.scalar_ix] in H.
    unfold val at 1. rewrite H. unfold app. apply sum_ext. intros k Hk. rewrite (entry_vec N t n) by auto. cbn [List.app]. apply (mul_comm N L).
  - destruct (do_fold_ok N false jd junk m t (-1) 0 [n] n [] [] []) as (u & E & Wu & Du & H); auto; try discriminate.
    { rewrite Dm. split; cbn; [lia|auto]. }
    { rewrite Dt. split; cbn; [lia|auto]. }
    exists u. split; [exact E|]. split; [exact Wu|]. split; [exact Du|]. intros i Hi. rewrite (entry_vec N u n) by auto.
    specialize (H [i] [] [] [] ltac:(repeat constructor; auto) ltac:(constructor) ltac:(constructor) ltac:(constructor)). cbn [List.app S_Fold.scalar_ix] in H.
    unfold val at 1. rewrite H. unfold app. apply sum_ext. intros k Hk. rewrite (entry_vec N t n) by auto. reflexivity.
Qed.

(* ---- the power method ---- *)
Section Power.
Context {A R : Type} (N : numops A) (K : fieldops A) (L : fieldlaws N K).
Context (rabs rre : A -> R) (rsqrt : R -> R) (rmul : R -> R -> R) (lt : R -> R -> bool) (rzero : R) (divr : A -> R -> A) (inj : R -> A).
Context (Hlt : strict_total lt) (Hinj : forall s, nconj N (inj s) = inj s).
Context (Hdiv : forall x s, inj s <> nzero N -> divr x s = fdiv K x (inj s)).
Context (junk : nat -> A) (Amap : tensor A -> outcome (tensor A)) (ds : list nat) (a : nat -> nat -> A) (HL : linear_map N Amap ds a).
Notation n := (nelem ds).
Notation root := (root_ok N n rre rsqrt inj).
Notation vrep := (vrep N ds).
Notation dt := (dot N n). Notation "x * y" := (nmul N x y). Notation "0" := (nzero N). Notation "1" := (none_ N).
Add Ring fr : (fring N K L).
Let LN : numlaws N := f_num _ _ L.

Lemma normalize_ok t f : root f -> vrep t f -> dt f f <> 0 ->
  exists c u, normalize N rre rsqrt divr t = Ok u /\ vrep u (fun i => c * f i) /\ dt (fun i => c * f i) (fun i => c * f i) = 1.
Proof.
  intros Hroot Rt Hne. unfold normalize, norm2. rewrite (vrep_scprod N ds _ _ _ _ Rt Rt). cbn [bind]. set (s := rsqrt (rre (dt f f))).
  assert (Es : inj s * inj s = dt f f) by apply Hroot.
  assert (Hs : inj s <> 0) by (intros E; apply Hne; rewrite <- Es, E; ring).
  destruct Rt as (W & D & H).
  destruct (inplace_opt (fun q => option_map (fun x => divr x s) (nth_error (data t) q)) (data t) (fun i d => x <- rd d i ;; wr d i (divr x s))) as (d & E1 & Hl & Hd).
  { intros i d Hi Hl Hd. destruct (nth_ex d i ltac:(lia)) as (x & Hx & Ex). exists (divr x s). rewrite <- (Hd i) by auto. rewrite Hx, Ex. split; reflexivity. }
  rewrite E1. cbn [bind]. set (c := fdiv K 1 (inj s)). assert (Ec : c * inj s = 1) by (apply (f_div _ _ L); auto).
  exists c, (mkT (dims t) d). split; [reflexivity|]. split.
  - split; [unfold wf; cbn [data dims]; rewrite Hl; exact W|]. split; [exact D|]. intros i Hi. unfold entry. cbn [data].
    rewrite <- (H i Hi). unfold entry. assert (Hi' : i < length (data t)) by (rewrite W, D; auto).
    erewrite nth_error_nth; [|rewrite Hd by auto; rewrite (nth_error_nth' (data t) 0 Hi'); reflexivity].
    rewrite Hdiv by auto. apply (div_unique N K L); [auto|]. transitivity (nth i (data t) 0 * (c * inj s)); [rewrite Ec; ring|ring].
  - assert (Hc : nconj N c = c) by (unfold c; rewrite (conj_div N K L) by auto; rewrite Hinj, (conj_1 N LN); reflexivity).
    transitivity (c * c * dt f f).
    + unfold dot. rewrite (sum_scal_l N LN). apply sum_ext. intros i _. rewrite (conj_mul N LN), Hc. ring.
    + rewrite <- Es. transitivity ((c * inj s) * (c * inj s)); [ring|]. rewrite Ec. ring.
Qed.

Context (f0 : nat -> A).
Notation pw := (power_vec N n a f0).
Context (Hroot : forall j u, unit_along N n (pw j) u -> root (app N n a u)).
Context (tol : R).
Notation loop := (power_loop N (fsub K) rabs rre rsqrt rmul lt rzero divr junk Amap tol).

Lemma app_scale c f i : app N n a (fun i => c * f i) i = c * app N n a f i.
Proof. unfold app. rewrite (sum_scal_l N LN). apply sum_ext. intros. ring. Qed.

Lemma norm0_below (t : tensor A) f bound : vrep t f -> lt (norm0 lt rzero rabs t) bound = true -> forall i, i < n -> lt (rabs (f i)) bound = true.
Proof.
  intros (W & D & H) Hb i Hi. pose proof (fold_max lt Hlt rabs (data t) rzero) as (_ & _ & H3).
  assert (Hin : In (f i) (data t)) by (rewrite <- H by auto; apply nth_In; rewrite W, D; auto).
  specialize (H3 _ Hin). fold (norm0 lt rzero rabs t) in H3.
  destruct (lt (rabs (f i)) (norm0 lt rzero rabs t)) eqn:E; [apply (st_trans _ Hlt _ _ _ E Hb)|].
  rewrite (st_total _ Hlt _ _ E H3). exact Hb.
Qed.

(* the result after T more iterations from iteration i, where v is along pw i *)
Lemma power_loop_ok T : forall i v f eig old, (forall j, dt (pw j) (pw j) <> 0) -> vrep v f -> unit_along N n (pw i) f ->
  (0 < i -> exists u', unit_along N n (pw (i - 1)) u' /\ old = dt u' (app N n a u')) -> 0 < T ->
  exists j u w e y, i <= j < i + T /\ loop T i v eig old = Ok (e, y) /\ vrep y w /\
    unit_along N n (pw j) u /\ unit_along N n (pw (S j)) w /\ e = dt u (app N n a u) /\
    (j = i + T - 1 \/
     (forall k, k < n -> lt (rabs (fsub K (app N n a u k) (e * u k))) (rmul tol (rabs e)) = true) \/
     (0 < j /\ exists u', unit_along N n (pw (j - 1)) u' /\ lt (rabs (fsub K e (dt u' (app N n a u')))) (rmul tol (rabs e)) = true)).
Proof.
  induction T as [|T IH]; intros i v f eig old Hpw Rv (Hu & c & Hc) Hold HT; [lia|]. cbn [power_loop].
  destruct (vrep_map N ds Amap a v _ HL Rv) as (v1 & E1 & R1). rewrite E1. cbn [bind].
  rewrite (vrep_scprod N ds _ _ _ _ Rv R1). cbn [bind]. set (e := dt f (app N n a f)).
  destruct (vrep_scale N ds (nmul N) junk e v _ Rv) as (ev & E2 & R2). rewrite E2. cbn [bind].
  destruct (vrep_op N ds (fsub K) junk v1 ev _ _ R1 R2) as (df & E3 & R3). rewrite E3. cbn [bind].
  assert (Ea : forall k, k < n -> app N n a f k = c * pw (S i) k).
  { intros k Hk. rewrite (app_ext N n a f (fun i0 => c * pw i i0)) by auto. apply app_scale. }
  assert (Hcne : c <> 0).
  { intros E. apply (one_ne N K L). rewrite <- Hu. rewrite (dot_ext N n f (fun _ => 0) f f) by (auto; intros k Hk; rewrite Hc, E by auto; ring). apply (dot_zero_l N K L). }
  assert (Hne : dt (app N n a f) (app N n a f) <> 0).
  { rewrite (dot_ext N n _ (fun k => c * pw (S i) k) _ (fun k => c * pw (S i) k)) by auto. intros E. apply (Hpw (S i)).
    apply (mul_cancel N K L _ _ (c * nconj N c)).
    - intros F. apply Hcne. apply (mul_cancel N K L _ _ (nconj N c)); [apply (conj_ne N K L); auto|]. rewrite F. ring.
    - transitivity (dt (fun k => c * pw (S i) k) (fun k => c * pw (S i) k)); [|rewrite E; ring].
      unfold dot. rewrite (sum_scal_r N LN). apply sum_ext. intros k _. rewrite (conj_mul N LN). ring. }
  assert (U1 : unit_along N n (pw i) f) by (split; [auto|exists c; auto]).
  destruct (normalize_ok v1 _ (Hroot i f U1) R1 Hne) as (d & v2 & E4 & R4 & U4). rewrite E4. cbn [bind].
  assert (U2 : unit_along N n (pw (S i)) (fun k => d * app N n a f k)).
  { split; [exact U4|]. exists (d * c). intros k Hk. rewrite Ea by auto. ring. }
  destruct (lt (norm0 lt rzero rabs df) (rmul tol (rabs e))) eqn:Eerr.
  { exists i, f, (fun k => d * app N n a f k), e, v2. split; [lia|]. split; [reflexivity|]. repeat (split; [assumption|]). split; [reflexivity|]. right. left.
    intros k Hk. apply (norm0_below df _ _ R3 Eerr). auto. }
  destruct ((0 <? i) && lt (rabs (fsub K e old)) (rmul tol (rabs e))) eqn:Eold.
  { apply andb_prop in Eold. destruct Eold as [Ei Eold]. exists i, f, (fun k => d * app N n a f k), e, v2. split; [lia|]. split; [reflexivity|]. repeat (split; [assumption|]). split; [reflexivity|]. right. right.
    split; [lia|]. destruct (Hold ltac:(lia)) as (u' & Hu' & Eu'). exists u'. split; [exact Hu'|]. rewrite <- Eu'. exact Eold. }
  destruct T as [|T].
  { exists i, f, (fun k => d * app N n a f k), e, v2. split; [lia|]. split; [reflexivity|]. repeat (split; [assumption|]). split; [reflexivity|]. left. lia. }
  destruct (IH (S i) v2 _ e e Hpw R4 U2) as (j & u & w & e' & y & Hj & E & Ry & Hu' & Hw' & Ee & Hstop).
  { intros _. exists f. replace (S i - 1) with i by lia. auto. }
  { lia. }
  exists j, u, w, e', y. split; [lia|]. split; [exact E|]. repeat (split; [assumption|]). destruct Hstop as [Hs|Hs]; [left; lia|right; exact Hs].
Qed.
End Power.

Lemma app_scale_n {A} (N : numops A) (K : fieldops A) (L : fieldlaws N K) n a c f i : app N n a (fun i => nmul N c (f i)) i = nmul N c (app N n a f i).
Proof.
  pose proof (f_num _ _ L) as LN. unfold app. rewrite (sum_scal_l N LN). apply sum_ext. intros k _.
  rewrite !(mul_assoc N LN), (mul_comm N LN (a i k) c). reflexivity.
Qed.
Section Scale.
Context {A : Type} (N : numops A) (K : fieldops A) (L : fieldlaws N K).
Add Ring fr2 : (fring N K L).
Lemma power_scale n c v u : dot N n v v <> nzero N -> c <> nzero N -> (forall i, i < n -> u i = nmul N c (v i)) -> dot N n u u <> nzero N.
Proof.
  intros Hv Hc Hu E. pose proof (f_num _ _ L) as LN. apply Hv. rewrite (dot_ext N n u (fun i => nmul N c (v i)) u (fun i => nmul N c (v i))) in E by auto.
  apply (mul_cancel N K L _ _ c Hc). apply (mul_cancel N K L _ _ (nconj N c) (conj_ne N K L c Hc)). rewrite !(mul_0_l N LN). rewrite <- E.
  unfold dot. rewrite !(sum_scal_r N LN). apply sum_ext. intros k _. rewrite (conj_mul N LN). ring.
Qed.
End Scale.
Lemma power_nonzero {A} (N : numops A) (K : fieldops A) (L : fieldlaws N K) n a v w : (forall i, i < n -> app N n a v i = nmul N w (v i)) ->
  w <> nzero N -> forall j, exists c, c <> nzero N /\ forall i, i < n -> power_vec N n a v j i = nmul N c (v i).
Proof.
  intros Hw Hne j. pose proof (f_num _ _ L) as LN. induction j as [|j (c & Hc & IH)].
  - exists (none_ N). split; [apply (one_ne N K L)|]. intros i Hi. cbn [power_vec]. rewrite (mul_1_l N LN). reflexivity.
  - exists (nmul N c w). split.
    + intros E. apply Hc. apply (mul_cancel N K L _ _ w Hne). rewrite E, (mul_0_l N LN). reflexivity.
    + intros i Hi. cbn [power_vec]. rewrite (app_ext N n a _ (fun i0 => nmul N c (v i0))) by auto. rewrite (app_scale_n N K L n a c v i). rewrite Hw by auto. apply (mul_assoc N LN).
Qed.

(* for every linear map *)
Section Eig_power_map.
Context {A R : Type} (N : numops A) (K : fieldops A) (rabs rre : A -> R) (rsqrt : R -> R) (rmul : R -> R -> R) (lt : R -> R -> bool) (rzero : R) (divr : A -> R -> A) (inj : R -> A).
Context (junk : nat -> A) (Amap : tensor A -> outcome (tensor A)) (tol0 : R) (jeig : A) (vector rnd : tensor A) (ds : list nat) (a : nat -> nat -> A) (iter : nat) (tol : R).
Notation n := (nelem ds).
Notation run := (eig_power N (fsub K) rabs rre rsqrt rmul lt rzero divr junk Amap tol0 jeig n vector rnd iter tol).
Context (L : fieldlaws N K) (Hlt : strict_total lt) (Hinj : forall s, nconj N (inj s) = inj s) (Hdiv : forall x s, inj s <> nzero N -> divr x s = fdiv K x (inj s)).
Context (HL : linear_map N Amap ds a).
Notation start := (if length (data vector) =? n then vector else rnd).
Notation v := (power_vec N n a (entry N start)).
Notation limit := (if lt rzero tol then tol else tol0).
Notation steps := (if iter =? 0 then Nat.max 20 n else iter).

Lemma eig_power_map_ok : wf start -> dims start = ds -> (forall j, dot N n (v j) (v j) <> nzero N) ->
  root_ok N n rre rsqrt inj (v 0) -> (forall j u, unit_along N n (v j) u -> root_ok N n rre rsqrt inj (app N n a u)) ->
  exists j u e y, run = Ok (e, y) /\
    j <= steps /\ unit_along N n (v j) u /\ e = dot N n u (app N n a u) /\
    wf y /\ dims y = ds /\ unit_along N n (v (S j)) (entry N y) /\
    (j = steps \/
     (forall k, k < n -> lt (rabs (fsub K (app N n a u k) (nmul N e (u k)))) (rmul limit (rabs e)) = true) \/
     (0 < j /\ exists u', unit_along N n (v (j - 1)) u' /\ lt (rabs (fsub K e (dot N n u' (app N n a u')))) (rmul limit (rabs e)) = true)).
Proof.
  intros Ws Dst Hpw Hr0 Hr. unfold eig_power. cbv zeta.
  set (st := start) in *. assert (Hlen : length (data st) = n) by (rewrite Ws, Dst; reflexivity). rewrite Hlen.
  destruct (normalize_ok N K L rabs rre rsqrt rmul divr inj Hinj Hdiv junk ds st (entry N st)) as (c & v1 & E1 & R1 & U1).
  { exact Hr0. } { apply vrep_self; auto. } { apply (Hpw 0). }
  rewrite E1. cbn [bind].
  destruct (power_loop_ok N K L rabs rre rsqrt rmul lt rzero divr inj Hlt Hinj Hdiv junk _ ds a HL (entry N st) Hr limit (S steps) 0 v1 (fun i => nmul N c (entry N st i)) jeig jeig) as (j & u & w & e & y & Hj & E & (Wy & Dy & Hy) & Hu & Hw & He & Hstop).
  { exact Hpw. } { exact R1. }
  { split; [exact U1|]. exists c. auto. } { lia. } { lia. }
  exists j, u, e, y. split; [exact E|]. split; [lia|]. split; [exact Hu|]. split; [exact He|]. split; [exact Wy|]. split; [exact Dy|]. split.
  - destruct Hw as (Hw1 & d & Hw2). split.
    + rewrite (dot_ext N n (entry N y) w (entry N y) w) by auto. exact Hw1.
    + exists d. intros i Hi. rewrite Hy by auto. auto.
  - destruct Hstop as [Hs|Hs]; [left; lia|right; exact Hs].
Qed.
End Eig_power_map.

Section Eig_power.
Context {A R : Type} (N : numops A) (K : fieldops A) (rabs rre : A -> R) (rsqrt : R -> R) (rmul : R -> R -> R) (lt : R -> R -> bool) (rzero : R) (divr : A -> R -> A) (inj : R -> A).
Context (jdims : nat -> nat) (junk : nat -> A) (tol0 : R) (jeig : A) (m vector rnd : tensor A) (n : nat) (left_ : bool) (iter : nat) (tol : R).
Notation run := (eig_power_matrix N (fsub K) rabs rre rsqrt rmul lt rzero divr jdims junk tol0 jeig m left_ vector rnd iter tol).
Context (L : fieldlaws N K) (Hlt : strict_total lt) (Hinj : forall s, nconj N (inj s) = inj s) (Hdiv : forall x s, inj s <> nzero N -> divr x s = fdiv K x (inj s)).
Context (Hn : 0 < n) (Wm : wf m) (Dm : dims m = [n; n]).
Notation start := (if length (data vector) =? n then vector else rnd).
Notation a := (fun i k => if left_ then val N m [k; i] else val N m [i; k]).
Notation v := (power_vec N n a (entry N start)).
Notation limit := (if lt rzero tol then tol else tol0).
Notation steps := (if iter =? 0 then Nat.max 20 n else iter).

Lemma eig_power_ok : wf start -> dims start = [n] -> (forall j, dot N n (v j) (v j) <> nzero N) ->
  root_ok N n rre rsqrt inj (v 0) -> (forall j u, unit_along N n (v j) u -> root_ok N n rre rsqrt inj (app N n a u)) ->
  exists j u e y, run = Ok (e, y) /\
    j <= steps /\ unit_along N n (v j) u /\ e = dot N n u (app N n a u) /\
    wf y /\ dims y = [n] /\ unit_along N n (v (S j)) (entry N y) /\
    (j = steps \/
     (forall k, k < n -> lt (rabs (fsub K (app N n a u k) (nmul N e (u k)))) (rmul limit (rabs e)) = true) \/
     (0 < j /\ exists u', unit_along N n (v (j - 1)) u' /\ lt (rabs (fsub K e (dot N n u' (app N n a u')))) (rmul limit (rabs e)) = true)).
Proof.
  intros Ws Dst Hpw Hr0 Hr. unfold eig_power_matrix.
  rewrite (dimension_ok m [] n [n] 0 Dm eq_refl : dimension m 0 = Ok n), (dimension_ok m [n] n [] 1 Dm eq_refl : dimension m 1 = Ok n).
  cbn [bind]. rewrite Nat.eqb_refl. cbn [assert_ bind].
  pose proof (matrix_map_linear N (f_num _ _ L) jdims junk m n left_ Wm Dm Hn) as HL. pose proof (nelem_1 n) as En.
  pose proof (eig_power_map_ok N K rabs rre rsqrt rmul lt rzero divr inj junk _ tol0 jeig vector rnd [n] a iter tol L Hlt Hinj Hdiv HL) as H.
  rewrite En in H. exact (H Ws Dst Hpw Hr0 Hr).
Qed.

Lemma eig_power_real e y : wf start -> dims start = [n] -> (forall j, dot N n (v j) (v j) <> nzero N) ->
  root_ok N n rre rsqrt inj (v 0) -> (forall j u, unit_along N n (v j) u -> root_ok N n rre rsqrt inj (app N n a u)) ->
  hermitian N n (fun i k => val N m [i; k]) -> run = Ok (e, y) -> nconj N e = e.
Proof.
  intros Ws Dst Hpw Hr0 Hr Hh E. destruct (eig_power_ok Ws Dst Hpw Hr0 Hr) as (j & u & e' & y' & E' & _ & _ & He & _).
  rewrite E' in E. injection E as -> ->. subst e. rewrite (dot_conj N K L). apply (herm N K L n a).
  intros i k Hi Hk. destruct left_; apply Hh; auto.
Qed.
End Eig_power.

Lemma eig_power_eigenvector {A R : Type} (N : numops A) (K : fieldops A) (rabs rre : A -> R) (rsqrt : R -> R) (rmul : R -> R -> R) (lt : R -> R -> bool) (rzero : R) (divr : A -> R -> A) (inj : R -> A)
  jdims junk tol0 jeig (m vector rnd : tensor A) (n : nat) (left_ : bool) iter tol w :
  fieldlaws N K -> strict_total lt -> (forall s, nconj N (inj s) = inj s) -> (forall x s, inj s <> nzero N -> divr x s = fdiv K x (inj s)) ->
  0 < n -> wf m -> dims m = [n; n] -> wf vector -> dims vector = [n] ->
  let a := fun i k => if left_ then val N m [k; i] else val N m [i; k] in
  let v := power_vec N n a (entry N vector) in
  dot N n (entry N vector) (entry N vector) <> nzero N -> w <> nzero N ->
  (forall i, i < n -> app N n a (entry N vector) i = nmul N w (entry N vector i)) ->
  root_ok N n rre rsqrt inj (v 0) -> (forall j u, unit_along N n (v j) u -> root_ok N n rre rsqrt inj (app N n a u)) ->
  exists y, eig_power_matrix N (fsub K) rabs rre rsqrt rmul lt rzero divr jdims junk tol0 jeig m left_ vector rnd iter tol = Ok (nconj N w, y) /\
    wf y /\ dims y = [n] /\ unit_along N n (entry N vector) (entry N y) /\
    (forall i, i < n -> app N n a (entry N y) i = nmul N w (entry N y i)).
Proof.
  intros L Hlt Hinj Hdiv Hn Wm Dm Wv Dv a v Hne Hw0 Hw Hr0 Hr. pose proof (f_num _ _ L) as LN.
  assert (Es : (if length (data vector) =? n then vector else rnd) = vector).
  { rewrite Wv, Dv, nelem_1, Nat.eqb_refl. reflexivity. }
  pose proof (power_nonzero N K L n a (entry N vector) w Hw Hw0) as Hp.
  assert (Heig : forall u c, (forall i, i < n -> u i = nmul N c (entry N vector i)) -> forall i, i < n -> app N n a u i = nmul N w (u i)).
  { intros u c Hu i Hi. rewrite (app_ext N n a u (fun i => nmul N c (entry N vector i))) by auto. rewrite (app_scale_n N K L), Hw, Hu by auto.
    rewrite !(mul_assoc N LN), (mul_comm N LN c w). reflexivity. }
  destruct (eig_power_ok N K rabs rre rsqrt rmul lt rzero divr inj jdims junk tol0 jeig m vector rnd n left_ iter tol L Hlt Hinj Hdiv Hn Wm Dm) as (j & u & e & y & E & _ & (Hu1 & c & Hu2) & He & Wy & Dy & (Hy1 & d & Hy2) & _);
    rewrite ?Es; auto.
  { intros j. destruct (Hp j) as (c & Hc & Hpc). apply (power_scale N K L n c (entry N vector)); auto. }
  rewrite Es in *. destruct (Hp j) as (cj & Hcj & Hpj). destruct (Hp (S j)) as (ck & Hck & Hpk).
  assert (Ee : e = nconj N w).
  { rewrite He. transitivity (dot N n u (fun i => nmul N w (u i))); [apply (dot_ext N n); [auto|]|].
    - apply (Heig u (nmul N c cj)). intros i Hi. rewrite Hu2, Hpj by auto. apply (mul_assoc N LN).
    - transitivity (nmul N (nconj N w) (dot N n u u)); [|rewrite Hu1; apply (mul_1_r N LN)]. unfold dot. rewrite (sum_scal_l N LN). apply sum_ext. intros k _.
      rewrite (conj_mul N LN), !(mul_assoc N LN), (mul_comm N LN (u k)). reflexivity. }
  rewrite Ee in E. exists y. split; [exact E|]. split; [exact Wy|]. split; [exact Dy|].
  assert (Hyv : forall i, i < n -> entry N y i = nmul N (nmul N d ck) (entry N vector i)).
  { intros i Hi. rewrite Hy2, Hpk by auto. apply (mul_assoc N LN). }
  split; [split; [exact Hy1|exists (nmul N d ck); exact Hyv]|]. apply (Heig _ _ Hyv).
Qed.

(* C71: svd; C72: eig_sym. *)
From Verif Require Import Base Spec S_Fold S_Reduce S_BlockSvd S_Cgs S_Svd M_Tensor M_BlockSvd M_Svd L_Lin L_Fold L_Solve L_Eig L_Svd L_BlockSvd P_BlockSvd.
Local Open Scope nat_scope.

(* ---- C71 ---- *)

(* The singular values, nonnegative and descending, and, as far as they are
   asked for, U and VT with A = U S VT: all of the unitary matrices, or their
   first min(m,n) columns and rows in the economic mode. *)
Theorem C71_svd : forall A R (N : numops A) (lt : R -> R -> bool) rzero (inj : R -> A) gesvd junk junkr (t : tensor A) m n (wantU wantV economic : bool),
  wf t -> dims t = [m; n] -> 0 < m -> 0 < n ->
  let job_of (want : bool) := if want then if economic then JobS else JobA else JobN in
  gesvd_good N lt rzero inj gesvd (job_of wantU) (job_of wantV) m n (data t) ->
  exists s oU oV U V, svd gesvd junk junkr t wantU wantV economic = Ok (s, oU, oV) /\
    wf s /\ dims s = [Nat.min m n] /\
    singular_values N lt rzero inj m n (fun i j => val N t [i; j]) (rval rzero s) U V /\
    matrix_is wantU oU m (if economic then Nat.min m n else m) U /\
    matrix_is wantV oV (if economic then Nat.min m n else n) n V.
Proof. intros A R N lt rzero inj gesvd junk junkr t m n wantU wantV economic W D Hm Hn job_of G. apply svd_ok; auto. Qed.
Print Assumptions C71_svd.

(* With both outputs this is the decomposition that C53 and C66 ask for. *)
Theorem C71_svd_both : forall A R (N : numops A) (lt : R -> R -> bool) rzero (inj : R -> A) gesvd junk junkr (t : tensor A) m n (economic : bool),
  wf t -> dims t = [m; n] -> 0 < m -> 0 < n ->
  let j := if economic then JobS else JobA in
  gesvd_good N lt rzero inj gesvd j j m n (data t) ->
  svd_good N lt rzero inj (svd_both gesvd junk junkr) economic t m n.
Proof.
  intros A R N lt rzero inj gesvd junk junkr t m n economic W D Hm Hn j G.
  destruct (svd_ok N lt rzero inj gesvd junk junkr t m n true true economic W D Hm Hn G) as (s & oU & oV & U0 & V0 & E & Ws & Ds & S0 & MU & MV).
  destruct oU as [U|]; [|discriminate MU]. destruct oV as [V|]; [|discriminate MV].
  exists s, U, V. split; [unfold svd_both; rewrite E; reflexivity|]. eapply matrix_is_svd; eauto.
Qed.
Print Assumptions C71_svd_both.

(* So block_svd over svd over a good xGESVD decomposes every matrix, in the
   economic mode. *)
Theorem C71_block_svd :
  forall (A R T : Type) (N : numops A) (rzero : R) (lt : R -> R -> bool) (inj : R -> A) (absv : A -> R) (divr : A -> R -> A)
    (significant : T -> A -> bool) (zero_tol : T) std_sort_ix gesvd junk junkr jb (a : tensor A) (n m : nat),
    numlaws N -> strict_total lt -> is_std_sort std_sort_ix -> polar N lt rzero inj absv divr significant zero_tol ->
    wf a -> dims a = [n; m] -> 0 < n -> 0 < m ->
    (forall r c al, length al = r * c -> gesvd_good N lt rzero inj gesvd JobS JobS r c al) ->
    exists s U VT,
      shapes n m true s U VT /\ decomposes N rzero inj a n m (Nat.min n m) s U VT /\
      ordered (fun x y => lt y x) (data s) /\ (forall k, k < Nat.min n m -> lt (rval rzero s k) rzero = false) /\
      exists F, forall fuel, F <= fuel ->
        block_svd N rzero lt absv divr significant zero_tol std_sort_ix (svd_both gesvd junk junkr) junk junkr jb fuel a true = Ok (s, U, VT).
Proof.
  intros A R T N rzero lt inj absv divr sg z srt gesvd junk junkr jb a n m HN Hlt Hs Hp W D Hn Hm G.
  destruct (C53_block_svd_partial A R T N rzero lt inj absv divr sg z srt (svd_both gesvd junk junkr) junk junkr jb a n m true HN Hlt Hs Hp W D Hn Hm (or_introl eq_refl))
    as (s & U & VT & S1 & S2 & S3 & S4 & _ & HF).
  - intros rows cols _. split.
    + intros _. apply C71_svd_both; auto. apply G. rewrite W, D. cbn. lia.
    + intros _ b Rs Cs sub _ _ (Wsub & Dsub & _) Hl. apply C71_svd_both; auto; try lia. apply G. rewrite Wsub, Dsub. cbn. lia.
  - exists s, U, VT. auto 8.
Qed.
Print Assumptions C71_block_svd.

(* anything but a matrix with rows and columns is refused *)
Theorem C71_rejects : forall A R gesvd (junk : nat -> A) (junkr : nat -> R) (t : tensor A) wantU wantV economic,
  (forall m n, dims t = [m; n] -> m = 0 \/ n = 0) -> svd gesvd junk junkr t wantU wantV economic = Abort.
Proof. intros A R gesvd junk junkr t wantU wantV economic H. unfold svd. exact (checks2_reject t (fun rows columns => _) H). Qed.
Print Assumptions C71_rejects.

(* Nobody looks at info: when the iteration of xGESVD fails to converge, what it
   left in the buffers is returned as if it were the result. *)
Theorem C71_failure_refuted : forall A R gesvd (junk : nat -> A) (junkr : nat -> R) (t : tensor A) m n wantU wantV economic,
  wf t -> dims t = [m; n] -> 0 < m -> 0 < n ->
  (forall ju jv r c al, fst (fst (fst (gesvd ju jv r c al))) = 1%Z) ->
  exists r, svd gesvd junk junkr t wantU wantV economic = Ok r.
Proof.
  intros A R gesvd junk junkr t m n wantU wantV economic W D Hm Hn _.
  apply svd_returns with (m := m) (n := n); auto.
Qed.
Print Assumptions C71_failure_refuted.

(* the matrix [0 0 2; -3 0 0]: singular values 3 and 2 *)
Definition gesvd_case (ju jv : job) (m n : nat) (al : list Z) : Z * (nat -> Z) * (nat -> nat -> Z) * (nat -> nat -> Z) :=
  (0%Z, fun k => nth k [3; 2]%Z 0%Z, fun i k => nth (i + 2 * k) [0; 1; 1; 0]%Z 0%Z, fun k j => nth (k + 3 * j) [-1; 0; 0; 0; 0; 1; 0; 1; 0]%Z 0%Z).
Example C71_nonvacuous :
  let t := mkT [2; 3] [0; -3; 0; 0; 2; 0]%Z in
  wf t /\ (forall ju jv, gesvd_good Znum Z.ltb 0%Z (fun x => x) gesvd_case ju jv 2 3 (data t)) /\
  svd gesvd_case (fun _ => 9%Z) (fun _ => 8%Z) t true true true =
    Ok (mkT [2] [3; 2]%Z, Some (mkT [2; 2] [0; 1; 1; 0]%Z), Some (mkT [2; 3] [-1; 0; 0; 0; 0; 1]%Z)) /\
  svd gesvd_case (fun _ => 9%Z) (fun _ => 8%Z) t true true false =
    Ok (mkT [2] [3; 2]%Z, Some (mkT [2; 2] [0; 1; 1; 0]%Z), Some (mkT [3; 3] [-1; 0; 0; 0; 0; 1; 0; 1; 0]%Z)).
Proof.
  cbv zeta. split; [reflexivity|]. split; [|split; reflexivity].
  intros ju jv. unfold gesvd_good, gesvd_case. split; [reflexivity|]. do 2 eexists. split; [|split; reflexivity].
  constructor.
  - intros k l Hk Hl. destruct k as [|[|k]]; [| |lia]; (destruct l as [|[|l]]; [| |lia]); reflexivity.
  - intros k l Hk Hl. destruct k as [|[|[|k]]]; [| | |lia]; (destruct l as [|[|[|l]]]; [| | |lia]); reflexivity.
  - intros k l Hk Hl. destruct k as [|[|k]]; [| |lia]; (destruct l as [|[|[|l]]]; [| | |lia]); reflexivity.
  - intros k Hk. cbn in Hk. destruct k as [|[|k]]; [| |lia]; reflexivity.
  - intros k l Hk Hl. cbn in Hl. destruct l as [|[|l]]; [lia| |lia]. replace k with 0 by lia. reflexivity.
Qed.

(* ---- C72 ---- *)

(* For a Hermitian matrix: A V = V D and V* A = D V*, with orthonormal columns
   of V and ascending eigenvalues. *)
Theorem C72_hermitian : forall A R (N : numops A) (lt : R -> R -> bool) rzero (inj : R -> A) re junkr heev (t : tensor A) n wantV,
  numlaws N -> (forall s, nconj N (inj s) = inj s) -> (forall x, nconj N x = x -> inj (re x) = x) ->
  wf t -> dims t = [n; n] -> 0 < n ->
  let a := fun i k => val N t [i; k] in
  hermitian N n a -> heev_good N lt inj re heev wantV n (data t) ->
  exists w oV V, eig_sym junkr heev t wantV = Ok (w, oV) /\ wf w /\ dims w = [n] /\ matrix_is wantV oV n n V /\
    orthonormal_columns N n n V /\
    (forall k l, k < l -> l < n -> lt (rval rzero w l) (rval rzero w k) = false) /\
    (forall i k, i < n -> k < n -> sum_n N n (fun j => nmul N (a i j) (V j k)) = nmul N (V i k) (inj (rval rzero w k))) /\
    (forall k j, k < n -> j < n -> sum_n N n (fun i => nmul N (nconj N (V i k)) (a i j)) = nmul N (inj (rval rzero w k)) (nconj N (V j k))).
Proof.
  intros A R N lt rzero inj re junkr heev t n wantV L Hc Hr W D Hn a HH G.
  destruct (eig_sym_ok N lt rzero inj re heev junkr t n wantV W D Hn G) as (w & oV & V & E & Ww & Dw & [H1 H2 H3] & M).
  exists w, oV, V. repeat (split; [assumption|]).
  assert (Hu := upper_self N inj re n a Hr HH).
  assert (EV : forall i k, i < n -> k < n -> sum_n N n (fun j => nmul N (a i j) (V j k)) = nmul N (inj (rval rzero w k)) (V i k)).
  { intros i k Hi Hk. rewrite <- H2 by auto. apply sum_ext. intros j Hj. fold a. rewrite Hu by auto. reflexivity. }
  split.
  - intros i k Hi Hk. rewrite EV by auto. apply (mul_comm N L).
  - apply (eigensystem_adjoint N L lt inj n a (rval rzero w) V Hc HH). constructor; auto.
Qed.
Print Assumptions C72_hermitian.

(* For any square matrix: what the upper triangle and the real part of the
   diagonal say.  The lower triangle does not matter. *)
Theorem C72_upper : forall A R (N : numops A) (lt : R -> R -> bool) rzero (inj : R -> A) re junkr heev (t : tensor A) n wantV,
  wf t -> dims t = [n; n] -> 0 < n -> heev_good N lt inj re heev wantV n (data t) ->
  exists w oV V, eig_sym junkr heev t wantV = Ok (w, oV) /\ wf w /\ dims w = [n] /\ matrix_is wantV oV n n V /\
    eigensystem N lt inj n (upper_hermitian N inj re (fun i k => val N t [i; k])) (rval rzero w) V.
Proof.
  intros A R N lt rzero inj re junkr heev t n wantV W D Hn G.
  destruct (eig_sym_ok N lt rzero inj re heev junkr t n wantV W D Hn G) as (w & oV & V & E & Ww & Dw & H & M).
  exists w, oV, V. auto 6.
Qed.
Print Assumptions C72_upper.

Theorem C72_rejects : forall A R (junkr : nat -> R) heev (t : tensor A) wantV,
  (forall n, dims t = [n; n] -> n = 0) -> eig_sym junkr heev t wantV = Abort.
Proof. intros. apply eig_sym_rejects. auto. Qed.
Print Assumptions C72_rejects.

(* info is ignored here too *)
Theorem C72_failure_refuted : forall A R (junkr : nat -> R) heev (t : tensor A) n wantV,
  wf t -> dims t = [n; n] -> 0 < n -> (forall j r al, fst (fst (heev j r al)) = 1%Z) ->
  exists r, eig_sym junkr heev t wantV = Ok r.
Proof. intros A R junkr heev t n wantV W D Hn _. apply eig_sym_returns with (n := n); auto. Qed.
Print Assumptions C72_failure_refuted.

(* diag(2, -1, 5) over the Gaussian integers, with eigenvectors i e2, e1, -e3 *)
Definition heev_case (jobz : bool) (n : nat) (al : list (Z * Z)) : Z * (nat -> Z) * (nat -> nat -> Z * Z) :=
  (0%Z, fun k => nth k [-1; 2; 5]%Z 0%Z, fun i k => nth (i + 3 * k) [(0,0); (0,1); (0,0);  (1,0); (0,0); (0,0);  (0,0); (0,0); (-1,0)]%Z (0,0)%Z).
Example C72_nonvacuous :
  let t := mkT [3; 3] [(2,0); (0,0); (0,0);  (0,0); (-1,0); (0,0);  (0,0); (0,0); (5,0)]%Z in
  let inj := fun x : Z => (x, 0%Z) in
  numlaws Gnum /\ (forall s, nconj Gnum (inj s) = inj s) /\ (forall x, nconj Gnum x = x -> inj (fst x) = x) /\
  wf t /\ hermitian Gnum 3 (fun i k => val Gnum t [i; k]) /\
  heev_good Gnum Z.ltb inj fst heev_case true 3 (data t) /\
  eig_sym (fun _ => 9%Z) heev_case t true =
    Ok (mkT [3] [-1; 2; 5]%Z, Some (mkT [3; 3] [(0,0); (0,1); (0,0);  (1,0); (0,0); (0,0);  (0,0); (0,0); (-1,0)]%Z)).
Proof.
  cbv zeta. split; [exact Gnum_laws|]. split; [reflexivity|]. split.
  { intros [x y] H. injection H as H. f_equal. lia. }
  split; [reflexivity|]. split.
  { intros i k Hi Hk. destruct i as [|[|[|i]]]; [| | |lia]; (destruct k as [|[|[|k]]]; [| | |lia]); reflexivity. }
  split; [|reflexivity]. split; [reflexivity|]. eexists. split; [|reflexivity].
  constructor.
  - intros i k Hi Hk. destruct i as [|[|[|i]]]; [| | |lia]; (destruct k as [|[|[|k]]]; [| | |lia]); reflexivity.
  - intros i k Hi Hk. destruct i as [|[|[|i]]]; [| | |lia]; (destruct k as [|[|[|k]]]; [| | |lia]); reflexivity.
  - intros k l Hk Hl. destruct l as [|[|[|l]]]; [lia| | |lia]; (destruct k as [|[|k]]; [| |lia]); try reflexivity; lia.
Qed.

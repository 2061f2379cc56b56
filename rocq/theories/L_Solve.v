(* Proofs about linear systems of equations. *)
From Verif Require Import Base Spec S_Fold M_Tensor M_Arith M_Range S_Range M_Fold M_Scale M_BlockSvd S_BlockSvd M_Solve S_Solve
  L_Lin L_Tensor L_Range L_Fold L_Kron L_Scale L_Arith L_Permute L_BlockSvd L_Fftw.
Local Open Scope nat_scope.

Section Algebra.
Context {A : Type} (N : numops A) (L : numlaws N).
Notation "x * y" := (nmul N x y). Notation "0" := (nzero N). Notation "1" := (none_ N). Notation Sum := (sum_n N). Notation conj := (nconj N).

Lemma sum_conj n f : conj (Sum n f) = Sum n (fun i => conj (f i)).
Proof. induction n; cbn [sum_n]; [apply (conj_0 N L)|]. rewrite (conj_add N L), IHn. auto. Qed.
Lemma sum_trunc r p f : r <= p -> (forall k, r <= k < p -> f k = 0) -> Sum p f = Sum r f.
Proof.
  intros Hr H. replace p with (r + (p - r))%nat by lia. rewrite (sum_app N L).
  rewrite (sum_0 N L (p - r)); [apply (add_0_r N L)|]. intros i Hi. apply H. lia.
Qed.
Lemma sum_deltas r p (G : nat -> nat -> A) f k : r <= p -> k < p -> (forall k l, k < p -> l < p -> G k l = if k =? l then 1 else 0) ->
  Sum r (fun l => G k l * f l) = if k <? r then f k else 0.
Proof.
  intros Hr Hk HG. destruct (Nat.ltb_spec k r) as [H|H].
  - rewrite (sum_one N L r k); auto.
    + rewrite HG, Nat.eqb_refl by lia. apply (mul_1_l N L).
    + intros i Hi Hne. rewrite HG by lia. replace (k =? i) with false by lia. apply (mul_0_l N L).
  - apply (sum_0 N L). intros i Hi. rewrite HG by lia. replace (k =? i) with false by lia. apply (mul_0_l N L).
Qed.

Context (m n p r : nat) (a U V : nat -> nat -> A) (s t : nat -> A).
Context (Hr : r <= p) (Ha : forall i j, i < m -> j < n -> Sum p (fun k => (U i k * s k) * V k j) = a i j).
Context (HU : forall k l, k < p -> l < p -> Sum m (fun i => conj (U i k) * U i l) = if k =? l then 1 else 0).
Context (HV : forall k l, k < p -> l < p -> Sum n (fun j => V k j * conj (V l j)) = if k =? l then 1 else 0).
Context (Hs : forall k, k < p -> conj (s k) = s k) (Ht : forall k, k < r -> t k * s k = 1) (Hz : forall k, r <= k < p -> s k = 0).
Context (b : nat -> A).
Definition cc k := Sum m (fun i => conj (U i k) * b i).
Definition xx j := Sum r (fun k => conj (V k j) * (cc k * t k)).

Lemma app_a i (x : nat -> A) : i < m -> Sum n (fun j => a i j * x j) = Sum p (fun k => (U i k * s k) * Sum n (fun j => V k j * x j)).
Proof.
  intros Hi. rewrite (sum_ext N n _ (fun j => Sum p (fun k => ((U i k * s k) * V k j) * x j))).
  - rewrite (sum_swap_l N L). apply sum_ext. intros k _. rewrite (sum_scal_l N L). apply sum_ext. intros j _. symmetry. apply (mul_assoc N L).
  - intros j Hj. rewrite <- Ha by auto. apply (sum_scal_r N L).
Qed.
Lemma app_ah j (y : nat -> A) : j < n -> Sum m (fun i => conj (a i j) * y i) = Sum p (fun k => (conj (V k j) * s k) * Sum m (fun i => conj (U i k) * y i)).
Proof.
  intros Hj. rewrite (sum_ext N m _ (fun i => Sum p (fun k => ((conj (V k j) * s k) * conj (U i k)) * y i))).
  - rewrite (sum_swap_l N L). apply sum_ext. intros k _. rewrite (sum_scal_l N L). apply sum_ext. intros i _. symmetry. apply (mul_assoc N L).
  - intros i Hi. rewrite <- Ha by auto. rewrite sum_conj, (sum_scal_r N L). apply sum_ext. intros k Hk. f_equal.
    rewrite !(conj_mul N L), (Hs k) by auto. rewrite (mul_comm N L (conj (U i k))), <- (mul_assoc N L).
    rewrite (mul_comm N L _ (conj (V k j))). rewrite (mul_assoc N L (s k)), (mul_comm N L (s k)). reflexivity.
Qed.
Lemma vx k : k < p -> Sum n (fun j => V k j * xx j) = if k <? r then cc k * t k else 0.
Proof.
  intros Hk. unfold xx. rewrite (sum_ext N n _ (fun j => Sum r (fun l => (V k j * conj (V l j)) * (cc l * t l)))).
  2:{ intros j _. rewrite (sum_scal_l N L). apply sum_ext. intros l _. apply (mul_assoc N L). }
  rewrite (sum_swap_l N L). rewrite (sum_ext N r _ (fun l => Sum n (fun j => V k j * conj (V l j)) * (cc l * t l))).
  2:{ intros l _. symmetry. apply (sum_scal_r N L). }
  apply (sum_deltas r p (fun k l => Sum n (fun j => V k j * conj (V l j)))); auto.
Qed.
Lemma ax i : i < m -> Sum n (fun j => a i j * xx j) = Sum r (fun k => U i k * cc k).
Proof.
  intros Hi. rewrite app_a by auto. rewrite (sum_trunc r p); auto.
  - apply sum_ext. intros k Hk. rewrite vx by lia. replace (k <? r) with true by lia.
    rewrite <- (mul_assoc N L). f_equal. rewrite (mul_comm N L (cc k)), (mul_assoc N L), (mul_comm N L (s k)), Ht by auto. apply (mul_1_l N L).
  - intros k Hk. rewrite Hz, (mul_0_r N L) by auto. apply (mul_0_l N L).
Qed.
Lemma uax k : k < p -> Sum m (fun i => conj (U i k) * Sum n (fun j => a i j * xx j)) = if k <? r then cc k else 0.
Proof.
  intros Hk. rewrite (sum_ext N m _ (fun i => Sum r (fun l => (conj (U i k) * U i l) * cc l))).
  2:{ intros i Hi. rewrite ax by auto. rewrite (sum_scal_l N L). apply sum_ext. intros l _. apply (mul_assoc N L). }
  rewrite (sum_swap_l N L). rewrite (sum_ext N r _ (fun l => Sum m (fun i => conj (U i k) * U i l) * cc l)).
  2:{ intros l _. symmetry. apply (sum_scal_r N L). }
  apply (sum_deltas r p (fun k l => Sum m (fun i => conj (U i k) * U i l))); auto.
Qed.
Lemma normal j : j < n -> Sum m (fun i => conj (a i j) * Sum n (fun l => a i l * xx l)) = Sum m (fun i => conj (a i j) * b i).
Proof.
  intros Hj. rewrite !app_ah by auto. apply sum_ext. intros k Hk. rewrite uax by auto. fold (cc k).
  destruct (Nat.ltb_spec k r) as [H|H]; auto. rewrite Hz, !(mul_0_r N L), !(mul_0_l N L) by lia. auto.
Qed.
Lemma consistent y : (forall i, i < m -> Sum n (fun j => a i j * y j) = b i) -> forall i, i < m -> Sum n (fun j => a i j * xx j) = b i.
Proof.
  intros Hy i Hi. rewrite ax by auto. rewrite <- Hy by auto. rewrite app_a by auto. rewrite (sum_trunc r p); auto.
  - apply sum_ext. intros k Hk. rewrite <- (mul_assoc N L). f_equal. unfold cc.
    rewrite (sum_ext N m _ (fun i => Sum p (fun l => (conj (U i k) * U i l) * (s l * Sum n (fun j => V l j * y j))))).
    2:{ intros x Hx. rewrite <- Hy by auto. rewrite app_a by auto. rewrite (sum_scal_l N L). apply sum_ext. intros l _. rewrite !(mul_assoc N L). auto. }
    rewrite (sum_swap_l N L). rewrite (sum_ext N p _ (fun l => Sum m (fun i => conj (U i k) * U i l) * (s l * Sum n (fun j => V l j * y j)))).
    2:{ intros l _. symmetry. apply (sum_scal_r N L). }
    rewrite (sum_deltas p p (fun k l => Sum m (fun i => conj (U i k) * U i l))); auto; [|lia]. replace (k <? p) with true by lia. auto.
  - intros k Hk. rewrite Hz, (mul_0_r N L) by auto. apply (mul_0_l N L).
Qed.
Lemma minimal : exists z, forall j, j < n -> xx j = Sum m (fun i => conj (a i j) * z i).
Proof.
  exists (fun i => Sum r (fun k => U i k * ((cc k * t k) * t k))). intros j Hj. rewrite app_ah by auto. rewrite (sum_trunc r p); auto.
  - apply sum_ext. intros k Hk. rewrite <- (mul_assoc N L). f_equal.
    rewrite (sum_ext N m _ (fun i => Sum r (fun l => (conj (U i k) * U i l) * ((cc l * t l) * t l)))).
    2:{ intros i Hi. rewrite (sum_scal_l N L). apply sum_ext. intros l _. apply (mul_assoc N L). }
    rewrite (sum_swap_l N L). rewrite (sum_ext N r _ (fun l => Sum m (fun i => conj (U i k) * U i l) * ((cc l * t l) * t l))).
    2:{ intros l _. symmetry. apply (sum_scal_r N L). }
    rewrite (sum_deltas r p (fun k l => Sum m (fun i => conj (U i k) * U i l))); auto; [|lia]. replace (k <? r) with true by lia.
    rewrite (mul_comm N L (s k)), <- (mul_assoc N L (cc k * t k)), Ht by auto. symmetry. apply (mul_1_r N L).
  - intros k Hk. rewrite Hz, (mul_0_r N L) by auto. apply (mul_0_l N L).
Qed.
End Algebra.

Section Gesv.
Context {A : Type} (N : numops A).
Lemma val_mat (t : tensor A) r c i j : wf t -> dims t = [r; c] -> i < r -> j < c -> val N t [i; j] = nth (i + r * j) (data t) (nzero N).
Proof.
  intros W D Hi Hj. unfold val. rewrite (mat_elt t r c) by auto.
  destruct (nth_error (data t) (i + r * j)) eqn:E; [symmetry; apply nth_error_nth; auto|]. symmetry. apply nth_overflow. apply nth_error_None. auto.
Qed.
Lemma val_first (t : tensor A) n rest k w : wf t -> dims t = n :: rest -> k < n -> valid rest w -> val N t (k :: w) = nth (k + n * lin rest w) (data t) (nzero N).
Proof.
  intros W D Hk V. unfold val. rewrite elt_valid by (rewrite D; apply valid_cons; auto). rewrite D, lin_cons.
  destruct (nth_error (data t) (k + n * lin rest w)) eqn:E; [symmetry; apply nth_error_nth; auto|]. symmetry. apply nth_overflow. apply nth_error_None. auto.
Qed.
Lemma solve_ok gesv (a b : tensor A) n rest : wf a -> wf b -> dims a = [n; n] -> dims b = n :: rest -> 0 < n ->
  gesv_good N gesv n (prod rest) (data a) (data b) ->
  (exists x, solve gesv a b = Ok x /\ wf x /\ dims x = dims b /\
     forall i w, i < n -> valid rest w -> mulv N a n (at_rest N x w) i = at_rest N b w i) \/
  (solve gesv a b = Abort /\ singular N a n).
Proof.
  intros Wa Wb Da Db Hn G. unfold solve.
  rewrite (dimension_ok a [] n [n] 0 Da eq_refl : dimension a 0 = Ok n), (dimension_ok a [n] n [] 1 Da eq_refl : dimension a 1 = Ok n),
    (dimension_ok b [] n rest 0 Db eq_refl : dimension b 0 = Ok n). cbn [bind]. rewrite Nat.eqb_refl. cbn [bind assert_].
  replace (n =? 0) with false by lia.
  assert (Lb : length (data b) = n * prod rest) by (rewrite Wb, Db; reflexivity).
  replace (length (data b) / n) with (prod rest) by (rewrite Lb, Nat.mul_comm, Nat.div_mul; lia).
  unfold gesv_good in G. destruct (gesv n (prod rest) (data a) n (data b) n) as (x, info). destruct G as (G1 & G2 & G3).
  destruct (Z.eqb_spec info 0) as [->|Hi]; cbn [bind assert_].
  - left. eexists. split; [reflexivity|]. assert (Wx : wf (mkT (dims b) x)) by (unfold wf; cbn; rewrite G1, Wb; auto).
    split; auto. split; auto. intros i w Hi V.
    pose proof (lin_lt _ _ V) as Hl. specialize (G2 eq_refl i (lin rest w) Hi Hl).
    unfold at_rest at 2. rewrite (val_first b n rest) by auto. rewrite <- G2. unfold mulv. apply sum_ext. intros k Hk.
    rewrite (val_mat a n n) by auto. f_equal. unfold at_rest. rewrite (val_first _ n rest) by auto. reflexivity.
  - right. split; auto. destruct (G3 Hi) as (v & Hv & H). exists v. split; auto. intros i Hi'. rewrite <- (H i Hi'). apply sum_ext. intros k Hk.
    rewrite (val_mat a n n) by auto. auto.
Qed.
End Gesv.

Section Svd.
Context {A R : Type} (N : numops A) (L : numlaws N) (inj : R -> A) (rone : R) (rdiv : R -> R -> R) (rzero eps : R) (le : R -> R -> bool).
Context (svd : tensor A -> bool -> outcome (tensor R * tensor A * tensor A)).
Context (jdims : nat -> nat) (junk : nat -> A) (junkr : nat -> R).

Lemma wf_vec' (s : tensor R) p : wf s -> dims s = [p] -> length (data s) = p.
Proof. intros W D. rewrite W, D. cbn. lia. Qed.
Lemma sel_step_first p r : 0 < r -> r <= p -> selects p (SStep 0 (Z.of_nat r - 1) 1) (arith 0 1 r).
Proof.
  intros H1 H2. replace (Z.of_nat r - 1)%Z with (Z.of_nat (r - 1)) by lia.
  pose proof (sel_step p 0 (r - 1) 1 ltac:(lia) ltac:(lia) ltac:(lia)) as H.
  replace ((r - 1 - 0) / 1 + 1) with r in H by (rewrite Nat.div_1_r; lia). exact H.
Qed.
Definition first_cols (r : nat) (U U' : tensor A) := forall i k, k < r -> val N U' [i; k] = val N U [i; k].
Lemma discard_ok m n p r tol (U VT : tensor A) (s : tensor R) :
  wf U -> dims U = [m; p] -> wf s -> dims s = [p] -> wf VT -> dims VT = [p; n] -> 0 < m -> 0 < n -> 0 < r -> r <= p ->
  (forall k, k < r -> le (rval rzero s k) tol = false) -> (r < p -> le (rval rzero s r) tol = true) ->
  exists U' s' VT', wf U' /\ dims U' = [m; r] /\ wf s' /\ dims s' = [r] /\ wf VT' /\ dims VT' = [r; n] /\
    (forall i k, i < m -> k < r -> val N U' [i; k] = val N U [i; k]) /\
    (forall k, k < r -> rval rzero s' k = rval rzero s k) /\
    (forall j k, j < n -> k < r -> val N VT' [k; j] = val N VT [k; j]) /\
    exists F, forall fuel, F <= fuel -> discard le junk junkr fuel p 0 tol (U, s, VT) = Ok (U', s', VT').
Proof.
  intros WU DU Ws Ds WV DV Hm Hn Hr0 Hr H1 H2. assert (Ls := wf_vec' s p Ws Ds).
  assert (Hrd : forall k, k < p -> rd (data s) k = Ok (rval rzero s k)).
  { intros k Hk. destruct (nth_error_lt (data s) k) as (x & Ex); [lia|]. rewrite (rd_ok _ _ _ Ex). unfold rval. rewrite (nth_error_nth _ _ _ Ex). auto. }
  assert (Hskip : forall fuel k, k <= r -> discard le junk junkr fuel p 0 tol (U, s, VT) = discard le junk junkr fuel (p - k) k tol (U, s, VT)).
  { intros fuel. induction k as [|k IH]; intros Hk; [rewrite Nat.sub_0_r; auto|]. rewrite IH by lia.
    replace (p - k) with (S (p - S k)) by lia. cbn [discard]. replace (k <? length (data s)) with true by lia.
    rewrite Hrd by lia. cbn [bind]. rewrite H1 by lia. reflexivity. }
  destruct (Nat.eq_dec r p) as [->|Hne].
  - exists U, s, VT. repeat (split; [solve [auto]|]). exists 0. intros fuel _. rewrite (Hskip fuel p) by lia. rewrite Nat.sub_diag. reflexivity.
  - pose proof (sel_step_first p r Hr0 Hr) as Hsel.
    destruct (slice_t_mat junk U m p SFull (SStep 0 (Z.of_nat r - 1) 1) (seq 0 m) (arith 0 1 r)) as (U' & (WU' & DU' & EU) & F1 & HF1); auto; [lia|constructor|].
    destruct (slice_t_vec junkr s p (SStep 0 (Z.of_nat r - 1) 1) (arith 0 1 r)) as (s' & (Ws' & Ds' & Es) & F2 & HF2); auto; [lia|].
    destruct (slice_t_mat junk VT p n (SStep 0 (Z.of_nat r - 1) 1) SFull (arith 0 1 r) (seq 0 n)) as (V' & (WV' & DV' & EV) & F3 & HF3); auto; [lia|constructor|].
    rewrite length_arith in DU', Ds', DV'. rewrite seq_length in DU', DV'.
    exists U', s', V'. repeat (split; [solve [auto]|]).
    split; [|split; [|split]].
    + intros i k Hi Hk. unfold val. rewrite (EU i k i k); auto; [apply nth_error_seq0; auto|rewrite nth_arith by auto; f_equal; lia].
    + intros k Hk. unfold rval. specialize (Es k k). rewrite nth_arith in Es by auto. specialize (Es ltac:(f_equal; lia)).
      destruct (nth_error_lt (data s) k) as (x & Ex); [lia|]. rewrite Ex in Es. rewrite (nth_error_nth _ _ _ Ex), (nth_error_nth _ _ _ Es). auto.
    + intros j k Hj Hk. unfold val. rewrite (EV k j k j); auto; [rewrite nth_arith by auto; f_equal; lia|apply nth_error_seq0; auto].
    + exists (F1 + F2 + F3). intros fuel Hf. rewrite (Hskip fuel r) by lia. replace (p - r) with (S (p - S r)) by lia. cbn [discard].
      replace (r <? length (data s)) with true by lia. rewrite Hrd by lia. cbn [bind]. rewrite H2 by lia.
      rewrite HF1, HF2, HF3 by lia. cbn [bind]. destruct (p - S r); [reflexivity|]. cbn [discard].
      replace (S r <? length (data s')) with false by (rewrite (wf_vec' s' r) by auto; lia). reflexivity.
Qed.

Lemma coord0 (ds : list nat) d rest : ds = d :: rest -> coord (length ds) 0 0.
Proof. intros ->. split; cbn; [lia|auto]. Qed.

(* X = V 1/S U* B on the retained part *)
Lemma solve_svd_ok a b m n p r rest tol s U VT : let tol' := if le tol rzero then eps else tol in
  svd a true = Ok (s, U, VT) ->
  wf U -> dims U = [m; p] -> wf s -> dims s = [p] -> wf VT -> dims VT = [p; n] -> wf b -> dims b = m :: rest ->
  0 < m -> 0 < n -> 0 < r -> r <= p ->
  (forall k, k < r -> le (rval rzero s k) tol' = false) -> (r < p -> le (rval rzero s r) tol' = true) ->
  exists x, wf x /\ dims x = n :: rest /\
    (forall j w, j < n -> valid rest w -> elt x (j :: w) = Some (sum_n N r (fun k => nmul N (nconj N (val N VT [k; j]))
       (nmul N (sum_n N m (fun i => nmul N (nconj N (val N U [i; k])) (val N b (i :: w)))) (inj (rdiv rone (rval rzero s k))))))) /\
    exists F, forall fuel, F <= fuel -> solve_with_svd N inj rone rdiv rzero eps le svd jdims junk junkr fuel a b tol = Ok x.
Proof.
  intros tol' Es WU DU Ws Ds WV DV Wb Db Hm Hn Hr0 Hr H1 H2.
  destruct (discard_ok m n p r tol' U VT s) as (U' & s' & V' & WU' & DU' & Ws' & Ds' & WV' & DV' & EU & Esv & EV & F & HF); auto.
  destruct (do_fold_ok N true jdims junk U' b 0 0 [] m [r] [] rest) as (X & EX & WX & DX & HX); auto.
  { apply (coord0 _ m [r] DU'). } { apply (coord0 _ m rest Db). }
  cbn [app] in DX. change (scalar_dims (r :: rest)) with (r :: rest) in DX.
  assert (Ls' := wf_vec' s' r Ws' Ds').
  destruct (unop_ok (fun x => rdiv rone x) junkr s' Ws') as (v & Ev & Wv & Dv & Hv).
  assert (Wv' : wf (to_complex inj v)) by (unfold wf, to_complex; cbn; rewrite map_length; exact Wv).
  destruct (scale_inplace_ok N X (to_complex inj v) 0 [] r rest) as (Y & EY & WY & DY & HY); auto.
  { apply (coord0 _ r rest DX). } { cbn. rewrite Dv. auto. }
  destruct (do_fold_ok N true jdims junk V' Y 0 0 [] r [n] [] rest) as (Z' & EZ & WZ & DZ & HZ); auto.
  { rewrite DY. auto. } { apply (coord0 _ r [n] DV'). } { rewrite DY. apply (coord0 _ r rest DX). }
  exists Z'. split; auto. split; [exact DZ|]. split.
  - intros j w Hj V. specialize (HZ [] [j] [] w). cbn [app scalar_ix] in HZ. rewrite HZ; auto; try (repeat constructor; auto).
    f_equal. apply sum_ext. intros k Hk. cbn [cj]. rewrite EV by auto. f_equal.
    specialize (HY [] k w). cbn [app] in HY. rewrite (val_some N Y (k :: w) _ (HY ltac:(constructor) Hk V)). f_equal.
    + specialize (HX [] [k] [] w). cbn [app scalar_ix] in HX. rewrite (val_some N _ _ _ (HX ltac:(constructor) ltac:(repeat constructor; auto) ltac:(constructor) V)).
      apply sum_ext. intros i Hi. cbn [cj]. rewrite EU by auto. reflexivity.
    + unfold val. rewrite elt_valid by (cbn; rewrite Dv, Ds'; repeat constructor; auto). cbn [to_complex data dims]. rewrite Dv, Ds'. rewrite lin_cons, lin_nil, Nat.mul_0_r, Nat.add_0_r.
      rewrite nth_error_map. specialize (Hv [k]). 
      assert (Hk1 : elt v [k] = nth_error (data v) k).
      { rewrite elt_valid by (rewrite Dv, Ds'; repeat constructor; auto). rewrite Dv, Ds', lin_cons, lin_nil. f_equal. lia. }
      assert (Hk2 : elt s' [k] = nth_error (data s') k).
      { rewrite elt_valid by (rewrite Ds'; repeat constructor; auto). rewrite Ds', lin_cons, lin_nil. f_equal. lia. }
      destruct (nth_error_lt (data s') k) as (x & Ex); [lia|].
      rewrite <- Hk1, Hv, Hk2, Ex. cbn [option_map]. rewrite <- (Esv k Hk). unfold rval. rewrite (nth_error_nth _ _ _ Ex). auto.
  - exists F. intros fuel Hf. unfold solve_with_svd. rewrite Es. cbn [bind]. fold tol'. rewrite (wf_vec' s p Ws Ds). rewrite HF by auto. cbn [bind].
    unfold foldc. rewrite EX. cbn [bind]. rewrite n_op_t_unop, Ev. cbn [bind]. rewrite EY. cbn [bind]. exact EZ.
Qed.
End Svd.

(* Proofs about svd and eig_sym. *)
From Verif Require Import Base Spec S_Fold S_Reduce S_BlockSvd S_Expm S_Cgs S_Svd M_Tensor M_Arith M_Fold M_Svd
  L_Lin L_Tensor L_Fold L_Permute L_Kron L_BlockSvd L_Fftw L_Solve L_Eig.
Local Open Scope nat_scope.

Lemma load_self {A} (r c : nat) (buf : list A) : 0 < r -> length buf = r * c -> load r r c buf = Ok buf.
Proof.
  intros Hr Hl. unfold load. destruct buf as [|x0 buf'] eqn:Eb.
  - cbn in Hl. rewrite <- Hl. reflexivity.
  - rewrite <- Eb in *. rewrite (mapM_ok _ (fun q => nth q buf x0)).
    + f_equal. apply list_eq_nth_len; [rewrite map_length, seq_length; auto|]. intros i Hi. rewrite map_length, seq_length in Hi.
      rewrite nth_error_map_seq by auto. symmetry. apply nth_error_nth'. lia.
    + intros q Hq. apply in_seq in Hq. replace (q mod r + r * (q / r)) with q by (pose proof (Nat.div_mod q r); lia). apply rd_nth. lia.
Qed.

Lemma store_ok {A} (ld r c : nat) (f : nat -> nat -> A) (buf : list A) : r <= ld -> length buf = ld * c ->
  exists buf', store ld r c f buf = Ok buf' /\ length buf' = length buf /\ forall i k, i < r -> k < c -> nth_error buf' (i + ld * k) = Some (f i k).
Proof.
  intros Hr Hl. unfold store.
  destruct (for_inv (fun k b => length b = length buf /\ forall i k', i < r -> k' < k -> nth_error b (i + ld * k') = Some (f i k'))
    c (fun k buf => for_ r (fun i buf => wr buf (i + ld * k) (f i k)) buf) buf) as (b & E & H1 & H2).
  - split; [reflexivity|]. intros; lia.
  - intros k b Hk (Lb & Hb).
    destruct (for_inv (fun i' b' => length b' = length buf /\ (forall i k', i < r -> k' < k -> nth_error b' (i + ld * k') = Some (f i k')) /\
        forall i, i < i' -> nth_error b' (i + ld * k) = Some (f i k)) r (fun i buf => wr buf (i + ld * k) (f i k)) b) as (b' & E & H1 & H2 & H3).
    + split; [exact Lb|]. split; [exact Hb|]. intros; lia.
    + intros i b' Hi (H1 & H2 & H3). assert (ld * k + ld <= ld * c) by nia. exists (upd b' (i + ld * k) (f i k)). split; [apply wr_ok; lia|]. split; [rewrite length_upd; auto|]. split.
      * intros i0 k' Hi0 Hk'. rewrite nth_error_upd_ne by nia. auto.
      * intros i0 Hi0. destruct (Nat.eq_dec i0 i) as [->|]; [apply nth_error_upd_eq; lia|]. rewrite nth_error_upd_ne by lia. apply H3. lia.
    + exists b'. split; [exact E|]. split; [exact H1|]. intros i k' Hi Hk'. destruct (Nat.eq_dec k' k) as [->|]; [auto|]. apply H2; auto; lia.
  - exists b. auto.
Qed.
Lemma store_none {A} (ld c : nat) (f : nat -> nat -> A) (buf : list A) : store ld 0 c f buf = Ok buf.
Proof.
  unfold store. destruct (for_inv (fun _ b => b = buf) c (fun k buf => for_ 0 (fun i buf => wr buf (i + ld * k) (f i k)) buf) buf) as (b & E & ->); auto.
  intros i b Hi ->. exists buf. auto.
Qed.
Lemma store_vec {A} (n : nat) (f : nat -> A) (buf : list A) : length buf = n ->
  for_ n (fun i s => wr s i (f i)) buf = Ok (map f (seq 0 n)).
Proof.
  intros Hl. destruct (for_inv (fun i b => length b = n /\ forall j, j < i -> nth_error b j = Some (f j)) n (fun i s => wr s i (f i)) buf) as (b & E & H1 & H2).
  - split; [auto|]. intros; lia.
  - intros i b Hi (H1 & H2). exists (upd b i (f i)). split; [apply wr_ok; lia|]. split; [rewrite length_upd; auto|]. intros j Hj.
    destruct (Nat.eq_dec j i) as [->|]; [apply nth_error_upd_eq; lia|]. rewrite nth_error_upd_ne by lia. apply H2. lia.
  - rewrite E. f_equal. apply list_eq_nth_len; [rewrite map_length, seq_length; auto|]. intros j Hj. rewrite H2, nth_error_map_seq by lia. reflexivity.
Qed.

Lemma nth_map_seq {A} (f : nat -> A) n k d : k < n -> nth k (map f (seq 0 n)) d = f k.
Proof. intros Hk. apply nth_error_nth. apply nth_error_map_seq. auto. Qed.

Lemma alloc_new {A} (junk : nat -> A) ds : length (data (new_tensor junk ds)) = nelem ds.
Proof. exact (new_tensor_wf junk ds). Qed.

Lemma store_opt {A} (junk : nat -> A) (ld r c r' c' : nat) (want : bool) (f : nat -> nat -> A) (o : option (tensor A)) foo :
  (if want then o = Some (new_tensor junk [r; c]) /\ r' = r /\ c' = c /\ ld = r /\ 0 < r else o = None /\ (r' = 0 \/ c' = 0)) ->
  exists b, store ld r' c' f (match o with Some v => data v | None => foo end) = Ok b /\
    matrix_is want (option_map (fun U => mkT (dims U) b) o) r c f.
Proof.
  destruct want.
  - intros (-> & -> & -> & -> & Hr). destruct (store_ok r r c f (data (new_tensor junk [r; c]))) as (b & E & Lb & Hb).
    { lia. } { rewrite alloc_new. cbn. lia. }
    exists b. split; [exact E|]. cbn [option_map matrix_is]. split; [reflexivity|]. assert (W : wf (mkT (dims (new_tensor junk [r; c])) b)).
    { unfold wf. cbn [data dims]. rewrite Lb. apply alloc_new. }
    split; [exact W|]. split; [reflexivity|]. intros i k Hi Hk. rewrite (mat_elt _ r c) by (auto; reflexivity). apply Hb; auto.
  - intros (-> & [->| ->]); eexists; (split; [|reflexivity]); [apply store_none|reflexivity].
Qed.

Section Svd.
Context {A R : Type} (N : numops A) (lt : R -> R -> bool) (rzero : R) (inj : R -> A).
Context (gesvd : job -> job -> nat -> nat -> list A -> Z * (nat -> R) * (nat -> nat -> A) * (nat -> nat -> A)) (junk : nat -> A) (junkr : nat -> R).
Notation jobof economic := (fun want : bool => if want then if economic then JobS else JobA else JobN).

(* the optional buffers *)

Lemma svd_ok (t : tensor A) m n (wantU wantV economic : bool) : wf t -> dims t = [m; n] -> 0 < m -> 0 < n ->
  gesvd_good N lt rzero inj gesvd (jobof economic wantU) (jobof economic wantV) m n (data t) ->
  exists s oU oV U V, svd gesvd junk junkr t wantU wantV economic = Ok (s, oU, oV) /\
    wf s /\ dims s = [Nat.min m n] /\
    singular_values N lt rzero inj m n (fun i j => val N t [i; j]) (rval rzero s) U V /\
    matrix_is wantU oU m (if economic then Nat.min m n else m) U /\
    matrix_is wantV oV (if economic then Nat.min m n else n) n V.
Proof.
  intros W D Hm Hn G. unfold svd.
  rewrite (dimension_ok t [] m [n] 0 D eq_refl : dimension t 0 = Ok m). cbn [bind]. replace (0 <? m) with true by lia. cbn [assert_ bind].
  rewrite (dimension_ok t [m] n [] 1 D eq_refl : dimension t 1 = Ok n). cbn [bind]. replace (0 <? n) with true by lia. cbn [assert_ bind].
  rewrite D. cbn [length Nat.eqb assert_ bind]. cbv zeta.
  unfold call_gesvd. cbv zeta. set (k := Nat.min m n) in *. assert (Hk : 0 < k <= m /\ k <= n) by (unfold k; lia).
  replace (Nat.max 1 m <=? m) with true by lia. cbn [assert_ bind].
  assert (E1 : ((1 <=? (if wantU then m else 1)) && match (if wantU then if economic then JobS else JobA else JobN) with JobN => true | _ => m <=? (if wantU then m else 1) end) = true).
  { destruct wantU, economic; cbn -[Nat.leb]; lia. }
  rewrite E1. cbn [assert_ bind].
  assert (E2 : ((1 <=? (if wantV then if economic then k else n else 1)) && (job_size (if wantV then if economic then JobS else JobA else JobN) n k <=? (if wantV then if economic then k else n else 1))) = true).
  { destruct wantV, economic; cbn -[Nat.leb]; lia. }
  rewrite E2. cbn [assert_ bind]. rewrite load_self by (auto; rewrite W, D; cbn; lia). cbn [bind].
  unfold gesvd_good in G. destruct (gesvd _ _ _ _ _) as [[[info s'] U] VT] eqn:Eg. destruct G as (_ & U0 & V0 & HS & HU & HV). fold k in HU, HV.
  rewrite store_vec by (rewrite alloc_new; cbn; lia). cbn [bind].
  destruct (store_opt junk (if wantU then m else 1) m (if economic then k else m) m (job_size (if wantU then if economic then JobS else JobA else JobN) m k) wantU U
    (if wantU then Some (new_tensor junk [m; if economic then k else m]) else None) (alloc junk 1)) as (u & Eu & Mu).
  { destruct wantU, economic; cbn; auto 6. }
  rewrite Eu. cbn [bind].
  destruct (store_opt junk (if wantV then if economic then k else n else 1) (if economic then k else n) n (job_size (if wantV then if economic then JobS else JobA else JobN) n k) n wantV VT
    (if wantV then Some (new_tensor junk [if economic then k else n; n]) else None) (alloc junk 1)) as (v & Ev & Mv).
  { destruct wantV, economic; cbn; repeat split; auto; lia. }
  rewrite Ev. cbn [bind].
  eexists _, _, _, U0, V0. split; [reflexivity|]. cbn [new_tensor dims]. assert (Ws : wf (mkT [k] (map s' (seq 0 k)))) by (unfold wf; cbn; rewrite map_length, seq_length; lia).
  split; [exact Ws|]. split; [reflexivity|]. split; [|split].
  - assert (Hr : forall x, x < k -> rval rzero (mkT [k] (map s' (seq 0 k))) x = s' x) by (intros x Hx; unfold rval; cbn [data]; apply nth_map_seq; auto).
    destruct HS as [H1 H2 H3 H4 H5]. constructor; auto.
    + intros i j Hi Hj. rewrite (val_mat N t m n i j) by auto. rewrite <- H3 by auto. apply sum_ext. intros x Hx. rewrite Hr by auto. reflexivity.
    + intros x Hx. rewrite Hr by auto. auto.
    + intros x y Hx Hy. rewrite !Hr by (unfold k; lia). auto.
  - destruct wantU; [|exact Mu]. cbn [option_map matrix_is] in *. destruct Mu as (_ & Wu & Du & Hu). split; [auto|]. split; [auto|]. split; [auto|].
    intros i x Hi Hx. rewrite Hu by auto. f_equal. apply HU; auto. destruct economic; exact Hx.
  - destruct wantV; [|exact Mv]. cbn [option_map matrix_is] in *. destruct Mv as (_ & Wu & Du & Hu). split; [auto|]. split; [auto|]. split; [auto|].
    intros i x Hi Hx. rewrite Hu by auto. f_equal. apply HV; auto. destruct economic; exact Hi.
Qed.
End Svd.

Lemma checks2_reject {A X} (t : tensor A) (k : nat -> nat -> outcome X) : (forall m n, dims t = [m; n] -> m = 0 \/ n = 0) ->
  (rows <- dimension t 0 ;; _ <- assert_ (0 <? rows) ;; columns <- dimension t 1 ;; _ <- assert_ (0 <? columns) ;; _ <- assert_ (length (dims t) =? 2) ;; k rows columns) = Abort.
Proof.
  intros H. destruct (dims t) as [|m [|n [|p ds]]] eqn:D.
  - unfold dimension. rewrite D. reflexivity.
  - rewrite (dimension_ok t [] m [] 0 D eq_refl : dimension t 0 = Ok m). cbn [bind]. destruct (0 <? m); [|reflexivity]. cbn [assert_ bind]. unfold dimension. rewrite D. reflexivity.
  - rewrite (dimension_ok t [] m [n] 0 D eq_refl : dimension t 0 = Ok m). cbn [bind]. destruct (Nat.ltb_spec 0 m); [|reflexivity]. cbn [assert_ bind].
    rewrite (dimension_ok t [m] n [] 1 D eq_refl : dimension t 1 = Ok n). cbn [bind]. destruct (Nat.ltb_spec 0 n); [|reflexivity]. destruct (H m n eq_refl); lia.
  - rewrite (dimension_ok t [] m (n :: p :: ds) 0 D eq_refl : dimension t 0 = Ok m). cbn [bind]. destruct (0 <? m); [|reflexivity]. cbn [assert_ bind].
    rewrite (dimension_ok t [m] n (p :: ds) 1 D eq_refl : dimension t 1 = Ok n). cbn [bind]. destruct (0 <? n); [|reflexivity]. reflexivity.
Qed.

Section Is_svd.
Context {A R : Type} (N : numops A) (lt : R -> R -> bool) (rzero : R) (inj : R -> A).
Lemma val_elt (t : tensor A) ix x : elt t ix = Some x -> val N t ix = x.
Proof. unfold val. intros ->. reflexivity. Qed.
Lemma matrix_is_svd (t : tensor A) m n (economic : bool) s U0 V0 U V : 0 < m -> 0 < n -> wf s -> dims s = [Nat.min m n] ->
  singular_values N lt rzero inj m n (fun i j => val N t [i; j]) (rval rzero s) U0 V0 ->
  matrix_is true (Some U) m (if economic then Nat.min m n else m) U0 -> matrix_is true (Some V) (if economic then Nat.min m n else n) n V0 ->
  is_svd N lt rzero inj t m n economic s U V.
Proof.
  intros Hm Hn Ws Ds [H1 H2 H3 H4 H5] (_ & WU & DU & HU) (_ & WV & DV & HV). unfold is_svd. set (p := Nat.min m n) in *.
  assert (Hp : p <= m /\ p <= n) by (unfold p; lia).
  assert (pU : forall k, k < p -> k < (if economic then p else m)) by (intros; destruct economic; lia).
  assert (pV : forall k, k < p -> k < (if economic then p else n)) by (intros; destruct economic; lia).
  assert (EU : forall i k, i < m -> k < p -> val N U [i; k] = U0 i k) by (intros; apply val_elt; auto).
  assert (EV : forall k j, k < p -> j < n -> val N V [k; j] = V0 k j) by (intros; apply val_elt; auto).
  split; [repeat (split; [assumption|]); assumption|]. split; [|split; [|split; [|split]]].
  - intros i j Hi Hj. rewrite <- H3 by auto. apply sum_ext. intros k Hk. fold p in Hk. rewrite EU, EV by auto. reflexivity.
  - intros k l Hk Hl. unfold col_prod. change (delta N k l) with (kron_delta N k l). rewrite <- (H1 k l) by lia. apply sum_ext. intros i Hi. rewrite !EU by auto. reflexivity.
  - intros k l Hk Hl. unfold row_prod. change (delta N k l) with (kron_delta N k l). rewrite <- (H2 k l) by lia. apply sum_ext. intros i Hi. rewrite !EV by auto. reflexivity.
  - exact H4.
  - unfold ordered. intros i j x y Hij Hx Hy. pose proof (H5 i j Hij) as H. unfold rval in H.
    assert (Hj : j < p) by (apply nth_error_lt_inv in Hy; rewrite Ws, Ds in Hy; cbn in Hy; lia).
    rewrite (nth_error_nth _ _ rzero Hx), (nth_error_nth _ _ rzero Hy) in H. apply H. exact Hj.
Qed.
End Is_svd.

Section Heev.
Context {A R : Type} (N : numops A) (lt : R -> R -> bool) (rzero : R) (inj : R -> A) (re : A -> R).
Context (heev : bool -> nat -> list A -> Z * (nat -> R) * (nat -> nat -> A)) (junkr : nat -> R).

Lemma eig_sym_ok (t : tensor A) n (wantV : bool) : wf t -> dims t = [n; n] -> 0 < n -> heev_good N lt inj re heev wantV n (data t) ->
  exists w oV V, eig_sym junkr heev t wantV = Ok (w, oV) /\ wf w /\ dims w = [n] /\
    eigensystem N lt inj n (upper_hermitian N inj re (fun i k => val N t [i; k])) (rval rzero w) V /\ matrix_is wantV oV n n V.
Proof.
  intros W D Hn G. unfold eig_sym. refine (_ : exists w oV V, (rows <- dimension t 0 ;; _ <- assert_ (0 <? rows) ;; _ <- assert_ (length (dims t) =? 2) ;; columns <- dimension t 1 ;; _ <- assert_ (rows =? columns) ;;
    (fun n => '(info, w, a) <- call_heev heev wantV n (data t) n (data (new_tensor junkr [n])) ;; Ok (mkT [n] w, if wantV then Some (mkT (dims t) a) else None)) rows) = Ok (w, oV) /\ _).
  rewrite eig_checks_ok with (n := n) by auto. unfold call_heev. replace (Nat.max 1 n <=? n) with true by lia. cbn [assert_ bind].
  rewrite load_self by (auto; rewrite W, D; cbn; lia). cbn [bind]. unfold heev_good in G. destruct (heev wantV n (data t)) as [[info w'] V'] eqn:Eg. destruct G as (_ & V0 & [H1 H2 H3] & HV).
  rewrite store_vec by (rewrite alloc_new; cbn; lia). cbn [bind].
  destruct (store_ok n n n V' (data t)) as (b & E & Lb & Hb); [lia|rewrite W, D; cbn; lia|]. rewrite E. cbn [bind].
  eexists _, _, V0. split; [reflexivity|]. split; [unfold wf; cbn; rewrite map_length, seq_length; lia|]. split; [reflexivity|]. split.
  - assert (Hr : forall x, x < n -> rval rzero (mkT [n] (map w' (seq 0 n))) x = w' x) by (intros x Hx; unfold rval; cbn [data]; apply nth_map_seq; auto).
    assert (Hu : forall i k, i < n -> k < n -> upper_hermitian N inj re (fun i k => val N t [i; k]) i k = upper_hermitian N inj re (fun i k => nth (i + n * k) (data t) (nzero N)) i k).
    { intros i k Hi Hk. unfold upper_hermitian. rewrite !(val_mat N t n n) by auto. reflexivity. }
    constructor; auto.
    + intros i k Hi Hk. rewrite Hr by auto. rewrite <- H2 by auto. apply sum_ext. intros j Hj. rewrite Hu by auto. reflexivity.
    + intros k l Hk Hl. rewrite !Hr by lia. auto.
  - destruct wantV; cbn [matrix_is]; [|reflexivity]. split; [reflexivity|]. split; [unfold wf; cbn [data dims]; rewrite Lb; exact W|]. split; [exact D|].
    intros i k Hi Hk. rewrite (mat_elt _ n n) by auto. cbn [data]. rewrite Hb by auto. f_equal. apply HV; auto.
Qed.

Lemma eig_sym_rejects (t : tensor A) wantV : (forall n, dims t = [n; n] -> n = 0) -> eig_sym junkr heev t wantV = Abort.
Proof. intros H. unfold eig_sym. exact (eig_checks_rejects t (fun rows => _) H). Qed.
End Heev.

(* the adjoint equation of a Hermitian matrix *)
Lemma eigensystem_adjoint {A R} (N : numops A) (L : numlaws N) (lt : R -> R -> bool) (inj : R -> A) n h w V :
  (forall s, nconj N (inj s) = inj s) -> hermitian N n h -> eigensystem N lt inj n h w V ->
  forall k j, k < n -> j < n -> sum_n N n (fun i => nmul N (nconj N (V i k)) (h i j)) = nmul N (inj (w k)) (nconj N (V j k)).
Proof.
  intros Hc Hh [_ H _] k j Hk Hj. rewrite <- (Hc (w k)), <- (conj_mul N L), <- H by auto. rewrite (sum_conj N L). apply sum_ext. intros i Hi.
  rewrite (conj_mul N L), (Hh j i) by auto. apply (mul_comm N L).
Qed.
Lemma upper_self {A R} (N : numops A) (inj : R -> A) (re : A -> R) n a : (forall x, nconj N x = x -> inj (re x) = x) -> hermitian N n a ->
  forall i k, i < n -> k < n -> upper_hermitian N inj re a i k = a i k.
Proof.
  intros Hr Hh i k Hi Hk. unfold upper_hermitian. destruct (Nat.eqb_spec i k) as [->|]; [apply Hr; apply Hh; auto|].
  destruct (i <? k); [reflexivity|]. apply Hh; auto.
Qed.

(* whatever the library answers, the wrappers return *)
Lemma svd_returns {A R} gesvd (junk : nat -> A) (junkr : nat -> R) (t : tensor A) m n wantU wantV economic : wf t -> dims t = [m; n] -> 0 < m -> 0 < n ->
  exists r, svd gesvd junk junkr t wantU wantV economic = Ok r.
Proof.
  intros W D Hm Hn. unfold svd.
  rewrite (dimension_ok t [] m [n] 0 D eq_refl : dimension t 0 = Ok m). cbn [bind]. replace (0 <? m) with true by lia. cbn [assert_ bind].
  rewrite (dimension_ok t [m] n [] 1 D eq_refl : dimension t 1 = Ok n). cbn [bind]. replace (0 <? n) with true by lia. cbn [assert_ bind].
  rewrite D. cbn [length Nat.eqb assert_ bind]. cbv zeta.
  unfold call_gesvd. cbv zeta. set (k := Nat.min m n) in *. assert (Hk : 0 < k <= m /\ k <= n) by (unfold k; lia).
  replace (Nat.max 1 m <=? m) with true by lia. cbn [assert_ bind].
  assert (E1 : ((1 <=? (if wantU then m else 1)) && match (if wantU then if economic then JobS else JobA else JobN) with JobN => true | _ => m <=? (if wantU then m else 1) end) = true).
  { destruct wantU, economic; cbn -[Nat.leb]; lia. }
  rewrite E1. cbn [assert_ bind].
  assert (E2 : ((1 <=? (if wantV then if economic then k else n else 1)) && (job_size (if wantV then if economic then JobS else JobA else JobN) n k <=? (if wantV then if economic then k else n else 1))) = true).
  { destruct wantV, economic; cbn -[Nat.leb]; lia. }
  rewrite E2. cbn [assert_ bind]. rewrite load_self by (auto; rewrite W, D; cbn; lia). cbn [bind].
  destruct (gesvd _ _ _ _ _) as [[[info s'] U] VT] eqn:Eg.
  rewrite store_vec by (rewrite alloc_new; cbn; lia). cbn [bind].
  destruct (store_opt junk (if wantU then m else 1) m (if economic then k else m) m (job_size (if wantU then if economic then JobS else JobA else JobN) m k) wantU U
    (if wantU then Some (new_tensor junk [m; if economic then k else m]) else None) (alloc junk 1)) as (u & Eu & Mu).
  { destruct wantU, economic; cbn; auto 6. }
  rewrite Eu. cbn [bind].
  destruct (store_opt junk (if wantV then if economic then k else n else 1) (if economic then k else n) n (job_size (if wantV then if economic then JobS else JobA else JobN) n k) n wantV VT
    (if wantV then Some (new_tensor junk [if economic then k else n; n]) else None) (alloc junk 1)) as (v & Ev & Mv).
  { destruct wantV, economic; cbn; repeat split; auto; lia. }
  rewrite Ev. cbn [bind]. eexists. reflexivity.
Qed.
Lemma eig_sym_returns {A R} (junkr : nat -> R) heev (t : tensor A) n wantV : wf t -> dims t = [n; n] -> 0 < n -> exists r, eig_sym junkr heev t wantV = Ok r.
Proof.
  intros W D Hn. unfold eig_sym. refine (_ : exists r, (rows <- dimension t 0 ;; _ <- assert_ (0 <? rows) ;; _ <- assert_ (length (dims t) =? 2) ;; columns <- dimension t 1 ;; _ <- assert_ (rows =? columns) ;;
    (fun n => '(info, w, a) <- call_heev heev wantV n (data t) n (data (new_tensor junkr [n])) ;; Ok (mkT [n] w, if wantV then Some (mkT (dims t) a) else None)) rows) = Ok r).
  rewrite eig_checks_ok with (n := n) by auto. unfold call_heev. replace (Nat.max 1 n <=? n) with true by lia. cbn [assert_ bind].
  rewrite load_self by (auto; rewrite W, D; cbn; lia). cbn [bind]. destruct (heev wantV n (data t)) as [[info w'] V'].
  rewrite store_vec by (rewrite alloc_new; cbn; lia). cbn [bind].
  destruct (store_ok n n n V' (data t)) as (b & E & Lb & Hb); [lia|rewrite W, D; cbn; lia|]. rewrite E. cbn [bind]. eexists. reflexivity.
Qed.

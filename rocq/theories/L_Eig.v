(* Proofs about eigenvalues. *)
From Verif Require Import Base Spec S_Fold M_Tensor M_Arith M_Range S_Range M_Fold M_Reduce S_Reduce M_BlockSvd M_Eig S_Eig
  L_Lin L_Tensor L_Range L_Fold L_Kron L_Arith L_Permute L_Reduce L_BlockSvd L_Fftw L_Solve.
Local Open Scope nat_scope.

Lemma mat_nth {A} (t : tensor A) n p i k d : wf t -> dims t = [n; p] -> i < n -> k < p -> elt t [i; k] = Some (nth (i + n * k) (data t) d).
Proof.
  intros W D Hi Hk. rewrite (mat_elt t n p) by auto. apply nth_error_nth'. rewrite W, D. cbn. nia.
Qed.
Lemma rd_nth {A} (l : list A) i d : i < length l -> rd l i = Ok (nth i l d).
Proof. intros H. apply rd_ok. apply nth_error_nth'. auto. Qed.
Lemma get2_mat {A} (t : tensor A) n p i k d : wf t -> dims t = [n; p] -> i < n -> k < p ->
  get2 t (Z.of_nat i) (Z.of_nat k) = Ok (nth (i + n * k) (data t) d).
Proof.
  intros W D Hi Hk. assert (Lu : length (data t) = n * p) by (rewrite W, D; cbn; lia).
  unfold get2, get_dimensions2. rewrite D. cbn [bind]. rewrite !normalize_nonneg by auto. cbn [bind].
  replace (k * n + i) with (i + n * k) by lia. rewrite (rd_nth _ _ d) by nia. reflexivity.
Qed.

Lemma nth_of_error {A} (l l' : list A) k d : nth_error l k = nth_error l' k -> nth k l d = nth k l' d.
Proof.
  intros E. destruct (nth_error l' k) as [x|] eqn:E'.
  - rewrite (nth_error_nth _ _ d E), (nth_error_nth _ _ d E'). reflexivity.
  - apply nth_error_None in E, E'. rewrite !nth_overflow; auto.
Qed.

Lemma val_vec {C} (N : numops C) (o : tensor C) p k : wf o -> dims o = [p] -> k < p -> val N o [k] = nth k (data o) (nzero N).
Proof.
  intros W D Hk. unfold val. rewrite elt_valid by (rewrite D; repeat constructor; auto). rewrite D, lin_cons, lin_nil. rewrite Nat.mul_0_r, Nat.add_0_r.
  rewrite (nth_error_nth' (data o) (nzero N)); [reflexivity|]. rewrite W, D. cbn. lia.
Qed.
Lemma val_vec' {C} (N : numops C) (o : tensor C) p k x : wf o -> dims o = [p] -> nth_error (data o) k = Some x -> val N o [k] = x.
Proof.
  intros W D E. assert (Hk : k < p). { apply nth_error_lt_inv in E. rewrite W, D in E. cbn in E. lia. }
  rewrite (val_vec N o p) by auto. erewrite nth_error_nth; eauto.
Qed.

Section D.
Context {R C : Type} (N : numops C) (L : numlaws N) (mk : R -> R -> C) (zero : R) (neg : R -> R) (nonzero : R -> bool).
Context (X : is_complex N mk zero neg).
Notation conj := (nconj N).

Section Conj.
Context (a : nat -> nat -> R) (n : nat).
Notation ac := (fun i k => mk (a i k) zero).
Lemma conj_ac i k : conj (mk (a i k) zero) = mk (a i k) zero.
Proof. rewrite (conj_mk _ _ _ _ X), (neg_zero _ _ _ _ X). reflexivity. Qed.
Lemma conj_inj0 x : x <> nzero N -> conj x <> nzero N.
Proof. intros H E. apply H. rewrite <- (conj_conj N L x), E. apply (conj_0 N L). Qed.
Lemma right_conj w x : right_vector N ac n w x -> right_vector N ac n (conj w) (fun j => conj (x j)).
Proof.
  intros [(k & Hk & Hx) H]. split.
  - exists k. split; [auto|]. apply conj_inj0. auto.
  - intros i Hi. rewrite <- (conj_mul N L), <- H by auto. rewrite (sum_conj N L). apply sum_ext. intros j _. rewrite (conj_mul N L), conj_ac. reflexivity.
Qed.
Lemma left_conj w x : left_vector N ac n w x -> left_vector N ac n (conj w) (fun j => conj (x j)).
Proof.
  intros [(k & Hk & Hx) H]. split.
  - exists k. split; [auto|]. apply conj_inj0. auto.
  - intros i Hi. rewrite <- (conj_mul N L), <- H by auto. rewrite (sum_conj N L). apply sum_ext. intros j _. rewrite (conj_mul N L), conj_ac. reflexivity.
Qed.
Lemma entry_conj wl wr_ w x y : eig_entry N mk zero wl wr_ a n w x y -> eig_entry N mk zero wl wr_ a n (conj w) (fun j => conj (x j)) (fun j => conj (y j)).
Proof.
  intros ((z & Hz) & HR & HL). split; [|split].
  - eexists. apply right_conj. exact Hz.
  - intros E. apply right_conj. auto.
  - intros E. apply left_conj. auto.
Qed.
End Conj.

(* the columns written by the loop *)
Lemma columns_ok n i (real : tensor R) (v : tensor C) : wf real -> dims real = [n; n] -> wf v -> dims v = [n; n] -> S i < n ->
  exists v', eig_columns mk neg n i (Some real) (Some v) = Ok (Some v') /\ wf v' /\ dims v' = [n; n] /\
    (forall j, j < n -> elt v' [j; i] = Some (mk (nth (j + n * i) (data real) zero) (nth (j + n * S i) (data real) zero))) /\
    (forall j, j < n -> elt v' [j; S i] = Some (mk (nth (j + n * i) (data real) zero) (neg (nth (j + n * S i) (data real) zero)))) /\
    (forall j k, k <> i -> k <> S i -> elt v' [j; k] = elt v [j; k]).
Proof.
  intros Wr Dr Wv Dv Hi. unfold eig_columns.
  match goal with |- context [for_ n ?f v] => set (body := f) end.
  assert (F : forall m, m <= n -> exists v', for_ m body v = Ok v' /\ wf v' /\ dims v' = [n; n] /\
    (forall j, j < m -> elt v' [j; i] = Some (mk (nth (j + n * i) (data real) zero) (nth (j + n * S i) (data real) zero))) /\
    (forall j, j < m -> elt v' [j; S i] = Some (mk (nth (j + n * i) (data real) zero) (neg (nth (j + n * S i) (data real) zero)))) /\
    (forall j k, (j >= m \/ (k <> i /\ k <> S i)) -> elt v' [j; k] = elt v [j; k])).
  { induction m as [|m IH]; intros Hm.
    - exists v. cbn [for_]. repeat (split; [solve [auto | intros; lia]|]). auto.
    - destruct IH as (v1 & E1 & W1 & D1 & A1 & B1 & C1); [lia|].
      destruct (set2_mat v1 n n m i (mk (nth (m + n * i) (data real) zero) (nth (m + n * S i) (data real) zero))) as (v2 & E2 & W2 & D2 & A2 & B2); auto; try lia.
      destruct (set2_mat v2 n n m (S i) (mk (nth (m + n * i) (data real) zero) (neg (nth (m + n * S i) (data real) zero)))) as (v3 & E3 & W3 & D3 & A3 & B3); auto; try lia.
      exists v3. split.
      { rewrite for_S, E1. cbn [bind]. unfold body. replace (Z.of_nat i + 1)%Z with (Z.of_nat (S i)) by lia.
        rewrite (get2_mat real n n m i zero) by (auto; lia). cbn [bind]. rewrite (get2_mat real n n m (S i) zero) by (auto; lia). cbn [bind]. rewrite E2. cbn [bind]. exact E3. }
      repeat (split; [assumption|]). split; [|split].
      + intros j Hj. rewrite B3 by lia. destruct (Nat.eq_dec j m) as [->|]; [exact A2|]. rewrite B2 by lia. apply A1. lia.
      + intros j Hj. destruct (Nat.eq_dec j m) as [->|]; [exact A3|]. rewrite B3, B2 by lia. apply B1. lia.
      + intros j k H. rewrite B3, B2 by lia. apply C1. lia. }
  destruct (F n (le_n n)) as (v' & E & W & D & A1 & B1 & C1). exists v'. rewrite E. cbn [bind]. split; [reflexivity|].
  repeat (split; [assumption|]). intros j k H1 H2. apply C1. auto.
Qed.

Context (wantL wantR : bool) (a : nat -> nat -> R) (n : nat) (wr wi vl vr : list R).
Context (Lwr : length wr = n) (Lwi : length wi = n) (Lvl : wantL = true -> length vl = n * n) (Lvr : wantR = true -> length vr = n * n).
Let realL := if wantL then Some (mkT [n; n] vl) else None.
Let realR := if wantR then Some (mkT [n; n] vr) else None.
Notation entry := (eig_entry N mk zero wantL wantR a n).

(* vectors at column k of an optional matrix *)
Definition ocol (v : option (tensor C)) (k j : nat) : C := match v with Some v => val N v [j; k] | None => nzero N end.
Definition oshape (want : bool) (v : option (tensor C)) : Prop :=
  match v with Some v => want = true /\ wf v /\ dims v = [n; n] | None => want = false end.

Lemma entry_ext w w' x x' y y' : w = w' -> (wantR = true -> forall j, j < n -> x j = x' j) -> (wantL = true -> forall j, j < n -> y j = y' j) ->
  entry w x y -> entry w' x' y'.
Proof.
  intros <- Hx Hy (H1 & H2 & H3). split; [auto|]. split.
  - intros E. destruct (H2 E) as ((k & Hk & Hk') & H). split; [exists k; rewrite <- Hx; auto|]. intros i Hi. rewrite <- Hx, <- H by auto.
    apply sum_ext. intros j Hj. rewrite Hx by auto. auto.
  - intros E. destruct (H3 E) as ((k & Hk & Hk') & H). split; [exists k; rewrite <- Hy; auto|]. intros i Hi. rewrite <- Hy, <- H by auto.
    apply sum_ext. intros j Hj. rewrite Hy by auto. auto.
Qed.

Definition inv (i : nat) (st : tensor C * option (tensor C) * option (tensor C)) : Prop :=
  let '(o, vR, vL) := st in
  wf o /\ dims o = [n] /\ oshape wantR vR /\ oshape wantL vL /\
  (forall k, k < i -> entry (val N o [k]) (ocol vR k) (ocol vL k)) /\
  (forall k, i <= k < n -> val N o [k] = mk (nth k wr zero) zero /\
     (wantR = true -> forall j, j < n -> ocol vR k j = mk (nth (j + n * k) vr zero) zero) /\
     (wantL = true -> forall j, j < n -> ocol vL k j = mk (nth (j + n * k) vl zero) zero)).

Lemma ocolumns want (v : option (tensor C)) (d : list R) i : (want = true -> length d = n * n) -> oshape want v -> S i < n ->
  exists v', eig_columns mk neg n i (if want then Some (mkT [n; n] d) else None) v = Ok v' /\ oshape want v' /\
    (want = true -> forall j, j < n -> ocol v' i j = mk (nth (j + n * i) d zero) (nth (j + n * S i) d zero)) /\
    (want = true -> forall j, j < n -> ocol v' (S i) j = mk (nth (j + n * i) d zero) (neg (nth (j + n * S i) d zero))) /\
    (forall k j, k <> i -> k <> S i -> ocol v' k j = ocol v k j).
Proof.
  intros Ld H Hi. destruct v as [v|]; cbn in H.
  - destruct H as (-> & W & D). destruct (columns_ok n i (mkT [n; n] d) v) as (v' & E & W' & D' & A1 & B1 & C1); auto.
    { unfold wf. cbn [data dims]. rewrite Ld by auto. cbn. lia. }
    exists (Some v'). split; [exact E|]. split; [cbn; auto|]. cbn [ocol]. unfold val. split; [|split].
    + intros _ j Hj. rewrite A1 by auto. reflexivity.
    + intros _ j Hj. rewrite B1 by auto. reflexivity.
    + intros k j H1 H2. rewrite C1 by auto. reflexivity.
  - subst want. exists None. split; [reflexivity|]. split; [reflexivity|]. split; [discriminate|]. split; [discriminate|]. reflexivity.
Qed.

Lemma loop_ok i : packed N mk zero wantL wantR a n (fun i => nth i wr zero) (fun i => nth i wi zero) (fun i => nth i vl zero) (fun i => nth i vr zero) nonzero i ->
  forall rest st, n <= i + rest -> inv i st -> exists st', eig_loop mk neg nonzero n rest i wr wi realR realL st = Ok st' /\ inv n st'.
Proof.
  induction 1 as [|i Hi Hz He Hp IH|i Hi Hz He Hp IH]; intros rest st Hr I.
  - exists st. split; [|exact I]. destruct rest; [reflexivity|]. cbn [eig_loop]. rewrite Nat.ltb_irrefl. reflexivity.
  - destruct rest as [|rest]; [lia|]. cbn [eig_loop]. replace (i <? n) with true by lia. rewrite (rd_nth _ _ zero) by lia. cbn [bind]. rewrite Hz.
    apply IH; [lia|]. destruct st as [[o vR] vL]. destruct I as (Wo & Do & SR & SL & H1 & H2). repeat (split; [assumption|]). split.
    + intros k Hk. destruct (Nat.eq_dec k i) as [->|]; [|apply H1; lia]. destruct (H2 i) as (E1 & E2 & E3); [lia|]. revert He. apply entry_ext; [auto| |].
      * intros E j Hj. rewrite E2; auto.
      * intros E j Hj. rewrite E3; auto.
    + intros k Hk. apply H2. lia.
  - destruct rest as [|rest]; [lia|]. cbn [eig_loop]. replace (i <? n) with true by lia. rewrite (rd_nth _ _ zero) by lia. cbn [bind]. rewrite Hz.
    destruct st as [[o vR] vL]. destruct I as (Wo & Do & SR & SL & H1 & H2). rewrite (rd_nth _ _ zero) by lia. cbn [bind].
    destruct (set1_vec o n i (mk (nth i wr zero) (nth i wi zero))) as (o1 & E1 & W1 & D1 & A1 & B1); auto; try lia.
    destruct (set1_vec o1 n (S i) (mk (nth i wr zero) (neg (nth i wi zero)))) as (o2 & E2 & W2 & D2 & A2 & B2); auto; try lia.
    rewrite E1. cbn [bind]. replace (Z.of_nat i + 1)%Z with (Z.of_nat (S i)) by lia. rewrite E2. cbn [bind].
    destruct (ocolumns wantL vL vl i) as (vL' & EL & SL' & AL & BL & CL); auto. unfold realL at 1. rewrite EL. cbn [bind].
    destruct (ocolumns wantR vR vr i) as (vR' & ER & SR' & AR & BR & CR); auto. unfold realR at 1. rewrite ER. cbn [bind].
    apply IH; [lia|]. split; [exact W2|]. split; [exact D2|]. split; [exact SR'|]. split; [exact SL'|]. split.
    + intros k Hk. destruct (Nat.eq_dec k i) as [->|Hki]; [|destruct (Nat.eq_dec k (S i)) as [->|Hks]].
      * revert He. apply entry_ext.
        -- symmetry. apply (val_vec' N o2 n); auto. rewrite B2 by lia. exact A1.
        -- intros E j Hj. rewrite AR; auto.
        -- intros E j Hj. rewrite AL; auto.
      * apply entry_conj in He. revert He. apply entry_ext.
        -- rewrite (conj_mk _ _ _ _ X). symmetry. apply (val_vec' N o2 n); auto.
        -- intros E j Hj. rewrite (conj_mk _ _ _ _ X). rewrite BR; auto.
        -- intros E j Hj. rewrite (conj_mk _ _ _ _ X). rewrite BL; auto.
      * assert (Hk' : k < i) by lia. specialize (H1 k Hk'). revert H1. apply entry_ext.
        -- rewrite !(val_vec N _ n) by (auto; lia). apply nth_of_error. rewrite B2, B1 by lia. reflexivity.
        -- intros E j Hj. rewrite CR; auto.
        -- intros E j Hj. rewrite CL; auto.
    + intros k Hk. destruct (H2 k) as (F1 & F2 & F3); [lia|]. split; [|split].
      * rewrite <- F1. rewrite !(val_vec N _ n) by (auto; lia). apply nth_of_error. rewrite B2, B1 by lia. reflexivity.
      * intros E j Hj. rewrite CR by lia. auto.
      * intros E j Hj. rewrite CL by lia. auto.
Qed.
End D.

Lemma eig_checks_ok {E X0} (A : tensor E) n (k : nat -> outcome X0) : dims A = [n; n] -> 0 < n ->
  (rows <- dimension A 0 ;; _ <- assert_ (0 <? rows) ;; _ <- assert_ (length (dims A) =? 2) ;; columns <- dimension A 1 ;; _ <- assert_ (rows =? columns) ;; k rows) = k n.
Proof.
  intros D Hn. rewrite (dimension_ok A [] n [n] 0 D eq_refl : dimension A 0 = Ok n). cbn [bind]. replace (0 <? n) with true by lia. cbn [assert_ bind].
  rewrite D. cbn [length Nat.eqb assert_ bind]. rewrite (dimension_ok A [n] n [] 1 D eq_refl : dimension A 1 = Ok n). cbn [bind]. rewrite Nat.eqb_refl. reflexivity.
Qed.

Section Eig67.
Context {R C : Type} (N : numops C) (L : numlaws N) (mk : R -> R -> C) (zero : R) (neg : R -> R) (nonzero : R -> bool).
Context (X : is_complex N mk zero neg).

Lemma right_ext (a a' : nat -> nat -> C) n w x : (forall i k, i < n -> k < n -> a i k = a' i k) -> right_vector N a n w x -> right_vector N a' n w x.
Proof.
  intros H [H1 H2]. split; [auto|]. intros i Hi. rewrite <- H2 by auto. apply sum_ext. intros k Hk. rewrite H by auto. reflexivity.
Qed.
Lemma left_ext (a a' : nat -> nat -> C) n w x : (forall i k, i < n -> k < n -> a i k = a' i k) -> left_vector N a n w x -> left_vector N a' n w x.
Proof.
  intros H [H1 H2]. split; [auto|]. intros i Hi. rewrite <- H2 by auto. apply sum_ext. intros k Hk. rewrite H by auto. reflexivity.
Qed.

Lemma to_complex_wf {X0 Y} (f : X0 -> Y) t : wf t -> wf (to_complex f t) /\ dims (to_complex f t) = dims t.
Proof. intros W. unfold to_complex, wf. cbn [data dims]. rewrite map_length. auto. Qed.

Lemma eig_ok dgeev (A : tensor R) n wantR wantL : wf A -> dims A = [n; n] -> 0 < n ->
  dgeev_good N mk zero neg nonzero dgeev wantL wantR n (data A) ->
  exists w vR vL, eig mk zero neg nonzero dgeev A wantR wantL = Ok (w, vR, vL) /\
    wf w /\ dims w = [n] /\
    (forall k, k < n -> eigenvalue N (complex_entries mk zero A) n (val N w [k])) /\
    columns_are N wantR vR n (fun k => right_vector N (complex_entries mk zero A) n (val N w [k])) /\
    columns_are N wantL vL n (fun k => left_vector N (complex_entries mk zero A) n (val N w [k])).
Proof.
  intros W D Hn G. unfold eig. rewrite (eig_checks_ok A n (fun n => _) D Hn). cbv zeta. unfold dgeev_good in G.
  destruct (dgeev wantL wantR n (data A)) as [[[wr wi] vl] vr]. destruct G as (Lwr & Lwi & Lvl & Lvr & P).
  pose proof (loop_ok N L mk zero neg nonzero X wantL wantR _ n wr wi vl vr Lwr Lwi Lvl Lvr 0 P n) as H.
  edestruct H as (st' & E & I); [lia| |]; cycle 1.
  - rewrite E. destruct st' as [[w vR] vL]. exists w, vR, vL. split; [reflexivity|]. destruct I as (Ww & Dw & SR & SL & Hk & _).
    split; [auto|]. split; [auto|].
    assert (Ea : forall i k, i < n -> k < n -> mk (nth (i + n * k) (data A) zero) zero = complex_entries mk zero A i k).
    { intros i k Hi Hk'. unfold complex_entries. rewrite (mat_nth A n n i k zero) by auto. reflexivity. }
    split; [|split].
    + intros k Hk'. destruct (Hk k Hk') as ((x & Hx) & _). exists x. revert Hx. apply right_ext. exact Ea.
    + destruct vR as [vR|]; cbn in SR |- *; [|auto]. destruct SR as (HR & WR & DR). repeat (split; [assumption|]). intros k Hk'.
      destruct (Hk k Hk') as (_ & HH & _). specialize (HH HR). revert HH. apply right_ext. exact Ea.
    + destruct vL as [vL|]; cbn in SL |- *; [|auto]. destruct SL as (HL & WL & DL). repeat (split; [assumption|]). intros k Hk'.
      destruct (Hk k Hk') as (_ & _ & HH). specialize (HH HL). revert HH. apply left_ext. exact Ea.
  - assert (Wr : wf (mkT [n] wr)) by (unfold wf; cbn [data dims]; rewrite Lwr; cbn; lia).
    assert (SS : forall want d, (want = true -> length d = n * n) -> oshape n want (option_map (to_complex (fun x => mk x zero)) (if want then Some (mkT [n; n] d) else None))).
    { intros [] d Ld; cbn; auto. split; [auto|]. split; [|reflexivity]. apply to_complex_wf. unfold wf. cbn [data dims]. rewrite Ld by auto. cbn. lia. }
    assert (SC : forall want d, (want = true -> length d = n * n) -> want = true -> forall k j, k < n -> j < n ->
      ocol N (option_map (to_complex (fun x => mk x zero)) (if want then Some (mkT [n; n] d) else None)) k j = mk (nth (j + n * k) d zero) zero).
    { intros [] d Ld; [|discriminate]. intros _ k j Hk Hj. cbn [option_map ocol]. unfold val.
      destruct (to_complex_wf (fun x => mk x zero) (mkT [n; n] d)) as [Wt Dt]; [unfold wf; cbn [data dims]; rewrite Ld by auto; cbn; lia|].
      rewrite (mat_nth _ n n j k (mk zero zero)) by auto. cbn [to_complex data]. apply (map_nth (fun x => mk x zero)). }
    split; [apply to_complex_wf; auto|]. split; [reflexivity|]. split; [apply SS; auto|]. split; [apply SS; auto|]. split; [intros; lia|].
    intros k Hk. split; [|split].
    + apply (val_vec' N _ n); [apply to_complex_wf; auto|reflexivity|]. cbn [to_complex data]. rewrite nth_error_map, (nth_error_nth' wr zero) by lia. reflexivity.
    + intros E j Hj. apply SC; auto. lia.
    + intros E j Hj. apply SC; auto. lia.
Qed.
End Eig67.

Lemma eig_z_ok {C} (N : numops C) zgeev (A : tensor C) n wantR wantL : wf A -> dims A = [n; n] -> 0 < n ->
  zgeev_good N zgeev wantL wantR n (data A) ->
  exists w vR vL, eig_z zgeev A wantR wantL = Ok (w, vR, vL) /\
    wf w /\ dims w = [n] /\
    (forall k, k < n -> eigenvalue N (fun i k => val N A [i; k]) n (val N w [k])) /\
    columns_are N wantR vR n (fun k => right_vector N (fun i k => val N A [i; k]) n (val N w [k])) /\
    columns_are N wantL vL n (fun k => left_vector N (fun i k => val N A [i; k]) n (val N w [k])).
Proof.
  intros W D Hn G. unfold eig_z. rewrite (eig_checks_ok A n (fun n => _) D Hn). unfold zgeev_good in G.
  destruct (zgeev wantL wantR n (data A)) as [[w vl] vr]. destruct G as (Lw & Ll & Lr & P). cbv zeta in P.
  exists (mkT [n] w). eexists. eexists. split; [reflexivity|].
  assert (Ww : wf (mkT [n] w)) by (unfold wf; cbn [data dims]; rewrite Lw; cbn; lia). split; [exact Ww|]. split; [reflexivity|].
  assert (Ea : forall i k, i < n -> k < n -> nth (i + n * k) (data A) (nzero N) = val N A [i; k]).
  { intros i k Hi Hk'. unfold val. rewrite (mat_nth A n n i k (nzero N)) by auto. reflexivity. }
  assert (Ev : forall k, k < n -> val N (mkT [n] w) [k] = nth k w (nzero N)) by (intros; apply (val_vec N (mkT [n] w) n); auto).
  assert (Ec : forall d k j, length d = n * n -> k < n -> j < n -> nth (j + n * k) d (nzero N) = val N (mkT [n; n] d) [j; k]).
  { intros d k j Ld Hk Hj. unfold val. rewrite (mat_nth _ n n j k (nzero N)); auto. unfold wf. cbn [data dims]. rewrite Ld. cbn. lia. }
  split; [|split].
  - intros k Hk. rewrite Ev by auto. destruct (P k Hk) as ((x & Hx) & _). exists x. revert Hx. apply right_ext. exact Ea.
  - destruct wantR; cbn; [|reflexivity]. split; [auto|]. split; [unfold wf; cbn [data dims]; rewrite Lr by auto; cbn; lia|]. split; [reflexivity|].
    intros k Hk. rewrite Ev by auto. destruct (P k Hk) as (_ & HR & _). specialize (HR eq_refl).
    apply (right_ext N _ _ _ _ _ Ea) in HR. destruct HR as ((q & Hq & Hq') & H). split.
    + exists q. split; [auto|]. rewrite <- Ec by auto. exact Hq'.
    + intros i Hi. rewrite <- Ec, <- H by auto. apply sum_ext. intros j Hj. rewrite Ec by auto. reflexivity.
  - destruct wantL; cbn; [|reflexivity]. split; [auto|]. split; [unfold wf; cbn [data dims]; rewrite Ll by auto; cbn; lia|]. split; [reflexivity|].
    intros k Hk. rewrite Ev by auto. destruct (P k Hk) as (_ & _ & HR). specialize (HR eq_refl).
    apply (left_ext N _ _ _ _ _ Ea) in HR. destruct HR as ((q & Hq & Hq') & H). split.
    + exists q. split; [auto|]. rewrite <- Ec by auto. exact Hq'.
    + intros i Hi. rewrite <- Ec, <- H by auto. apply sum_ext. intros j Hj. rewrite Ec by auto. reflexivity.
Qed.

Lemma eig_checks_rejects {E X0} (A : tensor E) (k : nat -> outcome X0) : (forall n, dims A = [n; n] -> n = 0) ->
  (rows <- dimension A 0 ;; _ <- assert_ (0 <? rows) ;; _ <- assert_ (length (dims A) =? 2) ;; columns <- dimension A 1 ;; _ <- assert_ (rows =? columns) ;; k rows) = Abort.
Proof.
  intros H. destruct (dims A) as [|n ds] eqn:D; [unfold dimension; rewrite D; reflexivity|].
  rewrite (dimension_ok A [] n ds 0 D eq_refl : dimension A 0 = Ok n). cbn [bind].
  destruct (Nat.ltb_spec 0 n); [|reflexivity]. cbn [assert_ bind].
  destruct ds as [|m [|p ds]]; try reflexivity. cbn [length Nat.eqb assert_ bind].
  rewrite (dimension_ok A [n] m [] 1 D eq_refl : dimension A 1 = Ok m). cbn [bind].
  destruct (Nat.eqb_spec n m) as [->|]; [|reflexivity]. specialize (H m eq_refl). lia.
Qed.

Section Eigs68.
Context {E R C : Type} (N : numops C) (proj : C -> E) (rp : bool) (re im modulus : C -> R) (neg : R -> R) (lt : R -> R -> bool) (Hlt : strict_total lt).
Context (Hneg : forall x y, lt (neg x) (neg y) = lt y x).
Context (std_sort_ix : (nat -> nat -> bool) -> list nat -> list nat) (Hsi : is_std_sort std_sort_ix) (junk : nat -> C).
Context (arpack : tensor E -> nat -> bool -> outcome (tensor E * option (tensor E))).

Lemma key_before t x y : lt (sort_key re im modulus neg t x) (sort_key re im modulus neg t y) = eig_before re im modulus lt t x y.
Proof. destruct t; cbn; rewrite ?Hneg; reflexivity. Qed.

Lemma sort_values_first (w : tensor C) n neig t : wf w -> dims w = [n] -> neig <= n ->
  first_ones (eig_before re im modulus lt t) n neig (fun k => val N w [k]) (firstn neig (sort_values re im modulus neg lt std_sort_ix w t)).
Proof.
  intros W D Hn. set (p := sort_values _ _ _ _ _ _ w t). set (d := map (sort_key re im modulus neg t) (data w)).
  assert (Ld : length d = n) by (unfold d; rewrite map_length, W, D; cbn; lia).
  assert (P : Permutation (seq 0 n) p /\ ordered (cmp_at lt d) p).
  { unfold p, sort_values, sort_indices. cbn [data]. fold d. rewrite Ld. destruct (Nat.eqb_spec n 0) as [->|Hn0].
    - cbn. split; [auto|]. intros i j a b _ Ha. destruct i; discriminate.
    - apply Hsi. rewrite <- Ld. apply cmp_weak. auto. }
  destruct P as [P O].
  assert (Hin : forall q, In q p -> q < n).
  { intros q Hq. eapply Permutation_in in Hq; [|apply Permutation_sym; exact P]. apply in_seq in Hq. lia. }
  assert (ND : NoDup p) by (apply (Permutation_NoDup P), seq_NoDup).
  assert (Lp : length p = n) by (rewrite <- (Permutation_length P), seq_length; reflexivity).
  assert (Cmp : forall i j, i < n -> j < n -> cmp_at lt d i j = eig_before re im modulus lt t (val N w [i]) (val N w [j])).
  { assert (Dk : forall i, i < n -> nth_error d i = Some (sort_key re im modulus neg t (val N w [i]))).
    { intros i Hi. unfold d. rewrite nth_error_map. rewrite (val_vec N w n) by auto. rewrite (nth_error_nth' (data w) (nzero N)); [reflexivity|].
      rewrite W, D. cbn. lia. }
    intros i j Hi Hj. unfold cmp_at. rewrite (Dk i Hi), (Dk j Hj). apply key_before. }
  assert (Ef : forall x i, nth_error (firstn neig p) x = Some i -> x < neig /\ nth_error p x = Some i).
  { intros x i Hx. assert (x < neig). { pose proof (nth_error_lt_inv _ _ _ Hx) as Hl. rewrite firstn_length in Hl. lia. }
    split; [auto|]. rewrite <- (firstn_skipn neig p). rewrite nth_error_app1; [exact Hx|]. apply (nth_error_lt_inv _ _ _ Hx). }
  repeat split.
  - rewrite firstn_length. lia.
  - apply NoDup_nth_error. intros x y Hx Exy. destruct (nth_error_lt _ _ Hx) as [i Ei]. rewrite Ei in Exy. symmetry in Exy. apply Ef in Ei, Exy.
    apply (proj1 (NoDup_nth_error p) ND); [apply (nth_error_lt_inv _ _ _ (proj2 Ei))|]. rewrite (proj2 Ei), (proj2 Exy). reflexivity.
  - intros i Hi. apply Hin. apply In_nth_error in Hi. destruct Hi as [x Hx]. apply Ef in Hx. apply (nth_error_In p x). apply Hx.
  - intros x y i j Hxy Hx Hy. apply Ef in Hx, Hy. destruct Hx as [_ Hx], Hy as [_ Hy]. rewrite <- Cmp by (apply Hin; eapply nth_error_In; eauto).
    apply (O x y); auto.
  - intros i k Hi Hk Hnk. apply In_nth_error in Hi. destruct Hi as [x Hx]. apply Ef in Hx. destruct Hx as [Hx1 Hx].
    assert (Hkp : In k p) by (apply (Permutation_in _ P), in_seq; lia). apply In_nth_error in Hkp. destruct Hkp as [y Hy].
    rewrite <- Cmp; [|auto|apply Hin; eapply nth_error_In; eauto].
    apply (O x y); auto. destruct (lt_dec x y); [auto|]. exfalso. apply Hnk. apply (nth_error_In _ y). rewrite <- Hy.
    rewrite <- (firstn_skipn neig p) at 2. rewrite nth_error_app1; [|rewrite firstn_length; lia]. reflexivity.
Qed.

Lemma eigs_small_ok eig_ (A : tensor E) n t neig want w vR vL : dims A = [n; n] -> 0 < neig <= n -> n <= 4 ->
  eig_ A false want = Ok (w, vR, vL) -> wf w -> dims w = [n] -> columns_are N want vL n (fun _ _ => True) ->
  exists sel, first_ones (eig_before re im modulus lt t) n neig (fun k => val N w [k]) sel /\
  exists u uv,
    (wf u /\ dims u = [neig] /\ (forall x k, nth_error sel x = Some k -> elt u [x] = Some (proj (val N w [k]))) /\
     match uv, vL with
     | Some uv, Some vL => wf uv /\ dims uv = [n; neig] /\ forall x k i, nth_error sel x = Some k -> i < n -> elt uv [i; x] = Some (proj (val N vL [i; k]))
     | None, None => True
     | _, _ => False
     end) /\
    exists F, forall fuel, F <= fuel -> eigs proj rp re im modulus neg lt std_sort_ix junk arpack eig_ fuel A t neig want = Ok (u, uv).
Proof.
  intros D Hn H4 He Ww Dw HL. set (sel := firstn neig (sort_values re im modulus neg lt std_sort_ix w t)). exists sel.
  assert (FO : first_ones (eig_before re im modulus lt t) n neig (fun k => val N w [k]) sel) by (apply sort_values_first; auto; lia).
  split; [exact FO|]. destruct FO as (Ls & ND & Hlt' & _).
  destruct (slice_t_vec junk w n (ixs sel) sel Ww Dw ltac:(lia) (selects_ix n sel Hlt')) as (u & (Wu & Du & Hu) & F1 & HF1).
  assert (Pu : wf (mkT (dims u) (map proj (data u))) /\ dims (mkT (dims u) (map proj (data u))) = [neig] /\
    (forall x k, nth_error sel x = Some k -> elt (mkT (dims u) (map proj (data u))) [x] = Some (proj (val N w [k])))).
  { split; [unfold wf; cbn [data dims]; rewrite map_length; exact Wu|]. split; [cbn [dims]; rewrite Du, Ls; reflexivity|].
    intros x k Hx. assert (Hxn : x < neig) by (rewrite <- Ls; apply (nth_error_lt_inv _ _ _ Hx)).
    rewrite elt_valid by (cbn [dims]; rewrite Du, Ls; repeat constructor; auto). cbn [dims data]. rewrite Du, lin_cons, lin_nil. rewrite Nat.mul_0_r, Nat.add_0_r.
    rewrite nth_error_map, (Hu x k Hx). rewrite (val_vec N w n); [|auto|auto|apply Hlt'; eapply nth_error_In; eauto].
    rewrite (nth_error_nth' (data w) (nzero N)); [reflexivity|]. rewrite Ww, Dw. cbn. specialize (Hlt' k (nth_error_In _ _ Hx)). lia. }
  assert (C0 : forall fuel, eigs proj rp re im modulus neg lt std_sort_ix junk arpack eig_ fuel A t neig want =
    (vectors <- match vL with
               | Some v => v <- slice_t fuel junk v [SFull; ixs sel] ;; Ok (Some (mkT (dims v) (map proj (data v))))
               | None => Ok None
               end ;;
    v <- slice_t fuel junk w [ixs sel] ;;
    Ok (mkT (dims v) (map proj (data v)), vectors))).
  { intros fuel. unfold eigs. rewrite (dimension_ok A [n] n [] 1 D eq_refl : dimension A 1 = Ok n), (dimension_ok A [] n [n] 0 D eq_refl : dimension A 0 = Ok n). cbn [bind].
    rewrite D. cbn [length Nat.eqb assert_ bind]. rewrite Nat.eqb_refl. cbn [assert_ bind].
    replace (n <? neig) with false by lia. replace (neig =? 0) with false by lia. cbn [orb negb assert_ bind]. replace (n <=? 4) with true by lia.
    rewrite He. cbn [bind]. reflexivity. }
  destruct vL as [vL|].
  - destruct HL as (_ & WL & DL & _).
    destruct (slice_t_mat junk vL n n SFull (ixs sel) _ sel WL DL ltac:(lia) ltac:(lia) (sel_full n) (selects_ix n sel Hlt')) as (uv & (Wv & Dv & Hv) & F2 & HF2).
    exists (mkT (dims u) (map proj (data u))), (Some (mkT (dims uv) (map proj (data uv)))). split.
    + destruct Pu as (P1 & P2 & P3). repeat (split; [assumption|]). split; [unfold wf; cbn [data dims]; rewrite map_length; exact Wv|].
      split; [cbn [dims]; rewrite Dv, seq_length, Ls; reflexivity|]. intros x k i Hx Hi.
      assert (Hxn : x < neig) by (rewrite <- Ls; apply (nth_error_lt_inv _ _ _ Hx)).
      assert (Hk : k < n) by (apply Hlt'; eapply nth_error_In; eauto).
      rewrite seq_length, Ls in Dv.
      rewrite (mat_elt _ n neig) by solve [auto | unfold wf; cbn [data dims]; rewrite map_length; exact Wv]. cbn [data]. rewrite nth_error_map.
      rewrite <- (mat_elt uv n neig) by auto. rewrite (Hv i x i k) by (auto; apply nth_error_seq0; auto).
      unfold val. rewrite (mat_nth vL n n i k (nzero N)) by auto. reflexivity.
    + exists (Nat.max F1 F2). intros fuel HF. rewrite C0. rewrite HF2 by lia. cbn [bind]. rewrite HF1 by lia. reflexivity.
  - exists (mkT (dims u) (map proj (data u))), None. split.
    + destruct Pu as (P1 & P2 & P3). repeat (split; [assumption|]). exact I.
    + exists F1. intros fuel HF. rewrite C0. cbn [bind]. rewrite HF1 by lia. reflexivity.
Qed.

End Eigs68.

Lemma eigs_rejects {E R C} (proj : C -> E) rp (re im modulus : C -> R) neg lt std_sort_ix junk arpack eig_ fuel (A : tensor E) t neig want :
  ((forall n, dims A <> [n; n]) \/ (exists n, dims A = [n; n] /\ (n < neig \/ neig = 0 \/ (4 < n /\ neig = n)))) ->
  eigs proj rp re im modulus neg lt std_sort_ix junk arpack eig_ fuel A t neig want = Abort.
Proof.
  intros H. unfold eigs. destruct (dims A) as [|m [|n ds]] eqn:D; try (unfold dimension; rewrite D; reflexivity).
  rewrite (dimension_ok A [m] n ds 1 D eq_refl : dimension A 1 = Ok n), (dimension_ok A [] m (n :: ds) 0 D eq_refl : dimension A 0 = Ok m). cbn [bind].
  destruct ds as [|p ds]; [|reflexivity]. cbn [length Nat.eqb assert_ bind].
  destruct (Nat.eqb_spec m n) as [->|]; [|reflexivity]. cbn [assert_ bind].
  destruct H as [H|(n' & En & H)]; [exfalso; apply (H n); reflexivity|]. injection En as <-.
  destruct (Nat.ltb_spec n neig); [reflexivity|]. destruct (Nat.eqb_spec neig 0); [reflexivity|]. cbn [orb negb assert_ bind].
  replace (n <=? 4) with false by lia. unfold arpack_checks. destruct (rp && _); [reflexivity|]. cbn [negb assert_ bind].
  replace (neig =? 0) with false by lia. replace (n - 1 <? neig) with true by lia. reflexivity.
Qed.

From Verif Require Import Base Spec S_Fold S_Reduce L_Lin M_Tensor L_Tensor M_Arith M_Fold L_Fold L_Arith L_Linspace M_Kron L_Kron M_Scale L_Scale M_Reduce.

(* ---- sum, scprod ---- *)
Lemma for_wrap {S T} (w : S -> T) n (bT : nat -> T -> outcome T) (bS : nat -> S -> outcome S) s :
  (forall i s', i < n -> bT i (w s') = (s'' <- bS i s' ;; Ok (w s''))) ->
  for_ n bT (w s) = (s' <- for_ n bS s ;; Ok (w s')).
Proof.
  intros H. induction n as [|n IH]; [reflexivity|]. rewrite !for_S, IH by auto.
  destruct (for_ n bS s); simpl; auto.
Qed.

Lemma firstn_S_snoc {B} (l : list B) i x : nth_error l i = Some x -> firstn (S i) l = firstn i l ++ [x].
Proof.
  revert i; induction l as [|y l IH]; intros [|i] H; simpl in *; try discriminate; [inversion H; auto|].
  f_equal. apply IH; auto.
Qed.
Lemma firstn_upd {B} (l : list B) j x : j < length l -> firstn (S j) (upd l j x) = firstn j l ++ [x].
Proof.
  revert j; induction l as [|y l IH]; intros [|j] H; simpl in *; try lia; auto. f_equal. apply IH. lia.
Qed.
Lemma firstn_upd_same {B} (l : list B) j x : firstn j (upd l j x) = firstn j l.
Proof. revert j; induction l as [|y l IH]; intros [|j]; simpl; auto. f_equal. apply IH. Qed.
Lemma prod_snoc l x : prod (l ++ [x]) = prod l * x.
Proof. rewrite prod_app, prod_cons. replace (prod []) with 1 by reflexivity. lia. Qed.

Section Red.
Context {A : Type} (N : numops A).
Notation dat := (dat N).

Lemma fold_left_sum (l : list A) (z : A) :
  fold_left (nadd N) l z = (fix f n := match n with 0 => z | S k => nadd N (f k) (dat l k) end) (length l).
Proof.
  induction l as [|x l IH] using rev_ind; [reflexivity|]. rewrite fold_left_app, app_length. simpl. rewrite Nat.add_1_r. rewrite IH.
  assert (E : dat (l ++ [x]) (length l) = x).
  { unfold L_Fold.dat. rewrite nth_error_app2, Nat.sub_diag by lia. reflexivity. }
  rewrite E. f_equal.
  assert (H : forall n, n <= length l -> (fix f n := match n with 0 => z | S k => nadd N (f k) (dat l k) end) n =
     (fix f n := match n with 0 => z | S k => nadd N (f k) (dat (l ++ [x]) k) end) n).
  { induction n as [|n IHn]; intros Hn; [reflexivity|]. rewrite IHn by lia. f_equal.
    unfold L_Fold.dat. rewrite nth_error_app1 by lia. reflexivity. }
  apply H. lia.
Qed.

Lemma sum_ok (t : tensor A) : sum N t = sum_n N (length (data t)) (fun q => nth q (data t) (nzero N)).
Proof.
  unfold sum. rewrite fold_left_sum.
  assert (H : forall n, (fix f n := match n with 0 => nzero N | S k => nadd N (f k) (dat (data t) k) end) n = sum_n N n (fun q => nth q (data t) (nzero N))).
  { induction n as [|n IH]; [reflexivity|]. cbn [sum_n]. rewrite IH. f_equal. unfold L_Fold.dat.
    destruct (nth_error (data t) n) eqn:E; [symmetry; apply nth_error_nth; auto|].
    rewrite nth_overflow; auto. apply nth_error_None; auto. }
  apply H.
Qed.

Lemma sum_perm (Hl : numlaws N) (t u : tensor A) : Permutation (data t) (data u) -> sum N t = sum N u.
Proof.
  unfold sum. intros H. generalize (nzero N). induction H; intros z; simpl; auto.
  - f_equal. rewrite <- !(add_assoc _ Hl). f_equal. apply (add_comm _ Hl).
  - congruence.
Qed.

Lemma scprod_ok (a b : tensor A) : length (data a) = length (data b) ->
  scprod N a b = Ok (sum_n N (length (data a)) (fun q => nmul N (nth q (data a) (nzero N)) (nconj N (nth q (data b) (nzero N))))).
Proof.
  intros H. unfold scprod.
  destruct (for_inv (fun m s => s = sum_n N m (fun q => nmul N (nth q (data a) (nzero N)) (nconj N (nth q (data b) (nzero N)))))
    (length (data a)) (fun i output =>
    x <- rd (data a) i ;; y <- rd (data b) i ;; Ok (nadd N output (nmul N x (nconj N y)))) (nzero N)) as (s & E & Hs); [reflexivity| |rewrite E, Hs; reflexivity].
  intros i s Hi ->. rewrite (rd_ok _ i (nth i (data a) (nzero N))) by (apply nth_error_nth'; auto). cbn [bind].
  rewrite (rd_ok _ i (nth i (data b) (nzero N))) by (apply nth_error_nth'; lia). cbn [bind]. eexists; split; [reflexivity|]. reflexivity.
Qed.

(* ---- mean over one index ---- *)
Context (ndiv : A -> A -> A) (of_index : nat -> A).

Definition mean_inv (t : tensor A) p l s (i : nat) (st : list nat * nat * nat * nat * nat) : Prop :=
  let '(d, j, left_, middle_, right_) := st in
  length d = length p + length s /\
  j = (if i <=? length p then i else i - 1) /\
  firstn j d = firstn i p ++ firstn (i - S (length p)) s /\
  left_ = prod (firstn i p) /\ right_ = prod (firstn (i - S (length p)) s) /\
  middle_ = (if i <=? length p then 0 else l).

Lemma mean_dims_ok jd (t : tensor A) p l s : dims t = p ++ l :: s -> s <> [] ->
  exists j, mean_dims jd t (length p) = Ok (p ++ s, j, prod p, l, prod s).
Proof.
  intros E Hs. unfold mean_dims.
  assert (Hr : length (dims t) = length p + S (length s)) by (rewrite E, app_length; reflexivity).
  match goal with |- exists j, for_ ?n ?b ?s0 = _ => destruct (for_inv (mean_inv t p l s) n b s0) as ((((( d & j) & le) & mi) & ri) & E1 & H) end.
  - unfold mean_inv. rewrite length_alloc. simpl. repeat split; lia || auto.
  - intros i (((( d & j) & le) & mi) & ri) Hi (H1 & H2 & H3 & H4 & H5 & H6).
    destruct (nth_error_lt (dims t) i Hi) as [di Hdi].
    assert (Ed : dimension t (Z.of_nat i) = Ok di).
    { unfold dimension. replace (Z.of_nat i <? Z.of_nat (length (dims t)))%Z with true by lia.
      replace (0 <=? Z.of_nat i)%Z with true by lia. cbn [assert_ bind]. rewrite Nat2Z.id. apply rd_ok; auto. }
    rewrite Ed. cbn [bind].
    assert (Hlen : 0 < length s) by (destruct s; [congruence|simpl; lia]).
    assert (Hj : j < length d).
    { destruct (Nat.leb_spec i (length p)); lia. }
    rewrite wr_ok by auto. cbn [bind]. cbv zeta.
    destruct (Nat.lt_trichotomy i (length p)) as [Hlt|[Heq|Hgt]].
    + replace (i <? length p) with true by lia. eexists; split; [reflexivity|]. unfold mean_inv.
      replace (i <=? length p) with true in * by lia. replace (S i <=? length p) with true by lia. subst j.
      rewrite length_upd. replace (i - S (length p)) with 0 in * by lia. replace (S i - S (length p)) with 0 by lia.
      assert (Hp : nth_error p i = Some di) by (rewrite E, nth_error_app1 in Hdi by auto; auto).
      rewrite firstn_upd by auto. rewrite (firstn_S_snoc p i di Hp), prod_snoc. simpl in *. rewrite app_nil_r in *.
      rewrite H3. subst. repeat split; auto.
    + replace (i <? length p) with false by lia. replace (length p <? i) with false by lia.
      eexists; split; [reflexivity|]. unfold mean_inv. rewrite length_upd.
      replace (i <=? length p) with true in * by lia. replace (S i <=? length p) with false by lia.
      assert (di = l) as -> by (rewrite E, Heq, nth_error_app2, Nat.sub_diag in Hdi by lia; simpl in Hdi; congruence).
      subst j. replace (S i - 1) with i by lia. rewrite firstn_upd_same, H3.
      replace (i - S (length p)) with 0 in * by lia. replace (S i - S (length p)) with 0 by lia.
      rewrite (@firstn_all2 nat i p) in * by lia. rewrite (@firstn_all2 nat (S i) p) by lia. repeat split; auto.
    + replace (i <? length p) with false by lia. replace (length p <? i) with true by lia.
      eexists; split; [reflexivity|]. unfold mean_inv. rewrite length_upd.
      replace (i <=? length p) with false in * by lia. replace (S i <=? length p) with false by lia.
      assert (Hsi : nth_error s (i - S (length p)) = Some di).
      { rewrite E, nth_error_app2 in Hdi by lia. replace (i - length p) with (S (i - S (length p))) in Hdi by lia. exact Hdi. }
      rewrite firstn_upd by auto. replace (S i - S (length p)) with (S (i - S (length p))) by lia.
      rewrite (firstn_S_snoc s _ di Hsi), prod_snoc. rewrite H3, !(@firstn_all2 nat i p) in * by lia.
      rewrite (@firstn_all2 nat (S i) p) by lia. subst. rewrite <- app_assoc. repeat split; auto; lia.
  - rewrite E1. destruct H as (H1 & H2 & H3 & H4 & H5 & H6). rewrite Hr in *.
    assert (Hlen : 0 < length s) by (destruct s; [congruence|simpl; lia]).
    replace (length p + S (length s) <=? length p) with false in * by lia.
    replace (length p + S (length s) - S (length p)) with (length s) in * by lia.
    rewrite firstn_all in H3, H5. rewrite !(@firstn_all2 nat (length p + S (length s)) p) in * by lia.
    rewrite (@firstn_all2 nat j d) in H3 by lia. subst. exists (length p + S (length s) - 1). reflexivity.
Qed.

Lemma mean_dims_last jd (t : tensor A) p l : dims t = p ++ [l] -> mean_dims jd t (length p) = UB.
Proof.
  intros E. unfold mean_dims.
  assert (Hr : length (dims t) = S (length p)) by (rewrite E, app_length; simpl; lia). rewrite Hr. rewrite for_S.
  match goal with |- bind (for_ ?n ?b ?s0) _ = _ => destruct (for_inv (fun i (st : list nat * nat * nat * nat * nat) =>
     length (fst (fst (fst (fst st)))) = length p /\ snd (fst (fst (fst st))) = i) n b s0) as ((((( d & j) & le) & mi) & ri) & E1 & H1 & H2) end.
  - simpl. rewrite length_alloc. lia.
  - intros i (((( d & j) & le) & mi) & ri) Hi (H1 & H2). cbn [fst snd] in *.
    destruct (nth_error_lt (dims t) i ltac:(lia)) as [di Hdi].
    assert (Ed : dimension t (Z.of_nat i) = Ok di).
    { unfold dimension. replace (Z.of_nat i <? Z.of_nat (length (dims t)))%Z with true by lia.
      replace (0 <=? Z.of_nat i)%Z with true by lia. cbn [assert_ bind]. rewrite Nat2Z.id. apply rd_ok; auto. }
    rewrite Ed. cbn [bind]. rewrite wr_ok by lia. cbn [bind]. replace (i <? length p) with true by lia.
    eexists; split; [reflexivity|]. cbn [fst snd]. rewrite length_upd. lia.
  - rewrite E1. cbn [bind fst snd] in *. rewrite (dimension_ok t p l []) by auto. cbn [bind].
    unfold wr. replace (j <? length d) with false by lia. reflexivity.
Qed.

Lemma acc_loop (D C0 : list A) L M R :
  length D = L * M * R -> length C0 = L * R -> (forall q, dat C0 q = nzero N) ->
  exists C, for_ R (fun r => for_ M (fun m => for_ L (fun l (C : list A) =>
      o <- rd C (l + L * r) ;; x <- rd D (l + L * (m + M * r)) ;; wr C (l + L * r) (nadd N o x)))) C0 = Ok C /\
    length C = L * R /\
    forall l r, l < L -> r < R -> dat C (l + L * r) = sum_n N M (fun m => dat D (l + L * (m + M * r))).
Proof.
  intros HD HC0 Hz.
  match goal with |- exists s'', for_ R ?b C0 = _ /\ _ => destruct (for_inv (fun r (C : list A) => length C = L * R /\
     forall l z, l < L -> z < R -> dat C (L * z + l) = if z <? r then sum_n N M (fun m => dat D (l + L * (m + M * z))) else nzero N) R b C0) as (C & E & H1 & H2) end.
  - split; [auto|]. intros. rewrite Hz. destruct (z <? 0) eqn:E; [lia|auto].
  - intros r C Hr (H1 & H2).
    match goal with |- exists s'', for_ M ?b C = _ /\ _ => destruct (for_inv (fun m (C' : list A) => length C' = L * R /\
      forall l z, l < L -> z < R -> dat C' (L * z + l) = if z =? r then sum_n N m (fun m => dat D (l + L * (m + M * z))) else dat C (L * z + l)) M b C)
      as (C' & E' & H1' & H2') end.
    + split; [auto|]. intros l z Hl Hz'. destruct (Nat.eqb_spec z r) as [->|]; auto. rewrite H2 by auto.
      replace (r <? r) with false by lia. reflexivity.
    + intros m C' Hm (H1' & H2').
      destruct (blockloop N (fun l c => nadd N c (dat D (l + L * (m + M * r)))) (L * r) L (L * R) C'
        (fun l (C : list A) => o <- rd C (l + L * r) ;; x <- rd D (l + L * (m + M * r)) ;; wr C (l + L * r) (nadd N o x)))
        as (C'' & E'' & Hl'' & H''); auto.
      * nia.
      * intros l o Hl Ho. rewrite (rd_dat N) by nia. cbn [bind].
        assert (Hb : l + L * (m + M * r) < length D) by (rewrite HD, <- Nat.mul_assoc; apply mix_lt; auto; apply mix_lt; auto).
        rewrite (rd_dat N) by auto. cbn [bind]. rewrite (Nat.add_comm l (L * r)). reflexivity.
      * exists C''. split; [exact E''|]. split; [auto|]. intros l z Hl Hz'. rewrite H''.
        destruct (Nat.eq_dec z r) as [->|Hne].
        { replace ((L * r <=? L * r + l) && (L * r + l <? L * r + L)) with true by lia.
          rewrite H2' by auto. rewrite Nat.eqb_refl. cbn [sum_n]. replace (L * r + l - L * r) with l by lia. reflexivity. }
        { replace ((L * r <=? L * z + l) && (L * z + l <? L * r + L)) with false.
          - rewrite H2' by auto. replace (z =? r) with false by lia. reflexivity.
          - symmetry. apply andb_false_iff. destruct (Nat.lt_ge_cases z r).
            + left. apply Nat.leb_gt. assert (L * (z + 1) <= L * r) by (apply Nat.mul_le_mono_l; lia). lia.
            + right. apply Nat.ltb_ge. assert (L * (r + 1) <= L * z) by (apply Nat.mul_le_mono_l; lia). lia. }
    + exists C'. split; [exact E'|]. split; [auto|]. intros l z Hl Hz'. rewrite H2' by auto.
      destruct (Nat.eq_dec z r) as [->|Hne].
      * rewrite Nat.eqb_refl. replace (r <? S r) with true by lia. reflexivity.
      * replace (z =? r) with false by lia. rewrite H2 by auto. replace (z <? S r) with (z <? r) by lia. reflexivity.
  - exists C. split; [exact E|]. split; [auto|]. intros l r Hl Hr. rewrite (Nat.add_comm l). rewrite H2 by auto.
    replace (r <? R) with true by lia. reflexivity.
Qed.

Lemma mean_ndx_ok jd junk (t : tensor A) n p l s :
  wf t -> dims t = p ++ l :: s -> s <> [] -> coord (length (dims t)) n (length p) ->
  exists c, mean_ndx N ndiv of_index jd junk t n = Ok c /\ wf c /\ dims c = p ++ s /\
    forall u w, valid p u -> valid s w ->
      elt c (u ++ w) = Some (ndiv (sum_n N l (fun x => val N t (u ++ x :: w))) (of_index l)).
Proof.
  intros Hw E Hs Hn. unfold mean_ndx. cbv zeta.
  assert (Hr : length (dims t) = length p + S (length s)) by (rewrite E, app_length; reflexivity).
  assert (0 < length s) by (destruct s; [congruence|simpl; lia]).
  replace (length (dims t) =? 1) with false by lia.
  rewrite (normalize_ok _ _ _ Hn). cbn [bind].
  destruct (mean_dims_ok jd t p l s E Hs) as (j & Ej). rewrite Ej. cbn [bind].
  assert (Hld : length (data t) = prod p * l * prod s).
  { rewrite Hw, E, nelem_prod by (destruct p; discriminate). rewrite prod_app, prod_cons. lia. }
  assert (E3 : nelem [prod p; l; prod s] = prod p * l * prod s) by (unfold nelem; rewrite !prod_cons; replace (prod []) with 1 by reflexivity; lia).
  assert (E2 : nelem [prod p; prod s] = prod p * prod s) by (unfold nelem; rewrite !prod_cons; replace (prod []) with 1 by reflexivity; lia).
  rewrite reshape_ok by lia. cbn [bind].
  unfold zeros. rewrite fill_ok. cbn [bind data dims]. rewrite new_tensor_len, E2. cbn [new_tensor dims].
  set (L := prod p) in *. set (M := l) in *. set (R := prod s) in *.
  destruct (acc_loop (data t) (repeat (nzero N) (L * R)) L M R) as (C & EC & HlC & HC); auto.
  { apply repeat_length. }
  { intros q. unfold L_Fold.dat. destruct (nth_error (repeat (nzero N) (L * R)) q) eqn:Eq; auto.
    apply nth_error_In in Eq. apply repeat_spec in Eq. auto. }
  match goal with |- context [for_ R ?b (mkT [L; R] ?C0)] =>
    assert (EW : for_ R b (mkT [L; R] C0) = (C' <- for_ R (fun r => for_ M (fun m => for_ L (fun l (C : list A) =>
      o <- rd C (l + L * r) ;; x <- rd (data t) (l + L * (m + M * r)) ;; wr C (l + L * r) (nadd N o x)))) C0 ;; Ok (mkT [L; R] C'))) end.
  { apply (for_wrap (fun C => mkT [L; R] C)). intros r C1 Hr1.
    apply (for_wrap (fun C => mkT [L; R] C)). intros m C2 Hm.
    apply (for_wrap (fun C => mkT [L; R] C)). intros x C3 Hx.
    unfold get2, get3, set2, get_dimensions2, get_dimensions3. cbn [dims data bind].
    rewrite !normalize_nonneg by lia. cbn [bind].
    replace (r * L + x) with (x + L * r) by lia. replace ((r * M + m) * L + x) with (x + L * (m + M * r)) by lia.
    destruct (rd C3 (x + L * r)); cbn [bind]; auto.
    destruct (rd (data t) (x + L * (m + M * r))); cbn [bind]; auto. }
  rewrite EW, EC. cbn [bind].
  assert (Hps : p ++ s <> []) by (destruct p, s; simpl; congruence).
  assert (Hnel : nelem (p ++ s) = L * R) by (rewrite nelem_prod by auto; apply prod_app).
  rewrite reshape_ok by (cbn [data]; lia). cbn [bind data].
  destruct (t_op_n_data ndiv junk (mkT (p ++ s) C) (of_index M)) as (dq & Eq & Hlq & Hq); [unfold wf; cbn [data dims]; lia|].
  cbn [data dims] in *. rewrite Eq.
  eexists; split; [reflexivity|]. split; [unfold wf; cbn [data dims]; lia|]. split; [reflexivity|].
  intros u w Hu Hw'.
  assert (Hv : valid (p ++ s) (u ++ w)) by (apply valid_app; [apply valid_length; auto|auto]).
  rewrite elt_valid by auto. cbn [dims data]. rewrite Hq.
  rewrite (nth_dat N) by (rewrite HlC, <- Hnel, nelem_prod by auto; apply lin_lt; auto).
  cbn [option_map]. rewrite lin_app by (apply valid_length; auto). fold L.
  rewrite HC by (apply lin_lt; auto). do 2 f_equal. apply sum_ext. intros x Hx. unfold val.
  rewrite (wf_dat_elt N); auto.
  - rewrite E, lin_app, lin_cons by (apply valid_length; auto). reflexivity.
  - rewrite E. apply valid_app; [apply valid_length; auto|]. split; auto. apply valid_cons. auto.
  - rewrite E. destruct p; discriminate.
Qed.

Lemma mean_ndx_last jd junk (t : tensor A) n p l :
  dims t = p ++ [l] -> p <> [] -> coord (length (dims t)) n (length p) ->
  mean_ndx N ndiv of_index jd junk t n = UB.
Proof.
  intros E Hp Hn. unfold mean_ndx. cbv zeta.
  assert (Hr : length (dims t) = S (length p)) by (rewrite E, app_length; simpl; lia).
  assert (0 < length p) by (destruct p; [congruence|simpl; lia]).
  replace (length (dims t) =? 1) with false by lia. rewrite (normalize_ok _ _ _ Hn). cbn [bind].
  rewrite (mean_dims_last jd t p l E). reflexivity.
Qed.

Lemma mean_ndx_rank1 jd junk (t : tensor A) n l : dims t = [l] ->
  mean_ndx N ndiv of_index jd junk t n = Ok (mkT [1] [mean N ndiv of_index t]).
Proof. intros E. unfold mean_ndx. rewrite E. reflexivity. Qed.
End Red.

(* ---- order ---- *)
Section Ord.
Context {A R : Type} (lt : R -> R -> bool) (Hlt : strict_total lt).

Lemma lt_false_trans x y z : lt y x = false -> lt z y = false -> lt z x = false.
Proof.
  intros H1 H2. destruct (lt z x) eqn:E; auto. exfalso.
  destruct (lt x y) eqn:Exy.
  - rewrite (st_trans _ Hlt z x y E Exy) in H2. discriminate.
  - assert (x = y) by (apply (st_total _ Hlt); auto). subst. congruence.
Qed.
Lemma lt_asym x y : lt x y = true -> lt y x = false.
Proof. intros H. destruct (lt y x) eqn:E; auto. pose proof (st_trans _ Hlt x y x H E). rewrite (st_irrefl _ Hlt) in H0. discriminate. Qed.

Lemma fold_max (f : A -> R) l : forall z, let m := fold_left (fun o x => if lt o (f x) then f x else o) l z in
  (m = z \/ exists x, In x l /\ m = f x) /\ lt m z = false /\ forall x, In x l -> lt m (f x) = false.
Proof.
  induction l as [|y l IH]; intros z m; simpl in m.
  - unfold m. split; [auto|]. split; [apply (st_irrefl _ Hlt)|]. intros x [].
  - specialize (IH (if lt z (f y) then f y else z)). cbv zeta in IH. fold m in IH. destruct IH as (H1 & H2 & H3).
    assert (Hzy : lt m z = false /\ lt m (f y) = false).
    { destruct (lt z (f y)) eqn:E.
      - split; auto. apply lt_false_trans with (f y); auto. apply lt_asym; auto.
      - split; auto. apply lt_false_trans with z; auto. }
    destruct Hzy as [Hz Hy]. split.
    + destruct H1 as [H1|(x & Hx & Ex)].
      * destruct (lt z (f y)); auto. right. exists y. simpl. auto.
      * right. exists x. simpl. auto.
    + split; [auto|]. intros x [<-|Hx]; auto.
Qed.

Lemma max_ok (t : tensor R) : data t <> [] ->
  exists m, max lt t = Ok m /\ In m (data t) /\ forall x, In x (data t) -> lt m x = false.
Proof.
  intros H. unfold max. destruct (data t) as [|x l]; [congruence|]. cbn [length]. simpl assert_. cbn [bind std_max_element].
  assert (Hm : forall l z, let m := fold_left (fun o x => if lt o x then x else o) l z in
    (m = z \/ In m l) /\ lt m z = false /\ forall x, In x l -> lt m x = false).
  { clear - Hlt. induction l as [|y l IH]; intros z m; simpl in m.
    - unfold m. split; [auto|]. split; [apply (st_irrefl _ Hlt)|]. intros x [].
    - specialize (IH (if lt z y then y else z)). cbv zeta in IH. fold m in IH. destruct IH as (H1 & H2 & H3).
      assert (Hzy : lt m z = false /\ lt m y = false).
      { destruct (lt z y) eqn:E.
        - split; auto. apply lt_false_trans with y; auto. apply lt_asym; auto.
        - split; auto. apply lt_false_trans with z; auto. }
      destruct Hzy. split; [|split; [auto|intros x [<-|Hx]; auto]].
      destruct H1 as [H1|H1]; [|right; simpl; auto]. destruct (lt z y); [right; simpl; auto|auto]. }
  destruct (Hm l x) as (H1 & H2 & H3). eexists; split; [reflexivity|]. split.
  - destruct H1 as [->|H1]; simpl; auto.
  - intros y [<-|Hy]; auto.
Qed.
End Ord.

Lemma flip_total {R} (lt : R -> R -> bool) : strict_total lt -> strict_total (fun x y => lt y x).
Proof.
  intros H. constructor.
  - apply (st_irrefl _ H).
  - intros x y z H1 H2. exact (st_trans _ H _ _ _ H2 H1).
  - intros x y H1 H2. apply (st_total _ H); auto.
Qed.

Lemma min_ok {R} (lt : R -> R -> bool) (Hlt : strict_total lt) (t : tensor R) : data t <> [] ->
  exists m, min lt t = Ok m /\ In m (data t) /\ forall x, In x (data t) -> lt x m = false.
Proof. intros H. exact (max_ok (fun x y => lt y x) (flip_total _ Hlt) t H). Qed.

(* ---- sort ---- *)
Section Srt.
Context {R : Type}.

Lemma total_weak (lt : R -> R -> bool) l : strict_total lt -> strict_weak lt l.
Proof.
  intros H. split; [intros; apply (st_irrefl _ H)|]. split; [intros x y z _ _ _; apply (st_trans _ H)|].
  intros x y z _ _ _ H1 H2 H3 H4. assert (x = y) by (apply (st_total _ H); auto). assert (y = z) by (apply (st_total _ H); auto). subst.
  split; apply (st_irrefl _ H).
Qed.

Lemma ordered_cons (lt : R -> R -> bool) x l : ordered lt (x :: l) <-> (forall y, In y l -> lt y x = false) /\ ordered lt l.
Proof.
  split.
  - intros H. split.
    + intros y Hy. apply In_nth_error in Hy as [j Hj]. apply (H 0 (S j) x y); auto; lia.
    + intros i j a b Hij Ha Hb. apply (H (S i) (S j) a b); auto; lia.
  - intros [H1 H2] i j a b Hij Ha Hb. destruct j; [lia|]. simpl in Hb. destruct i; simpl in Ha.
    + inversion Ha; subst. apply H1. eapply nth_error_In; eauto.
    + apply (H2 i j); auto; lia.
Qed.

Lemma ordered_unique (lt : R -> R -> bool) : strict_total lt -> forall l1 l2,
  ordered lt l1 -> ordered lt l2 -> Permutation l1 l2 -> l1 = l2.
Proof.
  intros Ht. induction l1 as [|x l1 IH]; intros l2 H1 H2 P.
  - apply Permutation_nil in P. auto.
  - destruct l2 as [|y l2]; [apply Permutation_sym, Permutation_nil in P; discriminate|].
    apply ordered_cons in H1 as [H1 H1']. apply ordered_cons in H2 as [H2 H2'].
    assert (x = y).
    { assert (Hx : In x (y :: l2)) by (eapply Permutation_in; [exact P|left; auto]).
      assert (Hy : In y (x :: l1)) by (eapply Permutation_in; [apply Permutation_sym; exact P|left; auto]).
      destruct Hx as [->|Hx]; auto. destruct Hy as [->|Hy]; auto. apply (st_total _ Ht); auto. }
    subst y. f_equal. apply IH; auto. eapply Permutation_cons_inv; eauto.
Qed.

Lemma insert_perm (lt : R -> R -> bool) x l : Permutation (x :: l) (insert lt x l).
Proof.
  induction l as [|y l IH]; simpl; auto. destruct (lt x y); auto.
  eapply Permutation_trans; [apply perm_swap|]. apply perm_skip. auto.
Qed.

Lemma insertion_sort_ok (lt : R -> R -> bool) l : strict_weak lt l ->
  Permutation l (insertion_sort lt l) /\ ordered lt (insertion_sort lt l).
Proof.
  induction l as [|x l IH]; intros Hw.
  - simpl. split; auto. intros i j a b _ Ha. destruct i; discriminate.
  - assert (Hw' : strict_weak lt l).
    { destruct Hw as (W1 & W2 & W3). split; [|split]; [intros a Ha; apply W1; right; auto|intros a b c Ha Hb Hc; apply (W2 a b c); right; auto|intros a b c Ha Hb Hc; apply (W3 a b c); right; auto]. }
    destruct (IH Hw') as [P O]. simpl. split.
    { eapply Permutation_trans; [|apply insert_perm]. apply perm_skip; auto. }
    assert (Hin : forall y, In y (insertion_sort lt l) -> In y l) by (intros y Hy; eapply Permutation_in; [apply Permutation_sym; exact P|auto]).
    fold (insertion_sort lt l). revert O Hin. generalize (insertion_sort lt l) as s. destruct Hw as (W1 & W2 & W3).
    assert (Asym : forall a b, In a (x :: l) -> In b (x :: l) -> lt a b = true -> lt b a = false).
    { intros a b Ha Hb H. destruct (lt b a) eqn:E; auto. assert (Haa := W2 a b a Ha Hb Ha H E). rewrite (W1 a Ha) in Haa. discriminate. }
    assert (NT : forall a b c, In a (x :: l) -> In b (x :: l) -> In c (x :: l) -> lt b a = false -> lt c b = false -> lt c a = false).
    { intros a b c Ha Hb Hc H1 H2. destruct (lt c a) eqn:E; auto. exfalso.
      destruct (lt a b) eqn:Eab; [rewrite (W2 c a b Hc Ha Hb E Eab) in H2; discriminate|].
      destruct (lt b c) eqn:Ebc; [rewrite (W2 b c a Hb Hc Ha Ebc E) in H1; discriminate|].
      destruct (W3 a b c Ha Hb Hc) as [_ E']; auto. congruence. }
    induction s as [|y s IHs]; intros O Hin; simpl.
    + apply ordered_cons. split; auto. intros y [].
    + apply ordered_cons in O as [O1 O2]. assert (Hy : In y (x :: l)) by (right; apply Hin; left; auto).
      assert (Hs : forall z, In z s -> In z (x :: l)) by (intros z Hz; right; apply Hin; right; auto).
      destruct (lt x y) eqn:E.
      * apply ordered_cons. split; [|apply ordered_cons; auto].
        assert (Hx : In x (x :: l)) by (left; auto). intros z [<-|Hz]; [apply Asym; auto|]. apply NT with y; auto.
      * apply ordered_cons. split; [|apply IHs; auto; intros z Hz; apply Hin; right; auto].
        intros z Hz. eapply Permutation_in in Hz; [|apply Permutation_sym, insert_perm].
        destruct Hz as [<-|Hz]; auto.
Qed.
End Srt.

Section Srt2.
Context {R : Type} (lt : R -> R -> bool) (Hlt : strict_total lt).
Context (std_sort : (R -> R -> bool) -> list R -> list R) (Hs : is_std_sort std_sort).
Context (std_sort_ix : (nat -> nat -> bool) -> list nat -> list nat) (Hsi : is_std_sort std_sort_ix).

Definition dirlt (reverse : bool) : R -> R -> bool := if reverse then fun x y => lt y x else lt.
Lemma dirlt_total reverse : strict_total (dirlt reverse).
Proof. destruct reverse; simpl; auto. apply flip_total; auto. Qed.

Lemma sort_ok (v : tensor R) reverse :
  dims (sort lt std_sort v reverse) = dims v /\ Permutation (data v) (data (sort lt std_sort v reverse)) /\
  ordered (dirlt reverse) (data (sort lt std_sort v reverse)).
Proof.
  unfold sort. split; [reflexivity|]. cbn [data].
  destruct (Hs (dirlt reverse) (data v) (total_weak _ _ (dirlt_total reverse))) as [P O].
  destruct reverse; auto.
Qed.

Lemma cmp_weak (f : R -> R -> bool) (d : list R) : strict_total f ->
  strict_weak (cmp_at f d) (seq 0 (length d)).
Proof.
  intros Hf. unfold cmp_at.
  assert (H : forall i, In i (seq 0 (length d)) -> exists x, nth_error d i = Some x).
  { intros i Hi. apply in_seq in Hi. apply nth_error_lt. lia. }
  split; [|split].
  - intros i Hi. destruct (H i Hi) as [x ->]. apply (st_irrefl _ Hf).
  - intros i j k Hi Hj Hk. destruct (H i Hi) as [x ->], (H j Hj) as [y ->], (H k Hk) as [z ->]. apply (st_trans _ Hf).
  - intros i j k Hi Hj Hk. destruct (H i Hi) as [x ->], (H j Hj) as [y ->], (H k Hk) as [z ->]. intros H1 H2 H3 H4.
    assert (x = y) by (apply (st_total _ Hf); auto). assert (y = z) by (apply (st_total _ Hf); auto). subst. split; apply (st_irrefl _ Hf).
Qed.

Lemma map_nth_seq (d : list R) e : map (fun i => nth i d e) (seq 0 (length d)) = d.
Proof.
  apply list_eq_nth_len; rewrite map_length, seq_length; auto. intros i Hi. rewrite nth_error_map_seq by auto.
  symmetry. apply nth_error_nth'. auto.
Qed.

Lemma sort_indices_ok (v : tensor R) reverse e :
  let p := sort_indices lt std_sort_ix v reverse in
  Permutation (seq 0 (length (data v))) p /\
  map (fun i => nth i (data v) e) p = data (sort lt std_sort v reverse).
Proof.
  intros p. set (d := data v).
  assert (Ep : p = if length d =? 0 then [] else std_sort_ix (cmp_at (dirlt reverse) d) (seq 0 (length d))).
  { unfold p, sort_indices. fold d. destruct (length d =? 0); auto. destruct reverse; reflexivity. }
  assert (P : Permutation (seq 0 (length d)) p /\ ordered (cmp_at (dirlt reverse) d) p).
  { rewrite Ep. destruct (Nat.eqb_spec (length d) 0) as [E|E].
    - rewrite E. simpl. split; auto. intros i j a b _ Ha. destruct i; discriminate.
    - apply Hsi. apply cmp_weak. apply dirlt_total. }
  destruct P as [P O]. split; [exact P|].
  destruct (sort_ok v reverse) as (_ & P2 & O2).
  apply (ordered_unique (dirlt reverse)); auto.
  - apply dirlt_total.
  - intros i j x y Hij Hx Hy. rewrite nth_error_map in Hx, Hy.
    destruct (nth_error p i) as [pi|] eqn:Ei; [|discriminate]. destruct (nth_error p j) as [pj|] eqn:Ej; [|discriminate].
    simpl in *. inversion Hx; inversion Hy; subst x y.
    specialize (O i j pi pj Hij Ei Ej). unfold cmp_at in O.
    assert (Hin : forall q i, nth_error p i = Some q -> q < length d).
    { intros q k Hq. apply nth_error_In in Hq. eapply Permutation_in in Hq; [|apply Permutation_sym; exact P]. apply in_seq in Hq. lia. }
    rewrite (nth_error_nth' d e (Hin _ _ Ei)), (nth_error_nth' d e (Hin _ _ Ej)) in O. exact O.
  - eapply Permutation_trans; [|exact P2]. fold d. eapply Permutation_trans; [apply Permutation_map, Permutation_sym; exact P|]. rewrite map_nth_seq. apply Permutation_refl.
Qed.
End Srt2.

(* ---- integers ---- *)
Lemma Zlt_total : strict_total Z.ltb.
Proof. constructor; intros; lia. Qed.

Lemma round_small x : (Z.abs x <= 2 ^ 53)%Z -> round_double x = x.
Proof.
  intros H. unfold round_double. set (e := (Z.log2 (Z.abs x) - 52)%Z).
  destruct (Z.leb_spec e 0); auto.
  assert (Z.abs x = 2 ^ 53)%Z as Habs.
  { destruct (Z.eq_dec (Z.abs x) (2 ^ 53)); auto. exfalso.
    enough (Z.log2 (Z.abs x) < 53)%Z by (unfold e in *; lia).
    destruct (Z.eq_dec (Z.abs x) 0) as [->|]; [simpl; lia|]. apply Z.log2_lt_pow2; lia. }
  assert ((x = 2 ^ 53 \/ x = - 2 ^ 53)%Z) as E by lia. destruct E as [-> | ->]; reflexivity.
Qed.

Lemma round_weak l b : strict_weak (fun x y => if b : bool then (round_double y <? round_double x)%Z else (round_double x <? round_double y)%Z) l.
Proof. destruct b; split; [intros; lia|split; intros; lia|intros; lia|split; intros; lia]. Qed.

Lemma ordered_ext {R} (f g : R -> R -> bool) l : (forall x y, In x l -> In y l -> f x y = g x y) -> ordered f l -> ordered g l.
Proof.
  intros H O i j x y Hij Hx Hy. rewrite <- H by (eapply nth_error_In; eauto). eapply O; eauto.
Qed.

Lemma sort_int_ok std_sort (v : list Z) reverse : is_std_sort std_sort ->
  Permutation v (sort_int std_sort v reverse) /\
  ((forall x, In x v -> (Z.abs x <= 2 ^ 53)%Z) -> ordered (dirlt Z.ltb reverse) (sort_int std_sort v reverse)).
Proof.
  intros Hs. pose proof (Hs _ v (round_weak v reverse)) as [P O].
  assert (E : sort_int std_sort v reverse = std_sort (fun x y => if reverse then (round_double y <? round_double x)%Z else (round_double x <? round_double y)%Z) v)
    by (destruct reverse; reflexivity).
  rewrite E. split; auto. intros Hb. eapply ordered_ext; [|exact O]. intros x y Hx Hy.
  eapply Permutation_in in Hx; [|apply Permutation_sym; exact P]. eapply Permutation_in in Hy; [|apply Permutation_sym; exact P].
  cbv beta. rewrite !round_small by auto. destruct reverse; reflexivity.
Qed.

(* ---- matrix_norminf ---- *)
Section NormInf.
Context {A R : Type} (N : numops R) (NA : numops A) (lt : R -> R -> bool)
  (modulus : A -> R) (H0 : forall x, nadd N (nzero N) (modulus x) = modulus x).

Definition rowsum (m : tensor A) (c i : nat) : R := sum_n N c (fun j => modulus (val NA m [i; j])).

(* any comparison will do: the rows are summed, then the greatest is kept *)
Lemma norminf_fold jaux (m : tensor A) r c : wf m -> dims m = [r; c] -> 0 < c ->
  matrix_norminf lt (nzero N) (nadd N) modulus jaux m =
  Ok (fold_left (fun v i => if lt v (rowsum m c i) then rowsum m c i else v) (seq 0 r) (nzero N)).
Proof.
  intros Hw E Hc. unfold matrix_norminf. rewrite E. cbn [length Nat.eqb assert_ bind].
  rewrite (dimension_ok m [] r [c] 0 E eq_refl : dimension m 0 = Ok r).
  rewrite (dimension_ok m [r] c [] 1 E eq_refl : dimension m 1 = Ok c). cbn [bind].
  assert (Hl := wf_mat m r c Hw E).
  match goal with |- bind (for_ r ?b ?s) _ = _ => destruct (for_inv (fun i (st : list R * nat) =>
     snd st = i /\ length (fst st) = r /\ forall k, k < i -> nth_error (fst st) k = Some (modulus (dat NA (data m) k))) r b s) as ((aux & p) & E1 & P1 & P2 & P3) end.
  { simpl. rewrite length_alloc. repeat split; auto. lia. }
  { intros i (aux & p) Hi (P1 & P2 & P3). cbn [fst snd] in *. subst p. rewrite (rd_dat NA) by nia. cbn [bind].
    rewrite wr_ok by lia. cbn [bind]. eexists; split; [reflexivity|]. cbn [fst snd]. rewrite length_upd. split; [auto|]. split; [auto|].
    intros k Hk. destruct (Nat.eq_dec k i) as [->|]; [apply nth_error_upd_eq; lia|]. rewrite nth_error_upd_ne by auto. apply P3. lia. }
  rewrite E1. cbn [bind].
  assert (Hval : forall i j, i < r -> j < c -> val NA m [i; j] = dat NA (data m) (i + r * j)).
  { intros i j Hi Hj. apply (val_mat NA m r c); auto. }
  match goal with |- bind (for_ (c - 1) ?b ?s) _ = _ => destruct (for_inv (fun j (st : list R * nat) =>
     snd st = r * (S j) /\ length (fst st) = r /\ forall k, k < r -> nth_error (fst st) k = Some (rowsum m (S j) k)) (c - 1) b s) as ((aux2 & p2) & E2 & Q1 & Q2 & Q3) end.
  { cbn [fst snd] in *. split; [lia|]. split; [auto|]. intros k Hk. rewrite P3 by auto. unfold rowsum. cbn [sum_n]. rewrite H0, Hval by lia.
    do 3 f_equal. lia. }
  { intros j (ax & p') Hj (Q1 & Q2 & Q3). cbn [fst snd] in *. subst p'.
    match goal with |- exists s'', for_ r ?b ?s = _ /\ _ => destruct (for_inv (fun i (st : list R * nat) =>
       snd st = r * (S j) + i /\ length (fst st) = r /\ forall k, k < r -> nth_error (fst st) k = Some (rowsum m (if k <? i then S (S j) else S j) k)) r b s) as ((aux3 & p3) & E3 & S1 & S2 & S3) end.
    - cbn [fst snd]. split; [lia|]. split; [auto|]. intros k Hk. rewrite Q3 by auto. reflexivity.
    - intros i (ax3 & p3) Hi (S1 & S2 & S3). cbn [fst snd] in *. subst p3.
      assert (Hb : r * S j + i < length (data m)) by (rewrite Hl; nia).
      rewrite (rd_dat NA) by auto. cbn [bind]. rewrite (rd_ok _ _ _ (S3 i Hi)). cbn [bind]. rewrite wr_ok by lia. cbn [bind].
      eexists; split; [reflexivity|]. cbn [fst snd]. rewrite length_upd. split; [lia|]. split; [auto|].
      intros k Hk. destruct (Nat.eq_dec k i) as [->|].
      + rewrite nth_error_upd_eq by lia. replace (i <? i) with false by lia. replace (i <? S i) with true by lia.
        change (rowsum m (S (S j)) i) with (nadd N (rowsum m (S j) i) (modulus (val NA m [i; S j]))).
        rewrite (Hval i (S j)) by lia. replace (i + r * S j) with (r * S j + i) by lia. reflexivity.
      + rewrite nth_error_upd_ne by auto. rewrite S3 by auto. do 2 f_equal. destruct (Nat.ltb_spec k i), (Nat.ltb_spec k (S i)); lia || auto.
    - rewrite E3. eexists; split; [reflexivity|]. cbn [fst snd] in *. split; [lia|]. split; [auto|].
      intros k Hk. rewrite S3 by auto. replace (k <? r) with true by lia. reflexivity. }
  rewrite E2. cbn [bind fst snd] in *. replace (S (c - 1)) with c in * by lia.
  match goal with |- for_ r ?b ?s = _ => destruct (for_inv (fun i v =>
     v = fold_left (fun v i => if lt v (rowsum m c i) then rowsum m c i else v) (seq 0 i) (nzero N)) r b s) as (v & E3 & ->); [reflexivity| |exact E3] end.
  intros i v Hi ->. rewrite (rd_ok _ _ _ (Q3 i Hi)). cbn [bind]. eexists; split; [reflexivity|]. rewrite seq_S, fold_left_app. reflexivity.
Qed.
End NormInf.
Section NormInfOk.
Context {A R : Type} (N : numops R) (NA : numops A) (lt : R -> R -> bool) (Hlt : strict_total lt)
  (modulus : A -> R) (H0 : forall x, nadd N (nzero N) x = x).
Lemma norminf_ok jaux (m : tensor A) r c : wf m -> dims m = [r; c] -> 0 < c ->
  exists v, matrix_norminf lt (nzero N) (nadd N) modulus jaux m = Ok v /\
    (v = nzero N \/ exists i, i < r /\ v = rowsum N NA modulus m c i) /\ lt v (nzero N) = false /\
    forall i, i < r -> lt v (rowsum N NA modulus m c i) = false.
Proof using Hlt H0.
  intros Hw E Hc. rewrite (norminf_fold N NA lt modulus (fun x => H0 _) jaux m r c Hw E Hc). eexists; split; [reflexivity|].
  set (rs := rowsum N NA modulus m c). clear E Hc Hw.
  induction r as [|i (V1 & V2 & V3)].
  { split; [auto|]. split; [apply (st_irrefl _ Hlt)|]. intros; lia. }
  rewrite seq_S, fold_left_app. cbn [fold_left Nat.add]. set (v := fold_left _ (seq 0 i) _) in *.
    destruct (lt v (rs i)) eqn:El.
    - pose proof (lt_asym lt Hlt _ _ El) as Ha. split; [right; exists i; split; [lia|auto]|]. split.
      + apply (lt_false_trans lt Hlt) with v; auto.
      + intros k Hk. destruct (Nat.eq_dec k i) as [->|]; [apply (st_irrefl _ Hlt)|]. apply (lt_false_trans lt Hlt) with v; auto. apply V3. lia.
    - split; [destruct V1 as [V1|(k & Hk & V1)]; [auto|right; exists k; split; [lia|auto]]|]. split; [auto|].
      intros k Hk. destruct (Nat.eq_dec k i) as [->|]; auto. apply V3. lia.
Qed.
End NormInfOk.

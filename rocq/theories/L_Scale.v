From Verif Require Import Base Spec L_Lin M_Tensor L_Tensor M_Arith M_Fold S_Fold L_Fold L_Arith L_Linspace M_Kron L_Kron M_Scale.

Lemma prod_range_ok p mid s : prod_range (p ++ mid ++ s) (length p) (length p + length mid) = Ok (prod mid).
Proof.
  unfold prod_range. replace (length p + length mid - length p) with (length mid) by lia.
  enough (H : forall n, n <= length mid ->
     for_ n (fun k x => di <- rd (p ++ mid ++ s) (length p + k) ;; Ok (x * di)) 1 = Ok (prod (firstn n mid))).
  { rewrite H by auto. rewrite firstn_all. reflexivity. }
  induction n as [|n IH]; intros Hn; [reflexivity|]. rewrite for_S, IH by lia. cbn [bind].
  destruct (nth_error_lt mid n ltac:(lia)) as [x Hx].
  rewrite (rd_ok _ _ x). 2:{ rewrite nth_error_app2, nth_error_app1 by lia. rewrite Nat.add_comm, Nat.add_sub; auto. }
  cbn [bind]. f_equal.
  apply nth_error_split in Hx as (l1 & l2 & -> & Hl). rewrite <- Hl.
  rewrite (firstn_app (S (length l1))), (firstn_app (length l1)).
  rewrite (@firstn_all2 nat (S (length l1)) l1), (@firstn_all2 nat (length l1) l1) by lia.
  rewrite Nat.sub_diag, Nat.sub_succ_l, Nat.sub_diag by auto. simpl firstn.
  rewrite !prod_app, prod_cons. replace (prod []) with 1 by reflexivity. lia.
Qed.

Lemma surrounding_ok p x s : surrounding_dimensions (p ++ x :: s) (length p) = Ok (prod p, x, prod s).
Proof.
  unfold surrounding_dimensions.
  rewrite (prod_range_ok [] p (x :: s) : prod_range (p ++ x :: s) 0 (length p) = Ok (prod p)). cbn [bind].
  rewrite (rd_ok _ _ x) by (rewrite nth_error_app2 by auto; rewrite Nat.sub_diag; reflexivity). cbn [bind].
  assert (E : prod_range (p ++ x :: s) (S (length p)) (length (p ++ x :: s)) = Ok (prod s)).
  { pose proof (prod_range_ok (p ++ [x]) s []) as H. rewrite app_nil_r, <- app_assoc in H. simpl app in H.
    rewrite app_length in H. simpl length in H. rewrite app_length. simpl length.
    replace (S (length p)) with (length p + 1) by lia. replace (length p + S (length s)) with (length p + 1 + length s) by lia.
    exact H. }
  rewrite E. reflexivity.
Qed.

Section Scale.
Context {A : Type} (N : numops A).
Notation dat := (dat N).

Lemma nth_dat (l : list A) q : q < length l -> nth_error l q = Some (dat l q).
Proof. intros H. destruct (nth_error_lt l q H) as [v Hv]. unfold L_Fold.dat. rewrite Hv. reflexivity. Qed.

Lemma dat_upd (l : list A) i v q : i < length l -> dat (upd l i v) q = if q =? i then v else dat l q.
Proof.
  intros H. unfold L_Fold.dat. rewrite nth_error_upd. replace (i <? length l) with true by lia. rewrite andb_true_r.
  destruct (q =? i); reflexivity.
Qed.

Lemma seq_write_at {C} (f : nat -> C) n (out : list C) (body : nat -> list C * nat -> outcome (list C * nat)) :
  length out = n -> (forall q o, q < n -> length o = n -> body q (o, q) = put (f q) (o, q)) ->
  for_ n body (out, 0) = Ok (map f (seq 0 n), n).
Proof.
  intros Hl Hb. destruct (for_inv (fun m (st : list C * nat) => snd st = m /\ length (fst st) = n /\
     forall q, q < m -> nth_error (fst st) q = Some (f q)) n body (out, 0)) as ((d & p) & E & H1 & H2 & H3).
  - simpl. repeat split; auto; lia.
  - intros i (o & p) Hi (H1 & H2 & H3). simpl in *. subst p.
    rewrite Hb by auto. unfold put. rewrite wr_ok by lia. cbn [bind].
    eexists; split; [reflexivity|]. simpl. split; [auto|]. split; [rewrite length_upd; auto|].
    intros q Hq. destruct (Nat.eq_dec q i) as [->|Hne].
    + rewrite nth_error_upd_eq by lia. auto.
    + rewrite nth_error_upd_ne by auto. apply H3; lia.
  - simpl in *. subst p. rewrite E. do 2 f_equal. apply list_eq_nth_len; [rewrite map_length, seq_length; auto|].
    intros q Hq. rewrite H3 by lia. symmetry. apply nth_error_map_seq. lia.
Qed.

Lemma inplace_at (g : nat -> A -> A) n (d : list A) (body : nat -> list A * nat -> outcome (list A * nat)) :
  length d = n -> (forall q o, q < n -> length o = n -> body q (o, q) = Ok (upd o q (g q (dat o q)), S q)) ->
  exists d', for_ n body (d, 0) = Ok (d', n) /\ length d' = n /\ forall q, q < n -> dat d' q = g q (dat d q).
Proof.
  intros Hl Hb. destruct (for_inv (fun m (st : list A * nat) => snd st = m /\ length (fst st) = n /\
     (forall q, dat (fst st) q = if q <? m then g q (dat d q) else dat d q)) n body (d, 0)) as ((d' & p) & E & H1 & H2 & H3).
  - simpl. repeat split; auto; lia.
  - intros i (o & p) Hi (H1 & H2 & H3). simpl in *. subst p.
    rewrite Hb by auto. eexists; split; [reflexivity|]. simpl. split; [auto|]. split; [rewrite length_upd; auto|].
    intros q. rewrite dat_upd by lia. destruct (Nat.eq_dec q i) as [->|Hne].
    + rewrite Nat.eqb_refl. replace (i <? S i) with true by lia. rewrite H3. replace (i <? i) with false by lia. reflexivity.
    + replace (q =? i) with false by lia. rewrite H3. replace (q <? S i) with (q <? i) by lia. reflexivity.
  - simpl in *. subst p. exists d'. split; [auto|]. split; [auto|]. intros q Hq. rewrite H3. replace (q <? n) with true by lia. reflexivity.
Qed.

(* updating a block of w consecutive positions *)
Lemma blockloop (u : nat -> A -> A) base w n (C : list A) (body : nat -> list A -> outcome (list A)) :
  length C = n -> base + w <= n ->
  (forall q o, q < w -> length o = n -> body q o = wr o (base + q) (u q (dat o (base + q)))) ->
  exists C', for_ w body C = Ok C' /\ length C' = n /\
    forall p, dat C' p = if (base <=? p) && (p <? base + w) then u (p - base) (dat C p) else dat C p.
Proof.
  intros Hl Hw Hb. destruct (for_inv (fun m (o : list A) => length o = n /\
     (forall p, dat o p = if (base <=? p) && (p <? base + m) then u (p - base) (dat C p) else dat C p)) w body C) as (C' & E & H1 & H2).
  - split; auto. intros p. replace ((base <=? p) && (p <? base + 0)) with false by lia. reflexivity.
  - intros i o Hi (H1 & H2). rewrite Hb, wr_ok by (auto; lia). eexists; split; [reflexivity|]. split; [rewrite length_upd; auto|].
    intros p. rewrite dat_upd by lia. destruct (Nat.eq_dec p (base + i)) as [->|Hne].
    + rewrite Nat.eqb_refl. rewrite H2. replace ((base <=? base + i) && (base + i <? base + i)) with false by lia.
      replace ((base <=? base + i) && (base + i <? base + S i)) with true by lia. f_equal; lia.
    + replace (p =? base + i) with false by lia. rewrite H2.
      replace ((base <=? p) && (p <? base + S i)) with ((base <=? p) && (p <? base + i)) by lia. reflexivity.
  - eauto.
Qed.

Lemma wf_dat_elt (t : tensor A) ix : valid (dims t) ix -> wf t -> dims t <> [] -> elt t ix = Some (dat (data t) (lin (dims t) ix)).
Proof.
  intros Hv Hw Hne. rewrite elt_valid by auto. apply nth_dat. rewrite Hw, nelem_prod by auto. apply lin_lt; auto.
Qed.

(* ---- scale ---- *)
Lemma doscale_ok (Hc : forall x y, nmul N x y = nmul N y x) out d v d1 d2 d3 :
  length out = d3 * d2 * d1 -> length d = d3 * d2 * d1 -> length v = d2 ->
  doscale N out d v d1 d2 d3 = Ok (map (fun q => nmul N (dat d q) (dat v ((q / d1) mod d2))) (seq 0 (d3 * d2 * d1))).
Proof.
  intros Ho Hd Hv. unfold doscale.
  destruct (Nat.eq_dec d1 1) as [->|Hd1].
  - simpl Nat.eqb. cbv iota. rewrite Nat.mul_1_r in *. rewrite for_nest.
    rewrite (seq_write_at (fun q => nmul N (dat d q) (dat v ((q / 1) mod d2)))); auto.
    intros q o Hq Hl. cbn [snd]. assert (Hd2 : d2 <> 0) by (intros ->; lia).
    rewrite (rd_dat N) by lia. cbn [bind]. rewrite (rd_dat N) by (rewrite Hv; apply Nat.mod_upper_bound; auto).
    cbn [bind]. rewrite Nat.div_1_r. reflexivity.
  - replace (d1 =? 1) with false by lia.
    set (body := fun i (st : list A * nat) => r <- rd v i ;; x <- rd d (snd st) ;; put (nmul N r x) st).
    assert (E : for_ d3 (fun _ : nat => for_ d2 (fun i st => r <- rd v i ;;
         for_ d1 (fun _ (st : list A * nat) => x <- rd d (snd st) ;; put (nmul N r x) st) st)) (out, 0)
       = for_ d3 (fun _ => for_ d2 (fun i => for_ d1 (fun _ => body i))) (out, 0)).
    { apply for_ext. intros m st _. apply for_ext. intros i st' Hi. unfold body.
      rewrite (rd_dat N) by lia. cbn [bind]. apply for_ext. intros j st'' _. reflexivity. }
    rewrite E, !for_nest.
    rewrite (seq_write_at (fun q => nmul N (dat d q) (dat v ((q / d1) mod d2)))); auto.
    intros q o Hq Hl. assert (Hd2 : d2 <> 0) by (intros ->; lia). assert (d1 <> 0) by (intros ->; lia).
    unfold body. cbn [snd].
    rewrite (rd_dat N) by (rewrite Hv; apply Nat.mod_upper_bound; auto). cbn [bind].
    rewrite (rd_dat N) by lia. cbn [bind]. rewrite Hc. reflexivity.
Qed.

Lemma doscale_inplace_ok d v d1 d2 d3 :
  length d = d3 * d2 * d1 -> length v = d2 ->
  exists d', doscale_inplace N d v d1 d2 d3 = Ok d' /\ length d' = length d /\
    forall q, q < length d -> dat d' q = nmul N (dat d q) (dat v ((q / d1) mod d2)).
Proof.
  intros Hd Hv.
  set (mul := fun r (st : list A * nat) => let (d, p1) := st in x <- rd d p1 ;; d' <- wr d p1 (nmul N x r) ;; Ok (d', S p1)).
  set (g := fun q x => nmul N x (dat v ((q / d1) mod d2))).
  set (body := fun i (st : list A * nat) => r <- rd v i ;; mul r st).
  assert (E : (if d1 =? 1 then for_ d3 (fun _ : nat => for_ d2 body) (d, 0)
     else for_ d3 (fun _ : nat => for_ d2 (fun i st => r <- rd v i ;; for_ d1 (fun _ => mul r) st)) (d, 0))
     = for_ d3 (fun _ => for_ d2 (fun i => for_ d1 (fun _ => body i))) (d, 0)).
  { destruct (Nat.eq_dec d1 1) as [->|Hd1].
    - simpl Nat.eqb. cbv iota. apply for_ext. intros m st _. apply for_ext. intros i st' Hi. rewrite for_S. reflexivity.
    - replace (d1 =? 1) with false by lia. apply for_ext. intros m st _. apply for_ext. intros i st' Hi. unfold body.
      rewrite (rd_dat N) by lia. cbn [bind]. apply for_ext. intros j st'' _. reflexivity. }
  assert (E0 : doscale_inplace N d v d1 d2 d3 =
     ('(d', _) <- (if d1 =? 1 then for_ d3 (fun _ : nat => for_ d2 body) (d, 0)
     else for_ d3 (fun _ : nat => for_ d2 (fun i st => r <- rd v i ;; for_ d1 (fun _ => mul r) st)) (d, 0)) ;; Ok d')) by reflexivity.
  rewrite E0, E, !for_nest.
  destruct (inplace_at g (d3 * d2 * d1) d (fun q => body ((q / d1) mod d2))) as (d' & E' & Hl & H); auto.
  - intros q o Hq Ho. assert (Hd2 : d2 <> 0) by (intros ->; lia).
    unfold body, mul. rewrite (rd_dat N) by (rewrite Hv; apply Nat.mod_upper_bound; auto). cbn [bind].
    rewrite (rd_dat N) by lia. cbn [bind]. rewrite wr_ok by lia. reflexivity.
  - rewrite E'. cbn [bind]. exists d'. split; [auto|]. split; [lia|]. intros q Hq. apply H; lia.
Qed.

Lemma scale_common (t v : tensor A) p l s d' :
  wf t -> wf v -> dims t = p ++ l :: s -> dims v = [l] -> length d' = length (data t) ->
  (forall q, q < length (data t) -> dat d' q = nmul N (dat (data t) q) (dat (data v) ((q / prod p) mod l))) ->
  wf (mkT (dims t) d') /\
  forall u x w, valid p u -> x < l -> valid s w ->
      elt (mkT (dims t) d') (u ++ x :: w) = Some (nmul N (val N t (u ++ x :: w)) (val N v [x])).
Proof.
  intros Ht Hv Et Ev Hl H. split; [unfold wf; simpl; rewrite Hl; auto|].
  intros u x w Hu Hx Hw.
  assert (Hval : valid (dims t) (u ++ x :: w)).
  { rewrite Et. apply valid_app; [apply valid_length; auto|]. split; auto. apply valid_cons; auto. }
  rewrite (val_dat N t p l s) by auto. rewrite (val_vec N v l) by auto.
  rewrite elt_valid by auto. cbn [dims data].
  assert (Hlin : lin (dims t) (u ++ x :: w) = lin p u + prod p * (x + l * lin s w)).
  { rewrite Et, lin_app by (apply valid_length; auto). rewrite lin_cons. reflexivity. }
  assert (Hlt : lin (dims t) (u ++ x :: w) < length (data t)).
  { rewrite Ht, nelem_prod by (rewrite Et; destruct p; discriminate). apply lin_lt; auto. }
  rewrite nth_dat by lia. rewrite H by auto. f_equal. rewrite Hlin.
  rewrite mix_div by (apply lin_lt; auto). rewrite mix_mod by auto. reflexivity.
Qed.

Lemma scale_ok (Hc : forall x y, nmul N x y = nmul N y x) junk (t v : tensor A) n p l s :
  wf t -> wf v -> dims t = p ++ l :: s -> coord (length (dims t)) n (length p) -> dims v = [l] ->
  exists c, scale N junk t n v = Ok c /\ wf c /\ dims c = dims t /\
    forall u x w, valid p u -> x < l -> valid s w ->
      elt c (u ++ x :: w) = Some (nmul N (val N t (u ++ x :: w)) (val N v [x])).
Proof.
  intros Ht Hv Et Hn Ev. unfold scale. rewrite (normalize_ok _ _ _ Hn). cbn [bind].
  assert (Es : surrounding_dimensions (dims t) (length p) = Ok (prod p, l, prod s)) by (rewrite Et; apply surrounding_ok).
  rewrite Es. cbn [bind].
  assert (Hlv := wf_vec v l Hv Ev). rewrite Hlv, Nat.eqb_refl. cbn [negb].
  assert (Hlt : length (data t) = prod s * l * prod p) by (rewrite (wf_len3 t p l s); auto; ring).
  rewrite (doscale_ok Hc); auto. 2:{ rewrite new_tensor_len, <- Ht; auto. }
  cbn [bind]. eexists; split; [reflexivity|].
  destruct (scale_common t v p l s (map (fun q => nmul N (dat (data t) q) (dat (data v) ((q / prod p) mod l))) (seq 0 (prod s * l * prod p))))
    as [H1 H2]; auto.
  { rewrite map_length, seq_length; auto. }
  intros q Hq. unfold L_Fold.dat at 1. rewrite nth_error_map_seq by lia. reflexivity.
Qed.

Lemma scale_inplace_ok (t v : tensor A) n p l s :
  wf t -> wf v -> dims t = p ++ l :: s -> coord (length (dims t)) n (length p) -> dims v = [l] ->
  exists c, scale_inplace N t n v = Ok c /\ wf c /\ dims c = dims t /\
    forall u x w, valid p u -> x < l -> valid s w ->
      elt c (u ++ x :: w) = Some (nmul N (val N t (u ++ x :: w)) (val N v [x])).
Proof.
  intros Ht Hv Et Hn Ev. unfold scale_inplace. rewrite (normalize_ok _ _ _ Hn). cbn [bind].
  assert (Es : surrounding_dimensions (dims t) (length p) = Ok (prod p, l, prod s)) by (rewrite Et; apply surrounding_ok).
  rewrite Es. cbn [bind].
  assert (Hlv := wf_vec v l Hv Ev). rewrite Hlv, Nat.eqb_refl. cbn [negb].
  destruct (doscale_inplace_ok (data t) (data v) (prod p) l (prod s)) as (d' & E & Hl & H); auto.
  { rewrite (wf_len3 t p l s); auto; ring. }
  rewrite E. cbn [bind]. eexists; split; [reflexivity|].
  destruct (scale_common t v p l s d') as [H1 H2]; auto.
Qed.

Lemma scale_reject_size junk (t v : tensor A) n p l s :
  dims t = p ++ l :: s -> coord (length (dims t)) n (length p) -> wf v -> nelem (dims v) <> l ->
  scale N junk t n v = Abort /\ scale_inplace N t n v = Abort.
Proof.
  intros Et Hn Hv Hne. unfold scale, scale_inplace. rewrite (normalize_ok _ _ _ Hn). cbn [bind].
  rewrite Et. rewrite surrounding_ok. cbn [bind]. rewrite Hv. replace (l =? nelem (dims v)) with false by lia. auto.
Qed.

Lemma scale_reject_index junk (t v : tensor A) n : (forall p, ~ coord (length (dims t)) n p) ->
  scale N junk t n v = Abort /\ scale_inplace N t n v = Abort.
Proof. intros H. unfold scale, scale_inplace. rewrite (not_coord_normalize _ _ H). auto. Qed.

(* ---- change_dimension ---- *)
Lemma upd_app (p : list nat) x y s : upd (p ++ x :: s) (length p) y = p ++ y :: s.
Proof. induction p; simpl; congruence. Qed.

Lemma memcpy_ok (src : list A) ps pd n (C : list A) : pd + n <= length C -> ps + n <= length src ->
  exists C', memcpy src ps pd n C = Ok C' /\ length C' = length C /\
    forall p, dat C' p = if (pd <=? p) && (p <? pd + n) then dat src (ps + (p - pd)) else dat C p.
Proof.
  intros H1 H2. unfold memcpy. apply (blockloop (fun q _ => dat src (ps + q))); auto.
  intros q o Hq Ho. rewrite (rd_dat N) by lia. reflexivity.
Qed.

Lemma change_dimension_ok junk (a : tensor A) n k p l s :
  wf a -> dims a = p ++ l :: s -> coord (length (dims a)) n (length p) ->
  exists c, change_dimension N junk a n k = Ok c /\ wf c /\ dims c = p ++ k :: s /\
    forall u x w, valid p u -> x < k -> valid s w ->
      elt c (u ++ x :: w) = if x <? l then elt a (u ++ x :: w) else Some (nzero N).
Proof.
  intros Ha Ea Hn. unfold change_dimension. rewrite (normalize_ok _ _ _ Hn). cbn [bind].
  rewrite (rd_ok (dims a) (length p) l) by (rewrite Ea, nth_error_app2 by auto; rewrite Nat.sub_diag; reflexivity). cbn [bind].
  destruct (Nat.eq_dec l k) as [E|Hne].
  { subst l. rewrite Nat.eqb_refl. exists a. split; [auto|]. split; [auto|]. split; [auto|].
    intros u x w Hu Hx Hw. replace (x <? k) with true by lia. reflexivity. }
  replace (l =? k) with false by lia.
  rewrite wr_ok by (rewrite Ea, app_length; simpl; lia). cbn [bind].
  assert (Eu : upd (dims a) (length p) k = p ++ k :: s) by (rewrite Ea; apply upd_app). rewrite Eu.
  rewrite (dimension_ok a p l s) by auto. cbn [bind].
  assert (Hout : exists o, (if l <? k then fill_with (new_tensor junk (p ++ k :: s)) (nzero N) else Ok (new_tensor junk (p ++ k :: s))) = Ok o /\
      length (data o) = prod p * k * prod s /\ (l < k -> forall q, dat (data o) q = nzero N)).
  { assert (Hlen : nelem (p ++ k :: s) = prod p * k * prod s).
    { rewrite nelem_prod by (destruct p; discriminate). rewrite prod_app, prod_cons; ring. }
    destruct (l <? k) eqn:Elk.
    - rewrite fill_ok. eexists; split; [reflexivity|]. cbn [data dims]. rewrite repeat_length, new_tensor_len. split; [auto|].
      intros _ q. unfold L_Fold.dat. destruct (nth_error (repeat (nzero N) (nelem (p ++ k :: s))) q) eqn:Eq; auto.
      apply nth_error_In in Eq. apply repeat_spec in Eq. auto.
    - eexists; split; [reflexivity|]. rewrite new_tensor_len. split; [auto|]. intros; lia. }
  destruct Hout as (o & Eo & Hlo & Ho). rewrite Eo. cbn [bind]. rewrite surrounding_ok. cbn [bind].
  assert (Hla : length (data a) = prod p * l * prod s) by (apply wf_len3; auto).
  set (P := prod p) in *. set (S_ := prod s) in *. set (w := Nat.min (k * P) (l * P)).
  destruct (for_inv (fun m (C : list A) => length C = P * k * S_ /\
      forall z r, r < k * P -> z < S_ -> dat C (k * P * z + r) = if (z <? m) && (r <? w) then dat (data a) (l * P * z + r) else dat (data o) (k * P * z + r))
      S_ (fun z => memcpy (data a) (l * P * z) (k * P * z) w) (data o)) as (C & EC & HlC & HC).
  { split; [auto|]. intros. replace (z <? 0) with false by lia. reflexivity. }
  { intros m C Hm (HlC & HC).
    destruct (memcpy_ok (data a) (l * P * m) (k * P * m) w C) as (C' & E' & Hl' & H').
    { rewrite HlC. assert (w <= k * P) by apply Nat.le_min_l. nia. }
    { rewrite Hla. assert (w <= l * P) by apply Nat.le_min_r. nia. }
    exists C'. split; [auto|]. split; [lia|]. intros z r Hr Hz. rewrite H'.
    destruct (Nat.eq_dec z m) as [->|Hzm].
    - replace (m <? S m) with true by lia.
      replace (k * P * m <=? k * P * m + r) with true by lia.
      replace (k * P * m + r <? k * P * m + w) with (r <? w) by lia. simpl andb.
      destruct (r <? w); [f_equal; lia|]. rewrite HC by auto. replace (m <? m) with false by lia. reflexivity.
    - replace ((k * P * m <=? k * P * z + r) && (k * P * z + r <? k * P * m + w)) with false.
      + rewrite HC by auto. replace (z <? S m) with (z <? m) by lia. reflexivity.
      + symmetry. apply andb_false_iff.
        assert (w <= k * P) by apply Nat.le_min_l.
        destruct (Nat.lt_ge_cases z m).
        * left. apply Nat.leb_gt. assert (k * P * (z + 1) <= k * P * m) by (apply Nat.mul_le_mono_l; lia). lia.
        * right. apply Nat.ltb_ge. assert (k * P * (m + 1) <= k * P * z) by (apply Nat.mul_le_mono_l; lia). lia. }
  rewrite EC. cbn [bind]. eexists; split; [reflexivity|].
  assert (Hw : wf (mkT (p ++ k :: s) C)).
  { unfold wf; cbn [data dims]. rewrite HlC, nelem_prod by (destruct p; discriminate). rewrite prod_app, prod_cons. unfold P, S_; ring. }
  split; [exact Hw|]. split; [reflexivity|]. intros u x v Hu Hx Hv.
  assert (Hlu : lin p u < P) by (apply lin_lt; auto). assert (Hlv : lin s v < S_) by (apply lin_lt; auto).
  rewrite wf_dat_elt; auto.
  2:{ cbn [dims]. apply valid_app; [apply valid_length; auto|]. split; auto. apply valid_cons; auto. }
  2:{ cbn [dims]. destruct p; discriminate. }
  cbn [data dims]. rewrite lin_app, lin_cons by (apply valid_length; auto). fold P.
  replace (lin p u + P * (x + k * lin s v)) with (k * P * lin s v + (lin p u + P * x)) by ring.
  assert (Hr : lin p u + P * x < P * k) by (apply mix_lt; auto).
  rewrite HC by (auto; lia). replace (lin s v <? S_) with true by lia. simpl andb.
  destruct (Nat.lt_ge_cases x l) as [Hxl|Hxl].
  - replace (x <? l) with true by lia.
    assert (lin p u + P * x < P * l) by (apply mix_lt; auto).
    replace (lin p u + P * x <? w) with true by (unfold w; lia).
    rewrite wf_dat_elt; auto.
    2:{ rewrite Ea. apply valid_app; [apply valid_length; auto|]. split; auto. apply valid_cons; auto. }
    2:{ rewrite Ea. destruct p; discriminate. }
    rewrite Ea, lin_app, lin_cons by (apply valid_length; auto). fold P. do 2 f_equal. ring.
  - replace (x <? l) with false by lia.
    assert (P * l <= P * x) by (apply Nat.mul_le_mono_l; auto).
    replace (lin p u + P * x <? w) with false by (unfold w; lia). rewrite Ho by lia. reflexivity.
Qed.

Lemma change_dimension_reject junk (a : tensor A) n k : (forall p, ~ coord (length (dims a)) n p) ->
  change_dimension N junk a n k = Abort.
Proof. intros H. unfold change_dimension. rewrite (not_coord_normalize _ _ H). auto. Qed.
End Scale.

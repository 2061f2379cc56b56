(* C75 and C87 for files of any contents: the Python and the Matlab readers. *)
From Verif Require Import Base Spec S_Reduce S_Sdf S_Pysdf S_Matsdf M_Sdf M_Pysdf M_Matsdf.
Local Open Scope Z_scope.

(* an array with as many elements as its shape says *)
Definition full {E} (a : tensor E) : Prop := length (data a) = fold_right Nat.mul 1%nat (dims a).
Definition full_py (o : pyobj) : Prop := match o with PyReal a => full a | PyComplex a => full a | PyNil => True end.
Definition full_mat (o : mobj) : Prop := match o with MReal a => full a | MComplex a => full a end.

Section Any.
Context (host_big : bool) (maxdims : nat) (decode : list Z -> option (list Z)) (junk : nat -> nat -> Z).
Definition good {X} (P : X -> Prop) (r : outcome X) : Prop := match r with Ok x => P x | Abort => True | _ => False end.
Lemma good_bind {X Y} (P : X -> Prop) (Q : Y -> Prop) (e : outcome X) (f : X -> outcome Y) :
  good P e -> (forall x, P x -> good Q (f x)) -> good Q (bind e f).
Proof using Type. destruct e; cbn; auto; contradiction. Qed.
Notation left_ s := (length (prest s)).
Lemma good_readinto k n s : good (fun r => length (fst r) = (k * Z.to_nat n)%nat /\ (left_ (snd r) <= left_ s)%nat /\ longs (snd r) = longs s) (py_readinto junk k n s).
Proof using Type.
  unfold py_readinto. destruct (_ || _); [exact I|]. cbn [good fst snd prest longs]. rewrite skipn_length. split; [|split; [lia|auto]].
  rewrite app_length, skipn_length, firstn_length. unfold alloc. rewrite map_length, seq_length. lia.
Qed.
Lemma elements_length k n bs : length (elements host_big k n bs) = n.
Proof using Type. revert bs. induction n; intros; cbn; auto. Qed.
Lemma good_longs n s : good (fun r => length (fst r) = Z.to_nat n /\ (left_ (snd r) <= left_ s)%nat) (read_longs host_big junk n s).
Proof using Type.
  unfold read_longs. eapply good_bind; [apply good_readinto|]. intros [bs s'] (H & L & El). cbn [fst snd] in *. destruct (interpret s'); [exact I|].
  cbn [good fst snd]. rewrite map_length, elements_length. auto.
Qed.
Lemma good_long s : good (fun r => (left_ (snd r) <= left_ s)%nat) (read_long host_big junk s).
Proof using Type.
  unfold read_long. eapply good_bind; [apply good_longs|]. intros [[|x l] s'] [H L]; [discriminate|]. exact L.
Qed.
Lemma good_ndarray {X} ds (b : list X) : good (fun a => length (data a) = fold_right Nat.mul 1%nat (dims a)) (np_ndarray maxdims ds b).
Proof using Type.
  clear host_big decode junk. unfold np_ndarray. destruct (maxdims <? length ds)%nat; [exact I|]. destruct (existsb _ ds) eqn:E; [exact I|]. destruct (_ <? _) eqn:L; [exact I|]. cbn [good data dims].
  assert (P : forall ds, existsb (fun d => d <? 0) ds = false -> 0 <= fold_right Z.mul 1 ds /\ Z.to_nat (fold_right Z.mul 1 ds) = fold_right Nat.mul 1%nat (map Z.to_nat ds)).
  { clear. induction ds as [|d ds IH]; [split; [cbn; lia|reflexivity]|]. cbn [existsb fold_right map]. intros H. apply orb_false_iff in H. destruct H as [H1 H2]. apply Z.ltb_ge in H1. destruct (IH H2) as [I1 I2].
    split; [apply Z.mul_nonneg_nonneg; auto|]. rewrite Z2Nat.inj_mul by auto. rewrite I2. reflexivity. }
  destruct (P ds E) as [P1 P2]. apply Z.ltb_ge in L. rewrite firstn_length_le by lia. exact P2.
Qed.
Lemma good_tensor c s : good (fun r => full_py (fst r) /\ (left_ (snd r) <= left_ s)%nat) (load_tensor host_big maxdims junk c s).
Proof using Type.
  clear decode. unfold load_tensor. eapply good_bind; [apply good_long|]. intros [rank s1] H1. cbn [snd] in H1.
  eapply good_bind; [apply good_longs|]. intros [ds s2] [_ H2]. cbn [snd] in H2. eapply good_bind; [apply good_long|]. intros [L s3] H3. cbn [snd] in H3.
  destruct c; (eapply good_bind; [unfold read_complex, read_doubles; eapply good_bind; [apply good_readinto|]; intros [bs s'] (Hl & Hs & _); cbn [snd] in Hs; destruct (interpret s');
    [instantiate (1 := fun r => (left_ (snd r) <= left_ s3)%nat); exact I|exact Hs]|]; intros [d s4] H4; cbn [snd] in H4; eapply good_bind; [apply good_ndarray|]; intros a Ha; cbn [good fst snd full_py]; split; [auto|lia]).
Qed.
Lemma good_char n i : good (fun _ => True) (char n i).
Proof using Type. unfold char. destruct nth_error; exact I. Qed.
Lemma good_tag s : good (fun r => (left_ (snd r) <= left_ s)%nat /\ ((snd (fst r)) <> -1 -> (left_ (snd r) < left_ s)%nat)) (load_tag host_big decode junk s).
Proof using Type.
  clear maxdims. unfold load_tag, py_read. destruct (_ =? 0)%nat eqn:E0.
  - cbn [good fst snd prest]. rewrite skipn_length. split; [lia|]. intros H; contradiction H; reflexivity.
  - assert (L0 : (0 < left_ s)%nat) by (rewrite firstn_length in E0; lia).
    eapply good_bind with (P := fun _ => True). { unfold is_header. eapply good_bind; [apply good_char|]. intros c0 _. destruct (negb _); [exact I|]. eapply good_bind; [apply good_char|]. intros c1 _. destruct (negb _); [exact I|]. eapply good_bind; [apply good_char|]. intros; exact I. }
    intros h _. eapply good_bind with (P := fun r => (left_ (snd r) < left_ s)%nat).
    { destruct h.
      - eapply good_bind; [apply good_char|]. intros c4 _. eapply good_bind with (P := fun _ => True). { destruct (c4 =? 52); [exact I|]. destruct (c4 =? 56); exact I. } intros k _.
        eapply good_bind; [apply good_char|]. intros c5 _. cbn [good snd prest]. rewrite !skipn_length. lia.
      - cbn [good snd prest]. rewrite skipn_length. lia. }
    intros [n s1] H1. cbn [snd] in H1. destruct (decode (cstr n)); [|exact I]. eapply good_bind; [apply good_long|]. intros [c s2] H2. cbn [good fst snd] in *. lia.
Qed.
Lemma good_record depth : forall s, good (fun r => full_py (fst (fst r)) /\ (left_ (snd r) <= left_ s)%nat /\ (snd (fst r) <> [] -> (left_ (snd r) < left_ s)%nat)) (load_record host_big maxdims decode junk depth s).
Proof using Type.
  induction depth as [|depth IH]; intros s; [exact I|]. cbn [load_record]. eapply good_bind; [apply good_tag|]. intros [[name code] s1] [H1 H1']. cbn [fst snd] in *.
  destruct (Z.eqb_spec code (-1)) as [->|N]; [cbn [good fst snd full_py]; split; [exact I|]; split; [auto|congruence]|]. specialize (H1' N).
  destruct (code =? 0); [eapply good_bind; [apply good_tensor|]; intros [o s2] [A B]; cbn [good fst snd] in *; split; [auto|lia]|].
  destruct (code =? 1); [eapply good_bind; [apply good_tensor|]; intros [o s2] [A B]; cbn [good fst snd] in *; split; [auto|lia]|].
  destruct (_ || _); [|exact I]. eapply good_bind; [apply good_long|]. intros [L s2] H2. cbn [snd] in H2.
  eapply good_bind with (P := fun s3 => (left_ s3 <= left_ s2)%nat).
  - generalize (Z.to_nat L) as n. revert s2 H2. clear L. intros s2 _ n. revert s2. induction n as [|n IHn]; intros s2; cbn [repeat_load good]; [lia|].
    eapply good_bind; [apply IH|]. intros [[o nm] s3] (_ & A & _). cbn [fst snd] in A. specialize (IHn s3). destruct (repeat_load _ n s3); cbn in *; auto; lia.
  - intros s3 H3. cbn [good fst snd full_py]. split; [exact I|lia].
Qed.
Lemma good_set d n o : Forall (fun e => full_py (snd e)) d -> full_py o -> Forall (fun e => full_py (snd e)) (set_item d n o).
Proof using Type.
  intros H Ho. induction H as [|[m v] d Hv Hd IH]; cbn [set_item]; [repeat constructor; auto|]. destruct list_eq_dec; constructor; auto.
Qed.
Lemma good_loop depth : forall fuel d s, Forall (fun e => full_py (snd e)) d -> (left_ s < fuel)%nat ->
  good (Forall (fun e => full_py (snd e))) (load_loop host_big maxdims decode junk depth fuel d s).
Proof using Type.
  induction fuel as [|fuel IH]; intros d s Hd Hf; [lia|]. cbn [load_loop]. eapply good_bind; [apply good_record|]. intros [[o n] s1] (Ho & H1 & H2). cbn [fst snd] in *.
  destruct n as [|c n]; [exact Hd|]. apply IH; [apply good_set; auto|]. specialize (H2 ltac:(discriminate)). lia.
Qed.
End Any.
(* Whatever the bytes of the file, the Python reader returns a dictionary of
   arrays with as many elements as their shapes say, or raises an exception. *)
Theorem C75_any_file : forall host_big maxdims decode junk depth file,
  (exists d, py_load host_big maxdims decode junk depth file = Ok d /\ forall name o, get_item d name = Some o -> full_py o) \/
  py_load host_big maxdims decode junk depth file = Abort.
Proof.
  intros. unfold py_load. pose proof (good_loop host_big maxdims decode junk depth (S (length file)) [] (mkP file 4 false 0) (Forall_nil _) ltac:(cbn [prest]; lia)) as G.
  destruct (load_loop _ _ _ _ _ _ _ _) as [d| | |]; cbn in G; try contradiction; [left|right; reflexivity]. exists d. split; [reflexivity|].
  intros name o. induction G as [|[n v] d Hv G IH]; cbn [get_item]; [discriminate|]. destruct list_eq_dec; [intros [= <-]; exact Hv|exact IH].
Qed.
Print Assumptions C75_any_file.

(* ---- Matlab ---- *)
Lemma good_numbers k n s : good (fun r => (length (mrest (snd r)) <= length (mrest s))%nat /\ Z.of_nat (length (fst r)) <= Z.max 0 n) (fread_numbers k n s).
Proof.
  unfold fread_numbers. destruct (big_endian s); [|exact I]. destruct (Z.ltb_spec n 0); [exact I|]. cbn [good fst snd mrest]. rewrite skipn_length, elements_length. lia.
Qed.
Lemma good_mlongs n s : good (fun r => (length (mrest (snd r)) <= length (mrest s))%nat /\ n <= Z.of_nat (length (fst r))) (mat_longs n s).
Proof.
  unfold mat_longs. eapply good_bind; [apply good_numbers|]. intros [ws s'] [H1 H2]. cbn [fst snd] in *. destruct (Z.ltb_spec (Z.of_nat (length ws)) n); [exact I|].
  cbn [good fst snd]. rewrite map_length. auto.
Qed.
Lemma good_mlong s : good (fun r => (length (mrest (snd r)) <= length (mrest s))%nat) (mat_long s).
Proof.
  unfold mat_long. eapply good_bind; [apply good_mlongs|]. intros [[|x l] s'] [H1 H2]; cbn [fst snd length] in *; [lia|]. exact H1.
Qed.
Notation prod := (fold_right Nat.mul 1%nat).
Lemma prod_strip_ones l : prod (strip_ones l) = prod l.
Proof.
  induction l as [|d l IH]; [reflexivity|]. cbn [strip_ones fold_right]. rewrite <- IH. destruct (strip_ones l) as [|e l']; [|reflexivity].
  destruct (Nat.eqb_spec d 1) as [->|]; reflexivity.
Qed.
Lemma prod_strip l : prod (strip l) = prod l.
Proof. destruct l as [|a [|b l]]; [reflexivity|reflexivity|]. cbn [strip fold_right]. rewrite prod_strip_ones. reflexivity. Qed.
Lemma good_reshape {E} ds (l : list E) : good full (reshape ds l).
Proof.
  unfold reshape. destruct (existsb _ ds) eqn:X; [exact I|]. destruct (Z.eqb_spec (fold_right Z.mul 1 ds) (Z.of_nat (length l))) as [H|]; [|exact I]. cbn [negb good full data dims]. unfold full. cbn [data dims].
  rewrite prod_strip. apply Nat2Z.inj. rewrite <- H. clear H l. induction ds as [|d ds IH]; [reflexivity|]. cbn [existsb] in X. apply orb_false_iff in X. destruct X as [X1 X2].
  apply orb_false_iff in X1. destruct X1 as [X1 _]. apply Z.ltb_ge in X1. cbn [map fold_right]. rewrite Nat2Z.inj_mul, <- IH by auto. rewrite Z2Nat.id by auto. reflexivity.
Qed.
Lemma column_full {E} (l : list E) : full (column l).
Proof. unfold full, column. cbn [data dims]. destruct (Nat.eqb_spec (length l) 0) as [H|]; cbn [fold_right]; lia. Qed.
Lemma good_mtensor c s : good (fun r => full_mat (fst (fst r)) /\ (length (mrest (snd r)) <= length (mrest s))%nat) (mat_tensor c s).
Proof.
  unfold mat_tensor. eapply good_bind; [apply good_mlong|]. intros [rank s1] H1. cbn [snd] in H1.
  eapply good_bind; [apply good_mlongs|]. intros [ds s2] [H2 _]. cbn [snd] in H2. eapply good_bind; [apply good_mlong|]. intros [L s3] H3. cbn [snd] in H3.
  destruct c; (eapply good_bind; [apply good_numbers|]; intros [ws s4] [H4 _]; cbn [snd] in H4).
  - destruct (Nat.odd _); [exact I|]. eapply good_bind with (P := full); [destruct (1 <? rank); [apply good_reshape|apply column_full]|]. intros a Ha. cbn [good fst snd full_mat]. split; [auto|lia].
  - eapply good_bind with (P := full); [destruct (1 <? rank); [apply good_reshape|apply column_full]|]. intros a Ha. cbn [good fst snd full_mat]. split; [auto|lia].
Qed.
Lemma good_mchar n i : good (fun _ => True) (mchar n i).
Proof. unfold mchar. destruct nth_error; exact I. Qed.
Lemma good_mtag s : good (fun r => (length (mrest (snd r)) <= length (mrest s))%nat /\ ((snd (fst r)) <> -1 -> (length (mrest (snd r)) < length (mrest s))%nat)) (mat_tag s).
Proof.
  unfold mat_tag, fread_chars. eapply good_bind with (P := fun _ => True). { unfold mat_header. destruct (_ =? 0)%nat; [exact I|]. destruct (_ <? 3)%nat; exact I. }
  intros h _. eapply good_bind with (P := fun r => (length (mrest (snd r)) <= length (mrest s))%nat /\ (at_eof (snd r) = false -> (length (mrest (snd r)) < length (mrest s))%nat)).
  { destruct h.
    - eapply good_bind; [apply good_mchar|]. intros c4 _. eapply good_bind with (P := fun _ => True). { destruct (c4 =? 52); [exact I|]. destruct (c4 =? 56); exact I. } intros k _.
      eapply good_bind; [apply good_mchar|]. intros c5 _. cbn [good snd mrest at_eof]. rewrite !skipn_length. split; [lia|]. intros H. apply orb_false_iff in H. destruct H as [H _]. apply orb_false_iff in H. destruct H as [_ H]. apply Nat.ltb_ge in H. lia.
    - cbn [good snd mrest at_eof]. rewrite skipn_length. split; [lia|]. intros H. apply orb_false_iff in H. destruct H as [_ H]. apply Nat.ltb_ge in H. lia. }
  intros [n s1] [H1 H2]. cbn [snd] in *. destruct (at_eof s1).
  - cbn [good fst snd]. split; [auto|]. intros H; contradiction H; reflexivity.
  - specialize (H2 eq_refl). eapply good_bind; [apply good_mlong|]. intros [c s2] H3. cbn [good fst snd] in *. lia.
Qed.
Lemma good_mrecord depth : forall s, good (fun r => full_mat (fst (fst (fst r))) /\ (length (mrest (snd r)) <= length (mrest s))%nat /\
  (snd (fst (fst r)) <> [] \/ mempty (fst (fst (fst r))) = false -> (length (mrest (snd r)) < length (mrest s))%nat)) (mat_record_load depth s).
Proof.
  induction depth as [|depth IH]; intros s; [exact I|]. cbn [mat_record_load]. eapply good_bind; [apply good_mtag|]. intros [[name code] s1] [H1 H1']. cbn [fst snd] in *.
  destruct (Z.eqb_spec code (-1)) as [->|N]; [cbn [good fst snd]; split; [reflexivity|]; split; [auto|intros [H|H]; [congruence|discriminate]]|]. specialize (H1' N).
  destruct (code =? 0); [eapply good_bind; [apply good_mtensor|]; intros [[o ds] s2] [A B]; cbn [good fst snd] in *; split; [auto|lia]|].
  destruct (code =? 1); [eapply good_bind; [apply good_mtensor|]; intros [[o ds] s2] [A B]; cbn [good fst snd] in *; split; [auto|lia]|].
  destruct (_ || _); [|exact I]. eapply good_bind; [apply good_mlong|]. intros [L s2] H2. cbn [snd] in H2.
  eapply good_bind with (P := fun s3 => (length (mrest s3) <= length (mrest s2))%nat).
  - generalize (Z.to_nat L) as n. clear H2 L. intros n. revert s2. induction n as [|n IHn]; intros s2; cbn [mat_repeat good]; [lia|].
    eapply good_bind; [apply IH|]. intros [[[o nm] ds] s3] (_ & A & _). cbn [fst snd] in A. specialize (IHn s3). destruct (mat_repeat _ n s3); cbn in *; auto; lia.
  - intros s3 H3. cbn [good fst snd]. split; [reflexivity|lia].
Qed.
Lemma prod_nth a : forall n, (length a <= n)%nat -> prod (map (fun i => nth i a 1%nat) (seq 0 n)) = prod a.
Proof.
  induction a as [|d a IH]; intros n H.
  - assert (E : forall k m, prod (map (fun i => nth i (@nil nat) 1%nat) (seq k m)) = 1%nat). { intros k m; revert k. induction m as [|m IHm]; intros k; [reflexivity|]. cbn [seq map fold_right]. rewrite IHm. destruct k; reflexivity. }
    apply E.
  - destruct n as [|n]; [cbn in H; lia|]. cbn [seq map fold_right nth]. rewrite <- (IH n) by (cbn in H; lia). f_equal. rewrite <- seq_shift, map_map. reflexivity.
Qed.
Lemma prod_cat (f g : nat -> nat) p : forall n k, (k <= p < k + n)%nat -> (forall i, (k <= i < k + n)%nat -> i <> p -> f i = g i) ->
  prod (map (fun i => if (i =? p)%nat then (f i + g i)%nat else f i) (seq k n)) = (prod (map f (seq k n)) + prod (map g (seq k n)))%nat.
Proof.
  assert (T : forall n k, (p < k)%nat -> (forall i, (k <= i < k + n)%nat -> f i = g i) ->
    prod (map (fun i => if (i =? p)%nat then (f i + g i)%nat else f i) (seq k n)) = prod (map f (seq k n)) /\ prod (map g (seq k n)) = prod (map f (seq k n))).
  { induction n as [|n IH]; intros k Hk H; [split; reflexivity|]. cbn [seq map fold_right]. destruct (Nat.eqb_spec k p); [lia|]. rewrite (H k) by lia. destruct (IH (S k)) as [E1 E2]; [lia|intros; apply H; lia|]. rewrite E1, E2. split; reflexivity. }
  induction n as [|n IH]; intros k Hp H; [lia|]. cbn [seq map fold_right]. destruct (Nat.eqb_spec k p) as [->|N].
  - destruct (T n (S p)) as [E1 E2]; [lia|intros; apply H; lia|]. rewrite E1, E2. lia.
  - rewrite IH by (try lia; intros; apply H; lia). rewrite (H k) by lia. lia.
Qed.
Lemma good_cat l a b : full_mat a -> full_mat b -> good full_mat (mat_cat l a b).
Proof.
  intros Ha Hb. unfold mat_cat. destruct (Nat.eqb_spec l 0) as [L0|L0]; [exact I|]. destruct list_eq_dec as [Ea|Ea]; [exact Hb|]. destruct list_eq_dec as [Eb|Eb]; [exact Ha|].
  eapply good_bind with (P := fun ds => prod ds = (prod (msize a) + prod (msize b))%nat).
  - unfold cat_dims. cbv zeta. set (n := Nat.max l _). destruct (forallb _ _) eqn:F; [|exact I]. cbn [good]. rewrite prod_strip.
    rewrite (prod_cat (fun i => nth i (msize a) 1%nat) (fun i => nth i (msize b) 1%nat) (l - 1)); [|unfold n; lia|].
    + rewrite !prod_nth by (unfold n; lia). reflexivity.
    + intros i Hi Hp. rewrite forallb_forall in F. specialize (F i ltac:(apply in_seq; lia)). apply orb_true_iff in F. destruct F as [F|F]; apply Nat.eqb_eq in F; [lia|auto].
  - intros ds Hd. destruct a as [x|x], b as [y|y]; cbn [full_mat msize good mcomplex] in *; unfold full in *; cbn [data dims] in *; rewrite app_length, ?map_length; lia.
Qed.
Lemma good_store d n ds o : Forall (fun e => full_mat (snd e)) d -> full_mat o -> good (Forall (fun e => full_mat (snd e))) (mat_store d n ds o).
Proof.
  intros Hd Ho. unfold mat_store. eapply good_bind with (P := full_mat).
  - destruct (get_item d n) as [old|] eqn:G; [|exact Ho]. cbv zeta. apply good_cat; [|exact Ho]. induction Hd as [|[m v] d Hv Hd IH]; [discriminate|]. cbn [get_item] in G. destruct list_eq_dec; [injection G as <-; exact Hv|auto].
  - intros o' Ho'. destruct (valid_field n); [|exact I]. cbn [good]. induction Hd as [|[m v] d Hv Hd IH]; cbn [set_item]; [repeat constructor; auto|]. destruct list_eq_dec; constructor; auto.
Qed.
Lemma good_mloop depth : forall fuel d s, Forall (fun e => full_mat (snd e)) d -> (length (mrest s) < fuel)%nat -> good (Forall (fun e => full_mat (snd e))) (mat_loop depth fuel d s).
Proof.
  induction fuel as [|fuel IH]; intros d s Hd Hf; [lia|]. cbn [mat_loop]. destruct (at_eof s); [exact Hd|]. eapply good_bind; [apply good_mrecord|]. intros [[[o n] ds] s1] (Ho & H1 & H2). cbn [fst snd] in *.
  destruct n as [|c n]; [destruct (mempty o) eqn:E; [exact Hd|]; apply IH; [exact Hd|]; specialize (H2 (or_intror eq_refl)); lia|].
  eapply good_bind; [apply good_store; [exact Hd|exact Ho]|]. intros d' Hd'. apply IH; [exact Hd'|]. assert (Hc : c :: n <> []) by discriminate. specialize (H2 (or_introl Hc)). lia.
Qed.
(* The Matlab reader returns a struct of arrays with as many elements as their
   sizes say, or reports an error, whatever earlier calls have left in its globals. *)
Theorem C87_any_file_partial : forall tag endian depth file,
  (exists d, mat_load tag endian depth file = Ok d /\ forall name o, get_item d name = Some o -> full_mat o) \/
  mat_load tag endian depth file = Abort.
Proof.
  intros. unfold mat_load. pose proof (good_mloop depth (S (length file)) [] (mkM file tag endian false) (Forall_nil _) ltac:(cbn [mrest]; lia)) as G.
  destruct (mat_loop _ _ _ _) as [d| | |]; cbn in G; try contradiction; [left|right; reflexivity]. exists d. split; [reflexivity|].
  intros name o. induction G as [|[n v] d Hv G IH]; cbn [get_item]; [discriminate|]. destruct list_eq_dec; [intros [= <-]; exact Hv|exact IH].
Qed.
Print Assumptions C87_any_file_partial.

(* Non-vacuity: bytes that are no data file, and a file cut within its header. *)
Example any_file_meets : forall decode junk,
  py_load false 32 decode junk 9 [115; 100] = Abort /\ mat_load 8 (Some false) 9 [115; 100] = Abort /\
  (* a record of a code that does not exist *)
  py_load false 32 Some (fun _ _ => 0) 9 (repeat 1 80) = Abort /\ mat_load 8 (Some false) 9 (repeat 1 80) = Abort.
Proof. intros decode junk. split; [reflexivity|]. split; [vm_compute; reflexivity|]. split; vm_compute; reflexivity. Qed.

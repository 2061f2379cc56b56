(* Lemmas for P_Pysdf: datasets. *)
From Verif Require Import Base Spec S_Sdf S_Pysdf M_Sdf L_Lin L_Sdf L_Sdf2 M_Pysdf L_Pysdf.
From Coq Require Import Permutation.

Lemma concat_nth {E} (ls : list (list E)) n k l i : Forall (fun l => length l = n) ls -> nth_error ls k = Some l -> i < n ->
  nth_error (concat ls) (i + n * k) = nth_error l i.
Proof.
  intros H. revert k. induction H as [|l' ls Hl H IH]; intros k Hk Hi; [destruct k; discriminate|]. cbn [concat]. destruct k as [|k]; cbn [nth_error] in Hk.
  - injection Hk as ->. rewrite Nat.mul_0_r, Nat.add_0_r. apply nth_error_app1. lia.
  - rewrite nth_error_app2 by lia. rewrite <- (IH k) by auto. f_equal. lia.
Qed.
Lemma valid_snoc sh ix n k : k < n -> (valid (sh ++ [n]) (ix ++ [k]) <-> valid sh ix).
Proof.
  intros Hk. split; intros H.
  - assert (L := valid_length _ _ H). rewrite !app_length in L. cbn in L. apply valid_app in H; [|lia]. tauto.
  - apply valid_app; [apply valid_length; auto|]. split; auto. repeat constructor; auto.
Qed.
Lemma stack_elt {E} sh (ls : list (list E)) k l ix : Forall (fun l => length l = prod sh) ls -> nth_error ls k = Some l ->
  elt (mkT (sh ++ [length ls]) (concat ls)) (ix ++ [k]) = elt (mkT sh l) ix.
Proof.
  intros H Hk. unfold elt. cbn [dims data]. assert (Lk : k < length ls) by (apply nth_error_Some; congruence).
  destruct (validb sh ix) eqn:V.
  - apply validb_iff in V. assert (V' : validb (sh ++ [length ls]) (ix ++ [k]) = true) by (apply validb_iff, valid_snoc; auto). rewrite V'.
    rewrite lin_app by (apply valid_length; auto). cbn [lin]. rewrite Nat.mul_0_r, Nat.add_0_r. apply concat_nth; auto. apply lin_lt. auto.
  - destruct (validb (sh ++ [length ls]) (ix ++ [k])) eqn:V'; [|reflexivity]. apply validb_iff, valid_snoc in V'; auto. apply validb_iff in V'. congruence.
Qed.
(* arrays with as many elements as the shape says *)
Definition awf (o : pyobj) : Prop := match o with PyReal a => length (data a) = prod (dims a) | PyComplex a => length (data a) = prod (dims a) | PyNil => True end.
Lemma np_stack_ok maxdims o objs : o <> PyNil -> awf o -> (forall o', In o' objs -> o' <> PyNil /\ awf o' /\ np_shape o' = np_shape o) -> length (np_shape o) < maxdims ->
  exists a, np_stack maxdims o objs = Ok a /\ stacked (o :: objs) a.
Proof.
  intros Ho Hw Hs Hm. set (all := o :: objs). assert (HA : forall o', In o' all -> o' <> PyNil /\ awf o' /\ np_shape o' = np_shape o).
  { intros o' [<-|H]; auto. }
  assert (SH : forall o', o' <> PyNil -> shape_of o' = np_shape o') by (intros [a|a|] N; auto; contradiction).
  unfold np_stack. rewrite (SH o Ho). assert (F : forallb (fun o' => if list_eq_dec Nat.eq_dec (shape_of o') (np_shape o) then true else false) objs = true).
  { apply forallb_forall. intros o' I. destruct (Hs o' I) as (N & _ & E). rewrite SH by auto. destruct (list_eq_dec _ _ _); auto. }
  rewrite F. cbn [negb]. replace (maxdims <=? length (np_shape o)) with false by lia. fold all.
  assert (LL : S (length objs) = length all) by reflexivity. rewrite LL.
  destruct (existsb is_complex all) eqn:EC.
  - eexists. split; [reflexivity|]. split; [|split].
    + intros o' I. cbn [np_shape dims]. destruct (HA o' I) as (_ & _ & ->). reflexivity.
    + cbn [np_complex]. split; [intros _|auto]. apply existsb_exists in EC. destruct EC as (o' & I & C). exists o'. split; auto. destruct o'; cbn in *; try discriminate; auto.
    + intros k o' ix Hk. cbn [np_number]. rewrite <- (map_length complex_of all). rewrite (stack_elt _ _ k (complex_of o')).
      * assert (I : In o' all) by (eapply nth_error_In; eauto). destruct (HA o' I) as (N & W & S). destruct o' as [a|a|]; [| |contradiction]; cbn in *; rewrite <- S; unfold elt; cbn; destruct (validb _ _); auto.
        rewrite nth_error_map. reflexivity.
      * apply Forall_map, Forall_forall. intros o'' I. destruct (HA o'' I) as (N & W & S). destruct o'' as [a|a|]; [| |contradiction]; cbn in *; rewrite <- S; [rewrite map_length|]; auto.
      * apply map_nth_error. auto.
  - eexists. split; [reflexivity|]. assert (NC : forall o', In o' all -> is_complex o' = false).
    { intros o' I. destruct (is_complex o') eqn:C; auto. assert (existsb is_complex all = true) by (apply existsb_exists; eauto). congruence. }
    split; [|split].
    + intros o' I. cbn [np_shape dims]. destruct (HA o' I) as (_ & _ & ->). reflexivity.
    + cbn [np_complex]. split; [tauto|]. intros (o' & I & C). specialize (NC o' I). destruct o'; cbn in *; auto; discriminate.
    + intros k o' ix Hk. cbn [np_number]. rewrite <- (map_length reals_of all). rewrite (stack_elt _ _ k (reals_of o')).
      * assert (I : In o' all) by (eapply nth_error_In; eauto). destruct (HA o' I) as (N & W & S). specialize (NC o' I). destruct o' as [a|a|]; [|discriminate|contradiction]. cbn in *. rewrite <- S. reflexivity.
      * apply Forall_map, Forall_forall. intros o'' I. destruct (HA o'' I) as (N & W & S). specialize (NC o'' I). destruct o'' as [a|a|]; [|discriminate|contradiction]. cbn in *. rewrite <- S. auto.
      * apply map_nth_error. auto.
Qed.

Lemma mapM_in {A B} (f : A -> outcome B) l l' : Forall2 (fun x y => f x = Ok y) l l' -> mapM f l = Ok l'.
Proof. induction 1 as [|x y l l' E H IH]; [reflexivity|]. cbn. rewrite E. cbn. rewrite IH. reflexivity. Qed.

Lemma mapM_abort {A B} (f : A -> outcome B) l : (forall x, In x l -> f x = Abort \/ exists y, f x = Ok y) ->
  (mapM f l = Abort \/ exists l', mapM f l = Ok l') /\ ((exists x, In x l /\ f x = Abort) -> mapM f l = Abort).
Proof.
  induction l as [|x l IH]; intros H; cbn [mapM].
  - split; [right; exists []; reflexivity|intros (x & [] & _)].
  - destruct IH as [IH1 IH2]; [intros; apply H; right; auto|]. destruct (H x (or_introl eq_refl)) as [E|[y E]]; rewrite E; cbn [bind].
    + split; [left|]; reflexivity.
    + split.
      * destruct IH1 as [->|[l' ->]]; cbn [bind]; [left; reflexivity|right; eexists; reflexivity].
      * intros (z & [<-|I] & Ez); [congruence|]. rewrite IH2 by eauto. reflexivity.
Qed.
(* one name cannot be combined *)
Definition clash (first : dict) (others : list dict) (name : list Z) : Prop :=
  exists o, get_item first name = Some o /\
    ((exists d, In d others /\ get_item d name = None) \/
     (o <> PyNil /\ exists d o', In d others /\ get_item d name = Some o' /\ match o' with PyNil => [0%nat] | _ => np_shape o' end <> np_shape o)).
Lemma combine_abort maxdims first others names :
  (forall name, In name names -> get_item first name <> None) ->
  (combine_loop maxdims first others names = Abort \/ exists l, combine_loop maxdims first others names = Ok l) /\
  ((exists name, In name names /\ clash first others name) -> combine_loop maxdims first others names = Abort).
Proof.
  induction names as [|n names IH]; intros H; cbn [combine_loop].
  - split; [right; eexists; reflexivity|intros (x & [] & _)].
  - destruct IH as [IH1 IH2]; [intros; apply H; right; auto|].
    destruct (get_item first n) as [o|] eqn:Eo; [|exfalso; apply (H n (or_introl eq_refl)); auto].
    assert (Ei : item first n = Ok o) by (unfold item; rewrite Eo; reflexivity). rewrite Ei. cbn [bind].
    assert (HI : forall d, In d others -> item d n = Abort \/ exists y, item d n = Ok y).
    { intros d _. unfold item. destruct (get_item d n); [right; eexists; reflexivity|left; reflexivity]. }
    destruct (mapM_abort (fun d => item d n) others HI) as [M1 M2].
    destruct M1 as [M1|[objs M1]].
    { rewrite M1. cbn [bind]. split; [left; reflexivity|reflexivity]. }
    rewrite M1. cbn [bind].
    assert (C : forall q, (np_stack maxdims q objs = Abort \/ exists a, np_stack maxdims q objs = Ok a)).
    { intros q. unfold np_stack. destruct (negb _); [left; reflexivity|]. destruct (maxdims <=? _)%nat; [left; reflexivity|].
      destruct (existsb is_complex (q :: objs)); right; eexists; reflexivity. }
    assert (D : (match o with PyNil => Ok (PyList (o :: objs)) | _ => a <- np_stack maxdims o objs ;; Ok (PyArray a) end) = Abort \/
                exists c, (match o with PyNil => Ok (PyList (o :: objs)) | _ => a <- np_stack maxdims o objs ;; Ok (PyArray a) end) = Ok c).
    { destruct (C o) as [E|[a E]]; destruct o; rewrite ?E; cbn [bind]; eauto. }
    assert (CL : clash first others n -> (match o with PyNil => Ok (PyList (o :: objs)) | _ => a <- np_stack maxdims o objs ;; Ok (PyArray a) end) = Abort).
    { intros (o1 & Eo1 & K). assert (o1 = o) by congruence. subst o1. destruct K as [(d & I & E)|(No & d & o' & I & E & Ns)].
      - exfalso. rewrite M2 in M1; [discriminate|]. exists d. split; auto. unfold item. rewrite E. reflexivity.
      - assert (I' : In o' objs).
        { clear - M1 I E. revert objs M1. induction others as [|d0 l IH]; intros objs M1; [contradiction|]. cbn [mapM] in M1.
          unfold item in M1 at 1. destruct (get_item d0 n) as [y|] eqn:Ey; [|discriminate]. cbn [bind] in M1.
          destruct (mapM (fun d => item d n) l) as [ys| | |] eqn:Em; try discriminate. cbn [bind] in M1. injection M1 as <-.
          destruct I as [<-|I]; [left; congruence|right; apply IH; auto]. }
        assert (SH : forall o', o' <> PyNil -> shape_of o' = np_shape o') by (intros [a|a|] N; auto; contradiction).
        assert (NS : np_stack maxdims o objs = Abort).
        { unfold np_stack. rewrite (SH o No). destruct (forallb _ objs) eqn:Ef; [|reflexivity]. exfalso.
          rewrite forallb_forall in Ef. specialize (Ef o' I'). replace (shape_of o') with (match o' with PyNil => [0%nat] | _ => np_shape o' end) in Ef by (destruct o'; reflexivity).
          match type of Ef with (if ?t then _ else _) = _ => destruct t end; [contradiction|discriminate]. }
        rewrite NS. destruct o; try contradiction; reflexivity. }
    split.
    + destruct D as [->|[c ->]]; cbn [bind]; [left; reflexivity|]. destruct IH1 as [->|[l ->]]; cbn [bind]; eauto.
    + intros (name & [<-|I] & K).
      * rewrite CL by auto. reflexivity.
      * destruct D as [->|[c ->]]; cbn [bind]; [reflexivity|]. rewrite IH2 by eauto. reflexivity.
Qed.
Lemma combine_ok maxdims first others names :
  (forall name, In name names -> exists o objs, get_item first name = Some o /\ Forall2 (fun d o' => get_item d name = Some o') others objs /\
     (o <> PyNil -> awf o /\ length (np_shape o) < maxdims /\ forall o', In o' objs -> o' <> PyNil /\ awf o' /\ np_shape o' = np_shape o)) ->
  exists l, combine_loop maxdims first others names = Ok l /\
    forall name, (In name names -> exists objs c, Forall2 (fun d o' => get_item d name = Some o') (first :: others) objs /\ get_item l name = Some c /\ column objs c) /\
    (~ In name names -> get_item l name = None).
Proof.
  induction names as [|n names IH]; intros H.
  - exists []. split; [reflexivity|]. intros name. split; [intros []|reflexivity].
  - destruct IH as (l & El & Hl); [intros name I; apply H; right; auto|]. destruct (H n (or_introl eq_refl)) as (o & objs & Eo & Eobjs & Hs).
    cbn [combine_loop]. unfold item at 1. rewrite Eo. cbn [bind].
    rewrite (mapM_in _ others objs). 2:{ clear - Eobjs. induction Eobjs as [|d o' ? ? E]; constructor; auto. unfold item. rewrite E. reflexivity. }
    cbn [bind].
    assert (C : exists c, (match o with PyNil => Ok (PyList (o :: objs)) | _ => a <- np_stack maxdims o objs ;; Ok (PyArray a) end) = Ok c /\ column (o :: objs) c).
    { destruct o as [a|a|]; [| |exists (PyList (PyNil :: objs)); split; reflexivity].
      - destruct Hs as (W & L & S); [discriminate|]. destruct (np_stack_ok maxdims (PyReal a) objs) as (b & E & St); auto; [discriminate|]. exists (PyArray b). rewrite E. split; [reflexivity|]. exists b. auto.
      - destruct Hs as (W & L & S); [discriminate|]. destruct (np_stack_ok maxdims (PyComplex a) objs) as (b & E & St); auto; [discriminate|]. exists (PyArray b). rewrite E. split; [reflexivity|]. exists b. auto. }
    destruct C as (c & Ec & Cc). rewrite Ec. cbn [bind]. rewrite El. cbn [bind]. eexists. split; [reflexivity|]. intros name. cbn [get_item].
    destruct (list_eq_dec Z.eq_dec n name) as [<-|N]; split.
    + intros _. exists (o :: objs), c. auto.
    + intros NI. exfalso. apply NI. left. auto.
    + intros [E|I]; [contradiction|]. destruct (Hl name) as [K _]. auto.
    + intros NI. destruct (Hl name) as [_ K]. apply K. intros I. apply NI. right. auto.
Qed.
Lemma keys_get {V} (d : list (list Z * V)) name : In name (map fst d) <-> get_item d name <> None.
Proof.
  induction d as [|[n o] d IH]; cbn [map fst In get_item]; [split; [intros []|congruence]|]. destruct (list_eq_dec Z.eq_dec n name) as [->|N].
  - split; [discriminate|auto].
  - rewrite <- IH. split; [intros [E|I]; [contradiction|auto]|auto].
Qed.
Lemma array_awf {E} (Pe : E -> Prop) maxdims (t : stored E) : ok_tensor Pe t -> py_shape maxdims t -> length (data (array_of t)) = prod (dims (array_of t)).
Proof.
  intros (H1 & H2 & H3 & H4 & H5) [[L1 L2] Hd]. unfold array_of. cbn [dims data].
  assert (E0 : existsb (fun d => d <? 0)%Z (sdims t) = false).
  { clear - Hd. induction Hd as [|d l H Hd IH]; [reflexivity|]. cbn. rewrite IH. replace (d <? 0)%Z with false by lia. reflexivity. }
  unfold size_of in H3. rewrite E0 in H3. assert (H3' : Z.of_nat (length (selts t)) = fold_right Z.mul 1%Z (sdims t)) by (destruct (sdims t); [cbn in L1; lia|auto]).
  clear - H3' Hd. apply Nat2Z.inj. rewrite H3'. clear H3'. induction Hd as [|d l H Hd IH]; [reflexivity|]. cbn. rewrite Nat2Z.inj_mul. unfold prod in IH. rewrite <- IH, Z2Nat.id by auto. reflexivity.
Qed.
Lemma python_awf maxdims v : ok_value v -> py_value maxdims v -> awf (as_python double_bits v).
Proof. destruct v; cbn [ok_value py_value as_python awf]; intros; auto; eapply array_awf; eauto. Qed.
Lemma last_value_in rs name v : last_value rs name = Some v -> In (name, v) rs.
Proof.
  induction rs as [|[n w] rs IH]; cbn [last_value]; [discriminate|]. destruct (last_value rs name) as [w'|]; [intros [= ->]; right; auto|].
  destruct (list_eq_dec Z.eq_dec n name) as [->|]; [intros [= ->]; left; auto|discriminate].
Qed.

(* stable sorting has one result *)
Section Sort.
Context {T : Type} (key : T -> Z).
Fixpoint insert (x : T) (l : list T) : list T :=
  match l with [] => [x] | y :: l => if (key x <=? key y)%Z then x :: y :: l else y :: insert x l end.
Definition isort (l : list T) : list T := fold_right insert [] l.
Inductive incr : list T -> Prop :=
| incr_nil : incr []
| incr_cons x l : (forall y, In y l -> (key x <= key y)%Z) -> incr l -> incr (x :: l).
Lemma incr_iff l : incr l <-> forall i j x y, i < j -> nth_error l i = Some x -> nth_error l j = Some y -> (key x <= key y)%Z.
Proof using Type.
  split.
  - induction 1 as [|x l H1 H IH]; intros i j a b Hij Ha Hb; [destruct i; discriminate|]. destruct j as [|j]; [lia|]. cbn in Hb. destruct i as [|i]; cbn in Ha.
    + injection Ha as <-. apply H1. eapply nth_error_In; eauto.
    + apply (IH i j); auto. lia.
  - induction l as [|x l IH]; intros H; constructor.
    + intros y I. apply In_nth_error in I. destruct I as (j & Hj). apply (H 0 (S j)); auto. lia.
    + apply IH. intros i j a b Hij Ha Hb. apply (H (S i) (S j)); auto. lia.
Qed.
Lemma insert_perm x l : Permutation (x :: l) (insert x l).
Proof using Type. induction l as [|y l IH]; cbn [insert]; [auto|]. destruct (key x <=? key y)%Z; [auto|]. rewrite perm_swap. auto. Qed.
Lemma insert_incr x l : incr l -> incr (insert x l).
Proof using Type.
  induction 1 as [|y l H1 H IH]; cbn [insert]; [constructor; [intros ? []|constructor]|]. destruct (Z.leb_spec (key x) (key y)).
  - constructor; [|constructor; auto]. intros z [<-|I]; auto. specialize (H1 z I). lia.
  - constructor; auto. intros z I. eapply Permutation_in in I; [|apply Permutation_sym, insert_perm]. destruct I as [<-|I]; auto; lia.
Qed.
Lemma insert_filter k x l : filter (fun z => key z =? k)%Z (insert x l) = filter (fun z => key z =? k)%Z (x :: l).
Proof using Type.
  induction l as [|y l IH]; [reflexivity|]. cbn [insert]. destruct (Z.leb_spec (key x) (key y)); [reflexivity|]. cbn [filter] in *. rewrite IH.
  destruct (Z.eqb_spec (key y) k), (Z.eqb_spec (key x) k); auto. lia.
Qed.
Lemma isort_stable l : stably_sorted key l (isort l).
Proof using Type.
  split; [|split].
  - induction l as [|x l IH]; [constructor|]. cbn [isort fold_right]. rewrite <- insert_perm. auto.
  - apply incr_iff. induction l as [|x l IH]; [constructor|]. apply insert_incr. auto.
  - intros k. induction l as [|x l IH]; [reflexivity|]. cbn [isort fold_right]. rewrite insert_filter. cbn [filter]. unfold isort in IH. rewrite IH. reflexivity.
Qed.
Lemma incr_unique a b : incr a -> incr b -> (forall k, filter (fun z => key z =? k)%Z a = filter (fun z => key z =? k)%Z b) -> a = b.
Proof using Type.
  intros Ha. revert b. induction Ha as [|x a H1 H IH]; intros b Hb F.
  - destruct b as [|y b]; [reflexivity|]. specialize (F (key y)). cbn in F. rewrite Z.eqb_refl in F. discriminate.
  - destruct Hb as [|y b H2 H3]; [specialize (F (key x)); cbn in F; rewrite Z.eqb_refl in F; discriminate|].
    assert (IX : In x (y :: b)).
    { assert (I : In x (filter (fun z => key z =? key x)%Z (x :: a))) by (apply filter_In; split; [left; auto|apply Z.eqb_refl]). rewrite F in I. apply filter_In in I. tauto. }
    assert (IY : In y (x :: a)).
    { assert (I : In y (filter (fun z => key z =? key y)%Z (y :: b))) by (apply filter_In; split; [left; auto|apply Z.eqb_refl]). rewrite <- F in I. apply filter_In in I. tauto. }
    assert (K : key x = key y). { destruct IX as [<-|IX]; auto. destruct IY as [<-|IY]; auto. specialize (H1 y IY). specialize (H2 x IX). lia. }
    assert (E : x = y). { specialize (F (key x)). cbn in F. rewrite Z.eqb_refl in F. rewrite <- K, Z.eqb_refl in F. congruence. }
    subst y. f_equal. apply IH; auto. intros k. specialize (F k). cbn in F. destruct (key x =? k)%Z; congruence.
Qed.
Lemma stable_unique l a b : stably_sorted key l a -> stably_sorted key l b -> a = b.
Proof using Type. intros (_ & S1 & F1) (_ & S2 & F2). apply incr_unique; [apply incr_iff; auto..|]. intros k. rewrite F1, F2. reflexivity. Qed.
End Sort.
Lemma stable_map {T U} (f : T -> U) (key : U -> Z) l l' : stably_sorted (fun x => key (f x)) l l' -> stably_sorted key (map f l) (map f l').
Proof.
  intros (P & S & F). split; [apply Permutation_map; auto|]. split.
  - intros i j x y Hij Hx Hy. rewrite nth_error_map in Hx, Hy. destruct (nth_error l' i) as [x'|] eqn:Ex; [|discriminate]. destruct (nth_error l' j) as [y'|] eqn:Ey; [|discriminate].
    injection Hx as <-. injection Hy as <-. eapply S; eauto.
  - intros k. assert (M : forall l, filter (fun x => key x =? k)%Z (map f l) = map f (filter (fun x => key (f x) =? k)%Z l)).
    { clear. induction l as [|x l IH]; [reflexivity|]. cbn. destruct (key (f x) =? k)%Z; cbn; rewrite IH; reflexivity. }
    rewrite !M, F. reflexivity.
Qed.
Lemma stable_ext {T} (k1 k2 : T -> Z) l l' : (forall x, In x l -> k1 x = k2 x) -> stably_sorted k1 l l' -> stably_sorted k2 l l'.
Proof.
  intros H (P & S & F). assert (H' : forall x, In x l' -> k1 x = k2 x) by (intros x I; apply H; eapply Permutation_in; [apply Permutation_sym; eauto|auto]).
  split; [auto|]. split.
  - intros i j x y Hij Hx Hy. rewrite <- !H' by (eapply nth_error_In; eauto). eapply S; eauto.
  - intros k. assert (M : forall l, (forall x, In x l -> k1 x = k2 x) -> filter (fun x => k2 x =? k)%Z l = filter (fun x => k1 x =? k)%Z l).
    { clear. intros l H. apply filter_ext_in. intros x I. rewrite H by auto. reflexivity. }
    rewrite !M by auto. apply F.
Qed.

(* Exactly which slices are refused; slices of a tensor as a vector. *)
From Verif Require Import Base Spec L_Lin M_Tensor L_Tensor M_Range S_Range L_Range L_Slice.
Local Open Scope Z_scope.

(* ---- after the checks nothing aborts ---- *)

Definition calm {X} (x : outcome X) : Prop := x <> Abort.

Lemma calm_ok {X} (a : X) : calm (Ok a). Proof. discriminate. Qed.
Lemma calm_bind {X Y} (x : outcome X) (f : X -> outcome Y) :
  calm x -> (forall a, calm (f a)) -> calm (bind x f).
Proof. unfold calm. destruct x; simpl; auto; discriminate. Qed.
Lemma calm_cdiv a b : calm (cdiv a b).
Proof. unfold cdiv. destruct (b =? 0); discriminate. Qed.
Lemma calm_rd {X} (l : list X) i : calm (rd l i).
Proof. unfold rd. destruct (nth_error l i); discriminate. Qed.
Lemma calm_rdZ {X} (l : list X) i : calm (rdZ l i).
Proof. unfold rdZ. destruct (i <? 0); [discriminate|apply calm_rd]. Qed.
Lemma calm_wr {X} (l : list X) i v : calm (wr l i v).
Proof. unfold wr. destruct (i <? length l)%nat; discriminate. Qed.
Lemma calm_wrZ {X} (l : list X) i v : calm (wrZ l i v).
Proof. unfold wrZ. destruct (i <? 0); [discriminate|apply calm_wr]. Qed.
Lemma calm_put {X} (v : X) st : calm (put v st).
Proof. unfold put. destruct st. apply calm_bind; [apply calm_wr|intros; apply calm_ok]. Qed.
Lemma calm_mapM {X Y} (f : X -> outcome Y) l : (forall x, calm (f x)) -> calm (mapM f l).
Proof.
  intros H. induction l as [|x l IH]; [discriminate|]. cbn [mapM].
  apply calm_bind; [apply H|intros]. apply calm_bind; [exact IH|discriminate].
Qed.

Lemma calm_set_factor r : forall f, calm (set_factor r f).
Proof.
  induction r as [| | | |r1 IH1 r2 IH2 b]; intros f; cbn [set_factor]; try discriminate.
  - apply calm_bind; [apply calm_cdiv|discriminate].
  - apply calm_bind; [apply calm_cdiv|intros]. apply calm_bind; [apply calm_cdiv|intros].
    apply calm_bind; [apply calm_cdiv|discriminate].
  - apply calm_bind; [|discriminate]. apply calm_mapM. intros. apply calm_bind; [apply calm_cdiv|discriminate].
  - apply calm_bind; [apply IH1|intros]. apply calm_bind; [apply IH2|discriminate].
Qed.

Lemma calm_rsize r : calm (rsize r).
Proof.
  induction r as [| | | |r1 IH1 r2 IH2 b]; cbn [rsize]; try discriminate.
  - apply calm_bind; [apply calm_cdiv|discriminate].
  - apply calm_bind; [auto|intros]. apply calm_bind; [auto|discriminate].
Qed.

Lemma calm_reset_with p r : (forall q, calm (p q)) -> calm (reset_with p r).
Proof.
  intros H. induction r as [| | | |r1 IH1 r2 IH2 b]; cbn [reset_with]; try discriminate.
  apply calm_bind; [auto|intros]. apply calm_bind; [auto|intros]. apply calm_bind; [auto|intros [? ?]]. discriminate.
Qed.

Lemma calm_pop k : forall r, calm (pop k r).
Proof.
  induction k as [|k IH]; intros r; [discriminate|]. cbn [pop].
  destruct r as [l f c e|l f n c|l f n s e st|l f ix c|r1 r2 base].
  - destruct (e <=? c); discriminate.
  - destruct (negb (c =? 0)); discriminate.
  - destruct (e <? n); discriminate.
  - destruct (length ix <=? c)%nat; [discriminate|]. apply calm_bind; [apply calm_rd|discriminate].
  - destruct (base =? nomore); [discriminate|]. apply calm_bind; [apply IH|intros [n r1']].
    destruct (negb (n =? nomore)); [discriminate|]. apply calm_bind; [apply IH|intros [b r2']].
    apply calm_bind; [apply calm_reset_with, IH|intros]. apply IH.
Qed.

Lemma calm_reset k r : calm (reset k r).
Proof. apply calm_reset_with, calm_pop. Qed.

Lemma calm_product_all rs : rs <> [] -> calm (product_all rs).
Proof.
  induction rs as [|r rs IH]; [congruence|intros _]. destruct rs as [|r2 rs]; [discriminate|].
  change (calm (p <- product_all (r2 :: rs) ;; product r p)).
  apply calm_bind; [apply IH; discriminate|intros p]. unfold product.
  apply calm_bind; [apply calm_set_factor|discriminate].
Qed.

Lemma calm_read_loop {A} fuel (d : list A) : forall n r st, calm (read_loop fuel n d r st).
Proof.
  induction n as [|n IH]; intros r st; [discriminate|]. cbn [read_loop].
  apply calm_bind; [apply calm_pop|intros [j r']]. destruct (j =? nomore); [discriminate|].
  apply calm_bind; [apply calm_rdZ|intros v]. apply calm_bind; [apply calm_put|auto].
Qed.

Lemma calm_fill_loop {A} fuel (v : A) : forall n r d, calm (fill_loop fuel n v r d).
Proof.
  induction n as [|n IH]; intros r d; [discriminate|]. cbn [fill_loop].
  apply calm_bind; [apply calm_pop|intros [j r']]. destruct (j =? nomore); [discriminate|].
  apply calm_bind; [apply calm_wrZ|auto].
Qed.

(* ---- the checks ---- *)

Lemma limit_cases s d : beyond d s \/ ~ beyond d s.
Proof.
  destruct s as [|i|a b st|l]; simpl; [tauto|lia|lia|].
  destruct (Exists_dec (fun i => Z.of_nat d < i) l) as [H|H]; [intros; apply Z_lt_dec| |]; tauto.
Qed.

Lemma limit_refused s d : set_limit (make_range s) (Z.of_nat d) = Abort <-> beyond d s.
Proof.
  destruct s as [|i|a b st|l]; cbn [make_range set_limit beyond].
  - unfold assert_. destruct (Z.leb_spec 0 (Z.of_nat d)); [|lia]. simpl. split; [discriminate|tauto].
  - unfold assert_. destruct (Z.leb_spec 0 (Z.of_nat d)); [|lia].
    destruct (Z.ltb_spec i (Z.of_nat d)); simpl; split; intros; try discriminate; lia || reflexivity.
  - unfold assert_. destruct (Z.leb_spec 0 (Z.of_nat d)); [|lia].
    destruct (Z.ltb_spec b (Z.of_nat d)); simpl; split; intros; try discriminate; lia || reflexivity.
  - unfold assert_. destruct (Z.leb_spec 0 (Z.of_nat d)); [|lia].
    destruct (forallb (fun i => i <=? Z.of_nat d) l) eqn:E; simpl; split; intros H1; try discriminate; auto.
    + apply Exists_exists in H1. destruct H1 as (x & Hx & Hl). rewrite forallb_forall in E. specialize (E x Hx). lia.
    + rewrite <- not_true_iff_false, forallb_forall in E.
      destruct (Exists_dec (fun i => Z.of_nat d < i) l) as [H2|H2]; [intros; apply Z_lt_dec|exact H2|].
      exfalso. apply E. intros x Hx. apply Z.leb_le. destruct (Z_le_gt_dec x (Z.of_nat d)); [assumption|].
      exfalso. apply H2. apply Exists_exists. exists x. split; [exact Hx|lia].
Qed.

Lemma limit_ok s d : ~ beyond d s -> exists r, set_limit (make_range s) (Z.of_nat d) = Ok r.
Proof.
  intros H. destruct (set_limit (make_range s) (Z.of_nat d)) eqn:E; eauto.
  - rewrite limit_refused in E. tauto.
  - exfalso. destruct s; cbn [make_range set_limit] in E; unfold assert_ in E;
      repeat match type of E with context [if ?b then _ else _] => destruct b; cbn [bind] in E end; discriminate.
  - exfalso. destruct s; cbn [make_range set_limit] in E; unfold assert_ in E;
      repeat match type of E with context [if ?b then _ else _] => destruct b; cbn [bind] in E end; discriminate.
Qed.

Lemma limits_refused ss : forall ds, length ss = length ds ->
  (set_limits (map make_range ss) ds = Abort /\
   exists k d s, nth_error ds k = Some d /\ nth_error ss k = Some s /\ beyond d s) \/
  ((exists rs, set_limits (map make_range ss) ds = Ok rs /\ length rs = length ss) /\
   ~ exists k d s, nth_error ds k = Some d /\ nth_error ss k = Some s /\ beyond d s).
Proof.
  induction ss as [|s ss IH]; intros [|d ds] HL; try discriminate; cbn [map set_limits].
  - right. split; [exists []; auto|]. intros (k & d & s & H & _). destruct k; discriminate.
  - injection HL as HL. destruct (limit_cases s d) as [B|B].
    + left. rewrite (proj2 (limit_refused s d) B). split; [reflexivity|]. exists 0%nat, d, s. auto.
    + destruct (limit_ok s d B) as [r E]. rewrite E. cbn [bind].
      destruct (IH ds HL) as [[E2 (k & d' & s' & H1 & H2 & H3)]|[(rs & E2 & HLr) H]].
      * left. rewrite E2. split; [reflexivity|]. exists (S k), d', s'. auto.
      * right. rewrite E2. cbn [bind]. split; [exists (r :: rs); simpl; split; congruence|].
        intros ([|k] & d' & s' & H1 & H2 & H3); simpl in *.
        { injection H1 as ->. injection H2 as ->. tauto. }
        apply H. exists k, d', s'. auto.
Qed.

Lemma view_refused A (t : tensor A) ss : make_view t ss = Abort <-> ss = [] \/ refused (dims t) (length (data t)) ss.
Proof.
  destruct ss as [|s [|s2 ss]].
  - simpl. tauto.
  - cbn [make_view refused]. destruct (limit_cases s (length (data t))) as [B|B].
    + rewrite (proj2 (limit_refused _ _) B). simpl. tauto.
    + destruct (limit_ok _ _ B) as [r E]. rewrite E. cbn [bind]. split.
      * intros H. exfalso. revert H. apply calm_bind; [apply calm_rsize|discriminate].
      * intros [H|H]; [discriminate|tauto].
  - cbn [make_view refused].
    destruct (Nat.eqb_spec (length (dims t)) (length (s :: s2 :: ss))) as [HL|HL]; cbn [assert_ bind].
    + destruct (limits_refused (s :: s2 :: ss) (dims t) (eq_sym HL)) as [[E H]|[(rs & E & HLr) H]]; rewrite E; cbn [bind].
      * tauto.
      * split.
        { intros HA. exfalso. revert HA. apply calm_bind; [apply calm_mapM, calm_rsize|intros ns].
          apply calm_bind; [apply calm_product_all; destruct rs; discriminate|discriminate]. }
        intros [H1|[H1|H1]]; [discriminate|congruence|contradiction].
    + split; [intros _; right; left; congruence|reflexivity].
Qed.

Lemma bind_abort {X Y} (x : outcome X) (f : X -> outcome Y) : (forall a, calm (f a)) -> bind x f = Abort <-> x = Abort.
Proof. intros H. destruct x; simpl; try tauto; try (split; discriminate). specialize (H a). split; [contradiction|discriminate]. Qed.

Lemma c12_exact A (t : tensor A) ss : ss <> [] -> forall junk fuel,
  (slice fuel junk t ss = Abort <-> refused (dims t) (length (data t)) ss) /\
  (forall v, assign_scalar fuel t ss v = Abort <-> refused (dims t) (length (data t)) ss).
Proof.
  intros HN junk fuel. split; [|intros v].
  - unfold slice. rewrite bind_abort, view_refused; [tauto|]. intros [ds r]. unfold view_to_tensor.
    apply calm_bind; [apply calm_reset|intros]. apply calm_bind; [apply calm_read_loop|discriminate].
  - unfold assign_scalar. rewrite bind_abort, view_refused; [tauto|]. intros [ds r].
    apply calm_bind; [apply calm_reset|intros]. apply calm_bind; [apply calm_fill_loop|discriminate].
Qed.

(* ---- one range on a tensor of any rank ---- *)

Definition vec {A} (t : tensor A) : tensor A := mkT [length (data t)] (data t).

Lemma wf_vec A (t : tensor A) : wf (vec t).
Proof. unfold wf, vec, nelem, prod. simpl. lia. Qed.

Lemma slice_vec A (t : tensor A) s fuel junk : slice fuel junk t [s] = slice fuel junk (vec t) [s].
Proof. reflexivity. Qed.
Lemma scalar_vec A (t : tensor A) s fuel v t' : assign_scalar fuel (vec t) [s] v = Ok t' ->
  assign_scalar fuel t [s] v = Ok (mkT (dims t) (data t')).
Proof.
  unfold assign_scalar. change (make_view (vec t) [s]) with (make_view t [s]).
  destruct (make_view t [s]) as [[ds r]| | |]; simpl; try discriminate.
  destruct (reset fuel r); simpl; try discriminate.
  destruct (fill_loop fuel fuel v a (data t)); simpl; try discriminate. intros H. injection H as <-. reflexivity.
Qed.
Lemma tensor_vec A (t : tensor A) s fuel u t' : assign_tensor fuel (vec t) [s] u = Ok t' ->
  assign_tensor fuel t [s] u = Ok (mkT (dims t) (data t')).
Proof.
  unfold assign_tensor. change (make_view (vec t) [s]) with (make_view t [s]).
  destruct (make_view t [s]) as [[ds r]| | |]; simpl; try discriminate.
  destruct (assert_ _); simpl; try discriminate.
  destruct (reset fuel r); simpl; try discriminate.
  destruct (copy_loop fuel fuel (data u) a0 0 (data t)); simpl; try discriminate. intros H. injection H as <-. reflexivity.
Qed.

Lemma elt_vec A (t : tensor A) k : elt (vec t) [k] = nth_error (data t) k.
Proof.
  unfold elt, vec. simpl. rewrite andb_true_r. rewrite Nat.mul_0_r, Nat.add_0_r.
  destruct (Nat.ltb_spec k (length (data t))); [reflexivity|]. symmetry. now apply nth_error_None.
Qed.
Lemma elt_one A (t : tensor A) n k : dims t = [n] -> wf t -> elt t [k] = nth_error (data t) k.
Proof.
  intros Hd Hw. unfold elt. rewrite Hd. simpl. rewrite andb_true_r, Nat.mul_0_r, Nat.add_0_r.
  unfold wf in Hw. rewrite Hd in Hw. unfold nelem, prod in Hw. simpl in Hw.
  destruct (Nat.ltb_spec k n); [reflexivity|]. symmetry. apply nth_error_None. lia.
Qed.

Lemma picks_one sel k p : picks [sel] [k] [p] <-> nth_error sel k = Some p.
Proof. simpl. tauto. Qed.

Lemma empty_selects s sel : selects 0 s sel -> sel = [] /\ (s = SFull \/ s = SIndex []).
Proof.
  intros H. remember 0%nat as n eqn:En. destruct H as [|p Hp|a b st Hab Hb Hs|l Hl]; subst; try lia; auto.
  destruct l as [|x l]; [simpl; auto|inversion Hl; lia].
Qed.

Lemma c09_linear A (t : tensor A) s sel (junk : nat -> A) : selects (length (data t)) s sel ->
  exists vals, length vals = length sel /\
    (forall k p, nth_error sel k = Some p -> nth_error vals k = nth_error (data t) p) /\
    exists F, forall fuel, (F <= fuel)%nat -> slice fuel junk t [s] = Ok ([Z.of_nat (length sel)], vals).
Proof.
  intros HS. destruct (data t) as [|x d] eqn:Ed.
  - destruct (empty_selects _ _ HS) as [-> Hs]. exists []. split; [reflexivity|]. split; [intros [|k] p; discriminate|].
    exists 2%nat. intros [|[|fuel]] Hf; try lia. rewrite slice_vec. unfold vec. rewrite Ed.
    destruct Hs as [-> | ->]; reflexivity.
  - rewrite <- Ed in *.
    destruct (c09_slice (vec t) [s] [sel] junk (wf_vec A t)) as (u & Hw & Hdu & Hel & F & HF).
    + discriminate.
    + simpl. constructor; [rewrite Ed; simpl; lia|constructor].
    + simpl. auto.
    + exists (data u). unfold sizes in Hdu. simpl in Hdu.
      assert (HLu : length (data u) = length sel).
      { unfold wf in Hw. rewrite Hw, Hdu. unfold nelem, prod. simpl. lia. }
      split; [exact HLu|]. split.
      * intros k p Hk. specialize (Hel [k] [p] (proj2 (picks_one _ _ _) Hk)).
        rewrite elt_vec in Hel. rewrite (elt_one _ _ _ _ Hdu Hw) in Hel. exact Hel.
      * exists F. intros fuel Hf. rewrite slice_vec. rewrite (HF fuel Hf), Hdu. reflexivity.
Qed.

Lemma c10_linear A (t : tensor A) s sel : wf t -> selects (length (data t)) s sel -> NoDup sel ->
  (forall v : A, exists t',
     wf t' /\ dims t' = dims t /\
     (forall p, In p sel -> nth_error (data t') p = Some v) /\
     (forall p, ~ In p sel -> nth_error (data t') p = nth_error (data t) p) /\
     exists F, forall fuel, (F <= fuel)%nat -> assign_scalar fuel t [s] v = Ok t') /\
  (forall u : tensor A, wf u -> nelem (dims u) = length sel -> exists t',
     wf t' /\ dims t' = dims t /\
     (forall k p, nth_error sel k = Some p -> nth_error (data t') p = nth_error (data u) k) /\
     (forall p, ~ In p sel -> nth_error (data t') p = nth_error (data t) p) /\
     exists F, forall fuel, (F <= fuel)%nat -> assign_tensor fuel t [s] u = Ok t').
Proof.
  intros Hwt HS HND. destruct (data t) as [|x d] eqn:Ed.
  - destruct (empty_selects _ _ HS) as [-> Hs].
    assert (ET : t = mkT (dims t) []) by (destruct t; simpl in *; congruence).
    split.
    + intros v. exists t. split; [exact Hwt|]. split; [reflexivity|]. split; [intros p []|].
      split; [rewrite Ed; reflexivity|]. exists 2%nat. intros [|[|fuel]] Hf; try lia. rewrite ET.
      destruct Hs as [-> | ->]; reflexivity.
    + intros u Hu HLu. exists t. split; [exact Hwt|]. split; [reflexivity|].
      split; [intros [|k] p; discriminate|]. split; [rewrite Ed; reflexivity|].
      exists 2%nat. intros [|[|fuel]] Hf; try lia. rewrite ET.
      unfold assign_tensor. rewrite total_size_nelem, HLu.
      destruct Hs as [-> | ->]; reflexivity.
  - rewrite <- Ed in *.
    assert (Hpos : Forall (fun d0 => (0 < d0)%nat) (dims (vec t))) by (simpl; constructor; [rewrite Ed; simpl; lia|constructor]).
    assert (Hsel : selections (dims (vec t)) [s] [sel]) by (simpl; auto).
    assert (HN1 : Forall (@NoDup nat) [sel]) by (constructor; auto).
    assert (Hn : dims (vec t) <> []) by discriminate.
    assert (Hout : forall p, ~ In p sel -> forall ks, ~ picks [sel] ks [p]).
    { intros p Hp [|k [|]] Hk; simpl in Hk; try tauto. destruct Hk as [Hk _]. apply Hp. eapply nth_error_In; eauto. }
    assert (Hwf' : forall t' : tensor A, wf t' -> dims t' = dims (vec t) -> wf (mkT (dims t) (data t'))).
    { intros t' W E. unfold wf in *. simpl. rewrite W, E. unfold vec, nelem, prod. simpl. rewrite Nat.mul_1_r.
      exact Hwt. }
    split.
    + intros v. destruct (c10_number A (vec t) [s] [sel] (wf_vec A t) Hn Hpos Hsel HN1 v) as (t' & (W & E & H1 & H2) & F & HF).
      exists (mkT (dims t) (data t')). split; [apply Hwf'; assumption|]. split; [reflexivity|]. simpl.
      split; [|split].
      * intros p Hp. apply In_nth_error in Hp. destruct Hp as [k Hk].
        rewrite <- (elt_one _ t' (length (data t)) p E W). apply (H1 [k]). now apply picks_one.
      * intros p Hp. rewrite <- (elt_one _ t' (length (data t)) p E W), H2 by (apply Hout, Hp). apply elt_vec.
      * exists F. intros fuel Hf. apply scalar_vec. auto.
    + intros u Hu HLu. destruct (c10_tensor (vec t) [s] [sel] (wf_vec A t) Hn Hpos Hsel HN1 u Hu) as [HT _].
      destruct HT as (t' & (W & E & H1 & H2) & F & HF); [unfold sizes, prod; simpl; lia|].
      exists (mkT (dims t) (data t')). split; [apply Hwf'; assumption|]. split; [reflexivity|]. simpl.
      split; [|split].
      * intros k p Hk. rewrite <- (elt_one _ t' (length (data t)) p E W), (H1 [k] [p]) by now apply picks_one.
        simpl. now rewrite Nat.mul_0_r, Nat.add_0_r.
      * intros p Hp. rewrite <- (elt_one _ t' (length (data t)) p E W), H2 by (apply Hout, Hp). apply elt_vec.
      * exists F. intros fuel Hf. apply tensor_vec. auto.
Qed.

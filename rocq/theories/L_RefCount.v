From Verif Require Import Base M_RefCount S_RefCount.

Definition ind (o : option nat) (a : nat) : Z := if odec o (Some a) then 1%Z else 0%Z.

Lemma nrefs_app vs o a : nrefs (vs ++ [o]) a = (nrefs vs a + ind o a)%Z.
Proof.
  unfold nrefs, ind. rewrite count_occ_app. simpl. destruct (odec o (Some a)); lia.
Qed.

Lemma nrefs_upd vs h o o' a :
  nth_error vs h = Some o -> nrefs (upd vs h o') a = (nrefs vs a - ind o a + ind o' a)%Z.
Proof.
  unfold nrefs, ind.
  revert h; induction vs as [|x vs IH]; intros [|h] E; simpl in *; try discriminate.
  - inversion E; subst.
    destruct (odec o (Some a)), (odec o' (Some a)); lia.
  - specialize (IH h E). destruct (odec x (Some a)); lia.
Qed.

Lemma nrefs_pos vs h a : nth_error vs h = Some (Some a) -> (1 <= nrefs vs a)%Z.
Proof.
  intros E. unfold nrefs.
  assert (In (Some a) vs) by (eapply nth_error_In; eauto).
  apply (count_occ_In odec) in H. lia.
Qed.

Lemma nrefs_nonneg vs a : (0 <= nrefs vs a)%Z.
Proof. unfold nrefs; lia. Qed.

Lemma nrefs_two vs h g a :
  nth_error vs h = Some (Some a) -> nth_error vs g = Some (Some a) -> g <> h -> (2 <= nrefs vs a)%Z.
Proof.
  intros Eh Eg Hne.
  assert (H := nrefs_upd vs h (Some a) None a Eh).
  assert (Hp : (1 <= nrefs (upd vs h None) a)%Z).
  { apply (nrefs_pos _ g). rewrite nth_error_upd_ne; auto. }
  unfold ind in H. destruct (odec (Some a) (Some a)); [|congruence].
  destruct (odec None (Some a)); [discriminate|]. lia.
Qed.

Lemma ind_same a : ind (Some a) a = 1%Z.
Proof. unfold ind. destruct (odec (Some a) (Some a)); congruence. Qed.
Lemma ind_diff a b : a <> b -> ind (Some a) b = 0%Z.
Proof. unfold ind. destruct (odec (Some a) (Some b)); congruence. Qed.
Lemma ind_none b : ind None b = 0%Z.
Proof. unfold ind. destruct (odec None (Some b)); congruence. Qed.

Section Inv.
Context {A : Type}.
Implicit Types s : state A.

Definition buf_ok s (b : buffer A) : Prop :=
  match b with
  | Own _ => True
  | Ext f n => exists l, nth_error (ext s) f = Some (Some l) /\ n <= length l
  end.

(* the heap agrees with the reference counts c *)
Record InvC s (c : nat -> Z) : Prop := {
  inv_cnt : forall a p, nth_error (heap s) a = Some (Some p) ->
              prefs p = c a /\ (1 <= c a)%Z;
  inv_live : forall a, (1 <= c a)%Z -> exists p, nth_error (heap s) a = Some (Some p);
  inv_buf : forall a p, nth_error (heap s) a = Some (Some p) ->
              buf_ok s (pbuf p) /\ (forall f n, pbuf p = Ext f n -> powned p = false);
  inv_ext : forall f, nth_error (ext s) f <> Some None
}.

Definition Inv s : Prop := InvC s (nrefs (vars s)).

Lemma InvC_ext s c c' : (forall a, c a = c' a) -> InvC s c -> InvC s c'.
Proof.
  intros H [H1 H2 H3 H4]; constructor; auto.
  - intros a p E. rewrite <- H. auto.
  - intros a E. rewrite <- H in E. auto.
Qed.

Lemma InvC_vars s c v : InvC s c -> InvC (mkS (heap s) (ext s) v) c.
Proof. intros [H1 H2 H3 H4]; constructor; auto. Qed.

Definition cadd (a : nat) (z : Z) (c : nat -> Z) : nat -> Z :=
  fun b => (c b + (if Nat.eq_dec a b then z else 0))%Z.

Lemma var_inv s h a : var s h = Ok a -> nth_error (vars s) h = Some (Some a).
Proof.
  unfold var. destruct (nth_error (vars s) h) as [[b|]|] eqn:E; intros H; inversion H; subst; auto.
Qed.

Lemma get_inv s a p : get s a = Ok p -> nth_error (heap s) a = Some (Some p).
Proof.
  unfold get. destruct (nth_error (heap s) a) as [[b|]|] eqn:E; intros H; inversion H; subst; auto.
Qed.

Lemma get_ok s a p : nth_error (heap s) a = Some (Some p) -> get s a = Ok p.
Proof. unfold get; intros ->; reflexivity. Qed.

Lemma var_ok s h a : nth_error (vars s) h = Some (Some a) -> var s h = Ok a.
Proof. unfold var; intros ->; reflexivity. Qed.

Lemma buf_contents s b : buf_ok s b -> exists l, contents s b = Ok l.
Proof.
  destruct b as [l|f n]; simpl; eauto.
  intros (l & -> & H). apply Nat.leb_le in H. rewrite H. eauto.
Qed.

Lemma heap_upd s a p0 p b :
  nth_error (heap s) a = Some p0 ->
  nth_error (upd (heap s) a p) b = if Nat.eq_dec a b then Some p else nth_error (heap s) b.
Proof.
  intros E. destruct (Nat.eq_dec a b) as [->|H].
  - apply nth_error_upd_eq. eapply nth_error_lt_inv; eauto.
  - apply nth_error_upd_ne; auto.
Qed.

(* every buffer seen through an address stays the same *)
Definition keeps s s' (b : nat) : Prop :=
  forall p, nth_error (heap s) b = Some (Some p) ->
  exists p', nth_error (heap s') b = Some (Some p') /\ pbuf p' = pbuf p.

Lemma dereference_ok s c a :
  InvC s c -> (1 <= c a)%Z ->
  exists s', dereference s a = Ok s' /\ InvC s' (cadd a (-1) c) /\
    vars s' = vars s /\ ext s' = ext s /\ length (heap s') = length (heap s) /\
    (forall b, b <> a \/ (2 <= c a)%Z -> keeps s s' b).
Proof.
  intros HI Ha. destruct (inv_live _ _ HI a Ha) as [p Hp].
  destruct (inv_cnt _ _ HI a p Hp) as [Hc _].
  unfold dereference. rewrite (get_ok _ _ _ Hp). simpl.
  destruct (Z.leb_spec (prefs p - 1) 0) as [Hz|Hz].
  - eexists; split; [reflexivity|].
    assert (He : ext (delete_pointer s a p) = ext s).
    { unfold delete_pointer; simpl. destruct (pbuf p) eqn:Eb; auto.
      destruct (inv_buf _ _ HI a p Hp) as [_ Hf]. rewrite (Hf _ _ Eb). auto. }
    split; [|split; [reflexivity|split; [exact He|split]]].
    + constructor.
      * intros b q Hq. simpl in Hq. rewrite (heap_upd _ _ _ _ _ Hp) in Hq.
        unfold cadd. destruct (Nat.eq_dec a b); [discriminate|].
        rewrite Z.add_0_r. eapply inv_cnt; eauto.
      * intros b Hb. unfold cadd in Hb. simpl. rewrite (heap_upd _ _ _ _ _ Hp).
        destruct (Nat.eq_dec a b); [subst; lia|]. apply (inv_live _ _ HI). lia.
      * intros b q Hq. simpl in Hq. rewrite (heap_upd _ _ _ _ _ Hp) in Hq.
        destruct (Nat.eq_dec a b); [discriminate|].
        destruct (inv_buf _ _ HI b q Hq) as [Hb1 Hb2]. split; auto.
        unfold buf_ok in *. rewrite He. auto.
      * rewrite He. apply (inv_ext _ _ HI).
    + simpl. apply length_upd.
    + intros b Hb q Hq. simpl. rewrite (heap_upd _ _ _ _ _ Hp).
      destruct (Nat.eq_dec a b); [subst; destruct Hb; [congruence|lia]|]. eauto.
  - eexists; split; [reflexivity|].
    split; [|split; [reflexivity|split; [reflexivity|split]]].
    + constructor; simpl.
      * intros b q Hq. rewrite (heap_upd _ _ _ _ _ Hp) in Hq. unfold cadd.
        destruct (Nat.eq_dec a b).
        -- inversion Hq; subst; simpl. lia.
        -- rewrite Z.add_0_r. eapply inv_cnt; eauto.
      * intros b Hb. unfold cadd in Hb. rewrite (heap_upd _ _ _ _ _ Hp).
        destruct (Nat.eq_dec a b); [eauto|]. apply (inv_live _ _ HI). lia.
      * intros b q Hq. rewrite (heap_upd _ _ _ _ _ Hp) in Hq.
        destruct (Nat.eq_dec a b); [inversion Hq; subst|]; simpl; eapply (inv_buf _ _ HI); eauto.
      * apply (inv_ext _ _ HI).
    + simpl. apply length_upd.
    + intros b Hb q Hq. simpl. rewrite (heap_upd _ _ _ _ _ Hp).
      destruct (Nat.eq_dec a b); [subst|eauto].
      rewrite Hp in Hq; inversion Hq; subst. eexists; split; reflexivity.
Qed.

Lemma reference_ok s c a :
  InvC s c -> (1 <= c a)%Z ->
  exists s', reference s a = Ok (s', a) /\ InvC s' (cadd a 1 c) /\
    vars s' = vars s /\ ext s' = ext s /\ length (heap s') = length (heap s) /\
    (forall b, keeps s s' b).
Proof.
  intros HI Ha. destruct (inv_live _ _ HI a Ha) as [p Hp].
  destruct (inv_cnt _ _ HI a p Hp) as [Hc _].
  unfold reference. rewrite (get_ok _ _ _ Hp). simpl.
  eexists; split; [reflexivity|].
  split; [|split; [reflexivity|split; [reflexivity|split]]].
  - constructor; simpl.
    + intros b q Hq. rewrite (heap_upd _ _ _ _ _ Hp) in Hq. unfold cadd.
      destruct (Nat.eq_dec a b).
      * inversion Hq; subst; simpl. lia.
      * rewrite Z.add_0_r. eapply inv_cnt; eauto.
    + intros b Hb. unfold cadd in Hb. rewrite (heap_upd _ _ _ _ _ Hp).
      destruct (Nat.eq_dec a b); [eauto|]. apply (inv_live _ _ HI). lia.
    + intros b q Hq. rewrite (heap_upd _ _ _ _ _ Hp) in Hq.
      destruct (Nat.eq_dec a b); [inversion Hq; subst|]; simpl; eapply (inv_buf _ _ HI); eauto.
    + apply (inv_ext _ _ HI).
  - simpl. apply length_upd.
  - intros b q Hq. simpl. rewrite (heap_upd _ _ _ _ _ Hp).
    destruct (Nat.eq_dec a b); [subst|eauto].
    rewrite Hp in Hq; inversion Hq; subst. eexists; split; reflexivity.
Qed.

Lemma InvC_fresh s c a : InvC s c -> length (heap s) <= a -> (c a <= 0)%Z.
Proof.
  intros HI Ha. destruct (Z.leb_spec (c a) 0); auto.
  destruct (inv_live _ _ HI a ltac:(lia)) as [p Hp].
  apply nth_error_lt_inv in Hp. lia.
Qed.

Lemma heap_app s x b :
  nth_error (heap s ++ [x]) b =
  if Nat.eq_dec (length (heap s)) b then Some x else nth_error (heap s) b.
Proof.
  destruct (Nat.eq_dec (length (heap s)) b) as [<-|H].
  - rewrite nth_error_app2, Nat.sub_diag; auto.
  - destruct (lt_dec b (length (heap s))).
    + apply nth_error_app1; auto.
    + rewrite (proj2 (nth_error_None (heap s) b)) by lia.
      apply nth_error_None. rewrite app_length; simpl; lia.
Qed.

Lemma new_pointer_ok s c b owned :
  InvC s c -> (forall a, 0 <= c a)%Z -> buf_ok s b ->
  (forall f n, b = Ext f n -> owned = false) ->
  let s' := fst (new_pointer s b owned) in
  new_pointer s b owned = (s', length (heap s)) /\
  InvC s' (cadd (length (heap s)) 1 c) /\
  vars s' = vars s /\ ext s' = ext s /\ (forall a, keeps s s' a) /\
  nth_error (heap s') (length (heap s)) = Some (Some (mkP b 1 owned)).
Proof.
  intros HI Hnn Hb Hf. unfold new_pointer; simpl.
  assert (Hfr : c (length (heap s)) = 0%Z).
  { assert (c (length (heap s)) <= 0)%Z by (apply (InvC_fresh s); auto). specialize (Hnn (length (heap s))). lia. }
  split; [reflexivity|]. split; [|split; [reflexivity|split; [reflexivity|split]]].
  - constructor; simpl.
    + intros a p Hp. rewrite heap_app in Hp. unfold cadd.
      destruct (Nat.eq_dec (length (heap s)) a).
      * inversion Hp; subst; simpl. lia.
      * rewrite Z.add_0_r; eapply inv_cnt; eauto.
    + intros a Ha. unfold cadd in Ha. rewrite heap_app.
      destruct (Nat.eq_dec (length (heap s)) a); [eauto|]. apply (inv_live _ _ HI); lia.
    + intros a p Hp. rewrite heap_app in Hp.
      destruct (Nat.eq_dec (length (heap s)) a).
      * inversion Hp; subst; simpl; auto.
      * eapply (inv_buf _ _ HI); eauto.
    + apply (inv_ext _ _ HI).
  - intros a p Hp. simpl. rewrite heap_app.
    destruct (Nat.eq_dec (length (heap s)) a); [|eauto].
    subst. apply nth_error_lt_inv in Hp. lia.
  - rewrite heap_app. destruct (Nat.eq_dec (length (heap s)) (length (heap s))); congruence.
Qed.

Lemma keeps_refl s b : keeps s s b.
Proof. intros p H; eauto. Qed.
Lemma keeps_trans s1 s2 s3 b : keeps s1 s2 b -> keeps s2 s3 b -> keeps s1 s3 b.
Proof.
  intros H1 H2 p Hp. destruct (H1 p Hp) as (p' & E' & B').
  destruct (H2 p' E') as (p'' & E'' & B''). exists p''; split; congruence.
Qed.
Lemma keeps_vars s s' v b : keeps s s' b -> keeps s (mkS (heap s') (ext s') v) b.
Proof. intros H p Hp; exact (H p Hp). Qed.

(* the pointed-to buffer of a variable *)
Definition vbuf s h : option (buffer A) :=
  match nth_error (vars s) h with
  | Some (Some a) => match nth_error (heap s) a with Some (Some p) => Some (pbuf p) | _ => None end
  | _ => None
  end.

Lemma vbuf_some s h b : vbuf s h = Some b <->
  exists a p, nth_error (vars s) h = Some (Some a) /\ nth_error (heap s) a = Some (Some p) /\ pbuf p = b.
Proof.
  unfold vbuf; split.
  - destruct (nth_error (vars s) h) as [[a|]|]; try discriminate.
    destruct (nth_error (heap s) a) as [[p|]|] eqn:E; try discriminate.
    intros H; inversion H; subst; eauto 6.
  - intros (a & p & -> & -> & ->). auto.
Qed.

Lemma Inv_var s h a : Inv s -> nth_error (vars s) h = Some (Some a) ->
  exists p, nth_error (heap s) a = Some (Some p) /\ prefs p = nrefs (vars s) a /\ buf_ok s (pbuf p).
Proof.
  intros HI E. assert (Hp := nrefs_pos _ _ _ E).
  destruct (inv_live _ _ HI a Hp) as [p Hp'].
  destruct (inv_cnt _ _ HI a p Hp') as [Hc _].
  destruct (inv_buf _ _ HI a p Hp') as [Hb _]. eauto.
Qed.

(* appropriate: afterwards the variable is the only one at its address and the
   contents are the same *)
Lemma appropriate_ok s h a :
  Inv s -> nth_error (vars s) h = Some (Some a) ->
  exists s' a', appropriate s h = Ok s' /\ Inv s' /\
    vars s' = upd (vars s) h (Some a') /\ ext s' = ext s /\
    nrefs (vars s') a' = 1%Z /\
    (forall g b, g <> h -> vbuf s g = Some b -> vbuf s' g = Some b) /\
    ((nrefs (vars s) a = 1%Z /\ s' = s /\ a' = a) \/
     (2 <= nrefs (vars s) a)%Z /\
     exists p l, nth_error (heap s) a = Some (Some p) /\ contents s (pbuf p) = Ok l /\
       nth_error (heap s') a' = Some (Some (mkP (Own l) 1 true))).
Proof.
  intros HI E. destruct (Inv_var _ _ _ HI E) as (p & Hp & Hc & Hb).
  assert (Hpos := nrefs_pos _ _ _ E).
  unfold appropriate. rewrite (var_ok _ _ _ E). simpl. rewrite (get_ok _ _ _ Hp). simpl.
  destruct (Z.ltb_spec 1 (prefs p)) as [Hlt|Hge].
  - unfold clone. rewrite (get_ok _ _ _ Hp). simpl.
    destruct (buf_contents _ _ Hb) as [l Hl]. rewrite Hl. simpl.
    destruct (new_pointer_ok s _ (Own l) true HI (nrefs_nonneg _) I ltac:(congruence))
      as (E1 & I1 & V1 & X1 & K1 & N1).
    set (s1 := fst (new_pointer s (Own l) true)) in *.
    set (n := length (heap s)) in *.
    assert (Han : a <> n) by (apply nth_error_lt_inv in Hp; unfold n; lia).
    change (mkS (heap s ++ [Some (mkP (Own l) 1 true)]) (ext s) (vars s)) with s1.
    assert (Ha1 : (1 <= cadd n 1 (nrefs (vars s)) a)%Z).
    { unfold cadd. destruct (Nat.eq_dec n a); lia. }
    destruct (dereference_ok s1 _ a I1 Ha1) as (s2 & E2 & I2 & V2 & X2 & L2 & K2).
    rewrite E2. simpl.
    exists (set_var s2 h (Some n)), n. split; [reflexivity|].
    assert (Hn : nth_error (heap s2) n = Some (Some (mkP (Own l) 1 true))).
    { destruct (K2 n (or_introl (fun e => Han (eq_sym e))) _ N1) as (q & Hq & Bq).
      destruct (inv_cnt _ _ I2 n q Hq) as [Cq _].
      destruct (inv_cnt _ _ I1 n _ N1) as [Cn _].
      revert E2; unfold dereference.
      destruct (K1 a p Hp) as (p1 & Hp1 & Bp1).
      rewrite (get_ok _ _ _ Hp1). simpl.
      destruct (prefs p1 - 1 <=? 0)%Z; intros E2; inversion E2; subst s2; simpl;
        rewrite nth_error_upd_ne; auto. }
    assert (Hcnt : forall b, cadd a (-1) (cadd n 1 (nrefs (vars s))) b
                     = nrefs (vars (set_var s2 h (Some n))) b).
    { intros b. simpl. rewrite V2, V1. rewrite (nrefs_upd _ _ _ _ _ E).
      unfold cadd. destruct (Nat.eq_dec n b), (Nat.eq_dec a b); subst; try congruence;
        rewrite ?ind_same, ?ind_diff; auto; lia. }
    split; [|split; [|split; [|split; [|split]]]].
    + unfold Inv. apply (InvC_ext _ _ _ Hcnt). apply InvC_vars. exact I2.
    + simpl. rewrite V2, V1. reflexivity.
    + simpl. rewrite X2, X1. reflexivity.
    + rewrite <- Hcnt. unfold cadd. destruct (Nat.eq_dec a n); [congruence|].
      destruct (Nat.eq_dec n n); [|congruence].
      assert (H0 := InvC_fresh s _ n HI (Nat.le_refl _)). assert (H1 := nrefs_nonneg (vars s) n). lia.
    + intros g b Hg Hv. apply vbuf_some in Hv. destruct Hv as (a1 & p1 & Ev & Eh & Eb).
      apply vbuf_some. simpl. rewrite V2, V1.
      assert (HK : keeps s s2 a1).
      { eapply keeps_trans; [apply K1|]. apply K2.
        destruct (Nat.eq_dec a1 a); [right|left; auto]. subst a1.
        unfold cadd. destruct (Nat.eq_dec n a); lia. }
      destruct (HK p1 Eh) as (p2 & Hp2 & Bp2).
      exists a1, p2. rewrite nth_error_upd_ne by auto. split; [auto|split; [auto|congruence]].
    + right. split; [lia|]. exists p, l. auto.
  - exists s, a. split; [reflexivity|]. split; [auto|].
    split.
    { apply list_eq_nth; intros i. destruct (Nat.eq_dec h i) as [->|Hn].
      - rewrite nth_error_upd_eq; auto. eapply nth_error_lt_inv; eauto.
      - rewrite nth_error_upd_ne; auto. }
    split; [reflexivity|]. split; [lia|]. split; [auto|]. left. split; [lia|auto].
Qed.


Lemma look_keeps s s' a : keeps s s' a -> look s (Some a) <> None -> look s' (Some a) = look s (Some a).
Proof.
  unfold look. intros K H. destruct (nth_error (heap s) a) as [[p|]|] eqn:E; try congruence.
  destruct (K p E) as (p' & -> & ->). auto.
Qed.

Lemma look_live s h a : Inv s -> nth_error (vars s) h = Some (Some a) -> look s (Some a) <> None.
Proof.
  intros HI E. destruct (Inv_var _ _ _ HI E) as (p & Hp & _). unfold look. rewrite Hp. congruence.
Qed.

Lemma nth_seen s h : nth_error (seen s) h = option_map (look s) (nth_error (vars s) h).
Proof. unfold seen. apply nth_error_map. Qed.

Lemma seen_inv s h b : nth_error (seen s) h = Some (Some b) ->
  exists a p, nth_error (vars s) h = Some (Some a) /\ nth_error (heap s) a = Some (Some p) /\ pbuf p = b.
Proof.
  rewrite nth_seen. destruct (nth_error (vars s) h) as [[a|]|]; simpl; try discriminate.
  destruct (nth_error (heap s) a) as [[p|]|] eqn:E; try discriminate.
  intros H; inversion H; subst; eauto 6.
Qed.

Lemma look_map_ext s s' vs :
  Inv s -> (forall h a, nth_error vs h = Some (Some a) -> nth_error (vars s) h = Some (Some a) /\ keeps s s' a) ->
  map (look s') vs = map (look s) vs.
Proof.
  intros HI H. apply map_ext_in. intros o Ho. apply In_nth_error in Ho. destruct Ho as [h Hh].
  destruct o as [a|]; auto. destruct (H h a Hh) as [Hv Hk].
  apply look_keeps; auto. eapply look_live; eauto.
Qed.

Lemma map_upd {X Y} (f : X -> Y) l i x : map f (upd l i x) = upd (map f l) i (f x).
Proof. revert i; induction l as [|y l IH]; intros [|i]; simpl; auto. f_equal; auto. Qed.

Lemma upd_same {X} (l : list X) i x : nth_error l i = Some x -> upd l i x = l.
Proof.
  revert i; induction l as [|y l IH]; intros [|i] E; simpl in *; try discriminate.
  - congruence.
  - f_equal; auto.
Qed.

Lemma upd_upd {X} (l : list X) i x y : upd (upd l i x) i y = upd l i y.
Proof. revert i; induction l as [|z l IH]; intros [|i]; simpl; auto. f_equal; auto. Qed.

(* seen after replacing variable h: everything else is kept *)
Lemma seen_upd s s' h o :
  Inv s -> vars s' = upd (vars s) h o ->
  (forall g a, g <> h -> nth_error (vars s) g = Some (Some a) -> keeps s s' a) ->
  seen s' = upd (seen s) h (look s' o).
Proof.
  intros HI V K. unfold seen. rewrite V, map_upd.
  apply list_eq_nth. intros i. destruct (Nat.eq_dec h i) as [->|Hn].
  - destruct (lt_dec i (length (vars s))) as [Hl|Hl].
    + rewrite !nth_error_upd_eq; auto; rewrite map_length; auto.
    + rewrite (proj2 (nth_error_None _ _)), (proj2 (nth_error_None _ _)); auto;
        rewrite length_upd, map_length; lia.
  - rewrite !nth_error_upd_ne by auto. rewrite !nth_error_map.
    destruct (nth_error (vars s) i) as [[a|]|] eqn:E; simpl; auto.
    f_equal. apply look_keeps; [eapply K; eauto|eapply look_live; eauto].
Qed.

Lemma seen_app s s' a :
  Inv s -> vars s' = vars s ++ [Some a] -> (forall b, keeps s s' b) ->
  seen s' = seen s ++ [look s' (Some a)].
Proof.
  intros HI V K. unfold seen. rewrite V, map_app. f_equal.
  apply look_map_ext; auto.
Qed.

Lemma contents_len s b l : contents s b = Ok l -> length l = bsize b.
Proof.
  destruct b as [l0|f n]; simpl.
  - congruence.
  - destruct (nth_error (ext s) f) as [[l0|]|]; try discriminate.
    destruct (Nat.leb_spec n (length l0)); try discriminate.
    intros E; inversion E; subst. rewrite firstn_length. lia.
Qed.

(* effect of one step on what variables see and on the caller's memory *)
Definition effect s (o : op A) s' (x : obs A) : Prop :=
  match o with
  | ONew l => seen s' = seen s ++ [Some (Own l)] /\ ext s' = ext s /\ x = ONone
  | ODefault => seen s' = seen s ++ [Some (Own [])] /\ ext s' = ext s /\ x = ONone
  | OWrap f n => seen s' = seen s ++ [Some (Ext f n)] /\ ext s' = ext s /\ x = ONone
  | OCopy h => exists b, nth_error (seen s) h = Some (Some b) /\
      seen s' = seen s ++ [Some b] /\ ext s' = ext s /\ x = ONone
  | OAssign h g => exists b, nth_error (seen s) g = Some (Some b) /\
      seen s' = upd (seen s) h (Some b) /\ ext s' = ext s /\ x = ONone
  | OWrite h i v => x = ONone /\ exists b l,
      nth_error (seen s) h = Some (Some b) /\ contents s b = Ok l /\
      ((exists f n l0, b = Ext f n /\ ref_count s h = Ok 1%Z /\ nth_error (ext s) f = Some (Some l0) /\
          seen s' = seen s /\ ext s' = upd (ext s) f (Some (upd l0 i v)))
       \/ (ref_count s h <> Ok 1%Z \/ exists l0, b = Own l0) /\
          seen s' = upd (seen s) h (Some (Own (upd l i v))) /\ ext s' = ext s)
  | ORead h i => s' = s /\ exists b l v,
      nth_error (seen s) h = Some (Some b) /\ contents s b = Ok l /\ nth_error l i = Some v /\ x = OVal v
  | OSize h => s' = s /\ exists b, nth_error (seen s) h = Some (Some b) /\ x = ONum (bsize b)
  | OResize h l => seen s' = upd (seen s) h (Some (Own l)) /\ ext s' = ext s /\ x = ONone
  | ODestroy h => seen s' = upd (seen s) h None /\ ext s' = ext s /\ x = ONone
  | OPoke f i v => seen s' = seen s /\ x = ONone /\
      exists l0, nth_error (ext s) f = Some (Some l0) /\ ext s' = upd (ext s) f (Some (upd l0 i v))
  end.

Lemma Inv_poke s f l i v :
  Inv s -> nth_error (ext s) f = Some (Some l) ->
  InvC (mkS (heap s) (upd (ext s) f (Some (upd l i v))) (vars s)) (nrefs (vars s)).
Proof.
  intros HI E. constructor; simpl; try apply HI.
  - intros a p Hp. destruct (inv_buf _ _ HI a p Hp) as [Hb Hf]. split; auto.
    destruct (pbuf p) as [l'|f' n]; simpl in *; auto.
    destruct Hb as (l' & El & Hn).
    destruct (Nat.eq_dec f f') as [->|Hne].
    + rewrite nth_error_upd_eq by (eapply nth_error_lt_inv; eauto).
      eexists; split; [reflexivity|]. rewrite length_upd. congruence.
    + rewrite nth_error_upd_ne by auto. eauto.
  - intros f'. destruct (Nat.eq_dec f f') as [->|Hne].
    + rewrite nth_error_upd_eq by (eapply nth_error_lt_inv; eauto). congruence.
    + rewrite nth_error_upd_ne by auto. apply (inv_ext _ _ HI).
Qed.

Lemma look_at s a p : nth_error (heap s) a = Some (Some p) -> look s (Some a) = Some (pbuf p).
Proof. unfold look; intros ->; auto. Qed.

Lemma step_ok s o :
  Inv s -> legal s o -> exists s' x, step s o = Ok (s', x) /\ Inv s' /\ effect s o s' x.
Proof.
  intros HI HL.
  assert (Hnew : forall b owned, buf_ok s b -> (forall f n, b = Ext f n -> owned = false) ->
    Inv (new_var (fst (new_pointer s b owned)) (length (heap s))) /\
    seen (new_var (fst (new_pointer s b owned)) (length (heap s))) = seen s ++ [Some b]).
  { intros b owned Hb Hf.
    destruct (new_pointer_ok s _ b owned HI (nrefs_nonneg _) Hb Hf) as (E1 & I1 & V1 & X1 & K1 & N1).
    set (s1 := fst (new_pointer s b owned)) in *. split.
    - unfold Inv, new_var. eapply InvC_ext; [|apply InvC_vars; exact I1].
      intros a. simpl. rewrite ?V1, nrefs_app. unfold cadd.
      destruct (Nat.eq_dec (length (heap s)) a) as [->|]; [rewrite ind_same|rewrite ind_diff by auto]; lia.
    - rewrite (seen_app s _ (length (heap s))); auto.
      + f_equal. f_equal. change (look s1 (Some (length (heap s))) = Some b).
        rewrite (look_at _ _ _ N1). reflexivity. }
  destruct o as [l| |f n|h|h g|h i v|h i|h|h l|h|f i v]; simpl in HL.
  - (* New *)
    destruct (Hnew (Own l) true I ltac:(congruence)). simpl.
    do 2 eexists; split; [reflexivity|]. split; [assumption|]. simpl. auto.
  - destruct (Hnew (Own []) true I ltac:(congruence)). simpl.
    do 2 eexists; split; [reflexivity|]. split; [assumption|]. simpl. auto.
  - destruct HL as (l & El & Hn). simpl. rewrite El.
    apply Nat.leb_le in Hn. rewrite Hn. apply Nat.leb_le in Hn.
    destruct (Hnew (Ext f n) false) as [H1 H2]; [simpl; eauto|auto|].
    do 2 eexists; split; [reflexivity|]. split; [assumption|]. simpl. auto.
  - (* Copy *)
    destruct HL as [b Hb]. destruct (seen_inv _ _ _ Hb) as (a & p & Ev & Eh & Ep).
    simpl. rewrite (var_ok _ _ _ Ev). simpl.
    destruct (reference_ok s _ a HI (nrefs_pos _ _ _ Ev)) as (s1 & E1 & I1 & V1 & X1 & L1 & K1).
    rewrite E1. simpl. do 2 eexists; split; [reflexivity|]. split.
    + unfold Inv, new_var. eapply InvC_ext; [|apply InvC_vars; exact I1].
      intros c. simpl. rewrite V1, nrefs_app. unfold cadd.
      destruct (Nat.eq_dec a c) as [->|]; [rewrite ind_same|rewrite ind_diff by auto]; lia.
    + exists b. split; [auto|]. split; [|split; auto].
      rewrite (seen_app s _ a); auto.
      * f_equal. f_equal. change (look s1 (Some a) = Some b).
        destruct (K1 a p Eh) as (p' & Hp' & Bp'). rewrite (look_at _ _ _ Hp'). congruence.
      * simpl. rewrite V1. reflexivity.
  - (* Assign *)
    destruct HL as [[bh Hbh] [bg Hbg]].
    destruct (seen_inv _ _ _ Hbh) as (a & p & Ev & Eh & Ep).
    destruct (seen_inv _ _ _ Hbg) as (b & q & Ew & Ek & Eq).
    simpl. rewrite (var_ok _ _ _ Ev), (var_ok _ _ _ Ew). simpl.
    destruct (Nat.eqb_spec b a) as [->|Hne].
    + do 2 eexists; split; [reflexivity|]. split; [assumption|].
      simpl. exists bg. split; [auto|]. split; [|auto].
      symmetry. apply upd_same. rewrite nth_seen, Ev. simpl. rewrite Ek. congruence.
    + destruct (dereference_ok s _ a HI (nrefs_pos _ _ _ Ev)) as (s1 & E1 & I1 & V1 & X1 & L1 & K1).
      rewrite E1. simpl.
      assert (Hb1 : (1 <= cadd a (-1) (nrefs (vars s)) b)%Z).
      { unfold cadd. destruct (Nat.eq_dec a b); [congruence|].
        assert (Hx := nrefs_pos _ _ _ Ew). lia. }
      destruct (reference_ok s1 _ b I1 Hb1) as (s2 & E2 & I2 & V2 & X2 & L2 & K2).
      rewrite E2. simpl. do 2 eexists; split; [reflexivity|].
      assert (HK : forall k c, k <> h -> nth_error (vars s) k = Some (Some c) -> keeps s s2 c).
      { intros k c Hk Ec. eapply keeps_trans; [apply K1|apply K2].
        destruct (Nat.eq_dec c a); [right|left; auto]. subst c. exact (nrefs_two _ _ _ _ Ev Ec Hk). }
      split.
      * unfold Inv, set_var. eapply InvC_ext; [|apply InvC_vars; exact I2].
        intros c. simpl. rewrite V2, V1, (nrefs_upd _ _ _ _ _ Ev). unfold cadd.
        destruct (Nat.eq_dec b c), (Nat.eq_dec a c); subst; try congruence;
          rewrite ?ind_same, ?ind_diff; auto; lia.
      * exists bg. split; [auto|]. split; [|simpl; rewrite X2, X1; auto].
        rewrite (seen_upd s _ h (Some b) HI).
        -- f_equal. change (look s2 (Some b) = Some bg).
           destruct (K1 b (or_introl Hne) _ Ek) as (q1 & Hq1 & Bq1).
           destruct (K2 b _ Hq1) as (q2 & Hq2 & Bq2).
           rewrite (look_at _ _ _ Hq2). congruence.
        -- simpl. rewrite V2, V1. reflexivity.
        -- exact HK.
  - (* Write *)
    destruct HL as (b & Hb & Hi). destruct (seen_inv _ _ _ Hb) as (a & p & Ev & Eh & Ep).
    destruct (Inv_var _ _ _ HI Ev) as (p0 & Eh0 & Hc & Hbok).
    assert (p0 = p) by congruence. subst p0.
    destruct (buf_contents _ _ Hbok) as [l Hl]. rewrite Ep in Hl, Hbok.
    destruct (appropriate_ok s h a HI Ev) as (s1 & a' & E1 & I1 & V1 & X1 & R1 & K1 & C1).
    simpl. rewrite E1. simpl.
    assert (Ev1 : nth_error (vars s1) h = Some (Some a')).
    { rewrite V1. apply nth_error_upd_eq. eapply nth_error_lt_inv; eauto. }
    rewrite (var_ok _ _ _ Ev1). simpl.
    assert (Hrc : ref_count s h = Ok (nrefs (vars s) a)).
    { unfold ref_count. rewrite (var_ok _ _ _ Ev). simpl. rewrite (get_ok _ _ _ Eh). simpl. congruence. }
    assert (Hlen := contents_len _ _ _ Hl).
    assert (Hstore : forall l0 p1, nth_error (heap s1) a' = Some (Some p1) -> pbuf p1 = Own l0 ->
      l0 = l -> (forall k c, k <> h -> nth_error (vars s) k = Some (Some c) -> keeps s s1 c /\ c <> a') ->
      exists s', store s1 a' i v = Ok s' /\ Inv s' /\
        seen s' = upd (seen s) h (Some (Own (upd l i v))) /\ ext s' = ext s).
    { intros l0 p1 Hp1 Bp1 -> HK. unfold store. rewrite (get_ok _ _ _ Hp1). simpl. rewrite Bp1.
      rewrite wr_ok by lia. simpl.
      eexists; split; [reflexivity|].
      assert (I' : Inv (put_heap s1 a' (Some (mkP (Own (upd l i v)) (prefs p1) (powned p1))))).
      { unfold Inv. simpl. constructor; simpl.
        - intros c q Hq. rewrite (heap_upd _ _ _ _ _ Hp1) in Hq.
          destruct (Nat.eq_dec a' c).
          + inversion Hq; subst; simpl. eapply (inv_cnt _ _ I1); eauto.
          + eapply (inv_cnt _ _ I1); eauto.
        - intros c Hcc. rewrite (heap_upd _ _ _ _ _ Hp1). destruct (Nat.eq_dec a' c); eauto.
          apply (inv_live _ _ I1); auto.
        - intros c q Hq. rewrite (heap_upd _ _ _ _ _ Hp1) in Hq.
          destruct (Nat.eq_dec a' c).
          + inversion Hq; subst; simpl. split; [auto|congruence].
          + eapply (inv_buf _ _ I1); eauto.
        - apply (inv_ext _ _ I1). }
      split; [exact I'|]. split; [|simpl; exact X1].
      rewrite (seen_upd s _ h (Some a') HI).
      - f_equal. unfold look; simpl. rewrite (heap_upd _ _ _ _ _ Hp1).
        destruct (Nat.eq_dec a' a'); [auto|congruence].
      - simpl. exact V1.
      - intros k c Hk Ek q Hq. destruct (HK k c Hk Ek) as [HK1 HK2].
        destruct (HK1 q Hq) as (q' & Hq' & Bq'). simpl.
        rewrite (heap_upd _ _ _ _ _ Hp1). destruct (Nat.eq_dec a' c); [congruence|]. eauto. }
    destruct C1 as [(R0 & -> & ->) | (R0 & p1 & l1 & Hp1 & Hl1 & Hn1)].
    + (* sole owner *)
      destruct b as [l0|f n].
      * assert (l0 = l) by (simpl in Hl; congruence).
        destruct (Hstore l0 p Eh Ep H) as (s' & E' & I' & S' & X').
        { intros k c Hk Ek. split; [apply keeps_refl|]. intros ->.
          assert (Ht := nrefs_two _ _ _ _ Ev Ek Hk). lia. }
        rewrite E'. simpl. do 2 eexists; split; [reflexivity|]. split; [auto|].
        split; [auto|]. exists (Own l0), l. split; [auto|]. split; [auto|].
        right. split; [right; eauto|auto].
      * destruct Hbok as (l0 & El0 & Hn0).
        unfold store. rewrite (get_ok _ _ _ Eh). simpl. rewrite Ep, El0.
        simpl in Hi. assert (Hib := Hi). apply Nat.ltb_lt in Hib. rewrite Hib.
        rewrite wr_ok by lia. simpl. do 2 eexists; split; [reflexivity|].
        split; [unfold Inv; exact (Inv_poke s f _ i v HI ltac:(eassumption))|].
        split; [auto|]. exists (Ext f n), l. split; [auto|]. split; [auto|].
        left. exists f, n, l0. rewrite Hrc, R0. split; [auto|]. split; [auto|]. split; [auto|].
        split; reflexivity.
    + assert (p1 = p) by congruence. subst p1. rewrite Ep in Hl1.
      assert (l1 = l) by congruence. subst l1.
      destruct (Hstore l _ Hn1 eq_refl eq_refl) as (s' & E' & I' & S' & X').
      { intros k c Hk Ek. split.
        - intros q Hq. assert (Hvb : vbuf s k = Some (pbuf q)) by (apply vbuf_some; eauto).
          apply K1 in Hvb; auto. apply vbuf_some in Hvb. destruct Hvb as (c' & q' & Ec' & Hq' & Bq').
          rewrite V1, nth_error_upd_ne in Ec' by auto. assert (c' = c) by congruence. subst. eauto.
        - intros ->. assert (Ek1 : nth_error (vars s1) k = Some (Some a')).
          { rewrite V1, nth_error_upd_ne; auto. }
          assert (Ht := nrefs_two _ _ _ _ Ev1 Ek1 Hk). lia. }
      rewrite E'. simpl. do 2 eexists; split; [reflexivity|]. split; [auto|].
      split; [auto|]. exists b, l. split; [auto|]. split; [auto|].
      right. split; [left; rewrite Hrc; intros Hx; inversion Hx; lia|auto].
  - (* Read *)
    destruct HL as (b & Hb & Hi). destruct (seen_inv _ _ _ Hb) as (a & p & Ev & Eh & Ep).
    destruct (inv_buf _ _ HI a p Eh) as [Hbok _].
    destruct (buf_contents _ _ Hbok) as [l Hl].
    assert (Hlen := contents_len _ _ _ Hl). rewrite Ep in Hlen.
    destruct (nth_error l i) as [v|] eqn:Ei; [|apply nth_error_None in Ei; lia].
    simpl. rewrite (var_ok _ _ _ Ev). simpl. rewrite (get_ok _ _ _ Eh). simpl. rewrite Hl. simpl.
    unfold rd. rewrite Ei. simpl. do 2 eexists; split; [reflexivity|]. split; [auto|].
    split; [auto|]. exists b, l, v. rewrite Ep in Hl. auto.
  - (* Size *)
    destruct HL as [b Hb]. destruct (seen_inv _ _ _ Hb) as (a & p & Ev & Eh & Ep).
    simpl. rewrite (var_ok _ _ _ Ev). simpl. rewrite (get_ok _ _ _ Eh). simpl. rewrite Ep.
    do 2 eexists; split; [reflexivity|]. split; [auto|]. split; [auto|]. exists b. auto.
  - (* Resize *)
    destruct HL as [b Hb]. destruct (seen_inv _ _ _ Hb) as (a & p & Ev & Eh & Ep).
    simpl. rewrite (var_ok _ _ _ Ev). simpl.
    destruct (dereference_ok s _ a HI (nrefs_pos _ _ _ Ev)) as (s1 & E1 & I1 & V1 & X1 & L1 & K1).
    rewrite E1. simpl.
    assert (Hnn : forall c, (0 <= cadd a (-1) (nrefs (vars s)) c)%Z).
    { intros c. unfold cadd. assert (Hx := nrefs_nonneg (vars s) c).
      destruct (Nat.eq_dec a c); [subst|lia]. assert (Hy := nrefs_pos _ _ _ Ev). lia. }
    destruct (new_pointer_ok s1 _ (Own l) true I1 Hnn I ltac:(congruence)) as (E2 & I2 & V2 & X2 & K2 & N2).
    set (s2 := fst (new_pointer s1 (Own l) true)) in *.
    change (mkS (heap s1 ++ [Some (mkP (Own l) 1 true)]) (ext s1) (vars s1)) with s2.
    do 2 eexists; split; [reflexivity|].
    set (m := length (heap s1)) in *.
    assert (Hma : a <> m).
    { apply nth_error_lt_inv in Eh. lia. }
    split.
    + unfold Inv, set_var. eapply InvC_ext; [|apply InvC_vars; exact I2].
      intros c. simpl. rewrite V1, (nrefs_upd _ _ _ _ _ Ev). unfold cadd.
      destruct (Nat.eq_dec m c), (Nat.eq_dec a c); subst; try congruence;
        rewrite ?ind_same, ?ind_diff; auto; lia.
    + split; [|simpl; auto].
      rewrite (seen_upd s _ h (Some m) HI).
      * f_equal. change (look s2 (Some m) = Some (Own l)). rewrite (look_at _ _ _ N2). auto.
      * simpl. rewrite V1. reflexivity.
      * intros k c Hk Ek. change (keeps s s2 c). eapply keeps_trans; [apply K1|apply K2].
        destruct (Nat.eq_dec c a); [right|left; auto]. subst c. exact (nrefs_two _ _ _ _ Ev Ek Hk).
  - (* Destroy *)
    destruct HL as [b Hb]. destruct (seen_inv _ _ _ Hb) as (a & p & Ev & Eh & Ep).
    simpl. rewrite (var_ok _ _ _ Ev). simpl.
    destruct (dereference_ok s _ a HI (nrefs_pos _ _ _ Ev)) as (s1 & E1 & I1 & V1 & X1 & L1 & K1).
    rewrite E1. simpl. do 2 eexists; split; [reflexivity|]. split.
    + unfold Inv, set_var. eapply InvC_ext; [|apply InvC_vars; exact I1].
      intros c. simpl. rewrite V1, (nrefs_upd _ _ _ _ _ Ev). unfold cadd. rewrite ind_none.
      destruct (Nat.eq_dec a c); subst; rewrite ?ind_same, ?ind_diff; auto; lia.
    + split; [|simpl; auto].
      rewrite (seen_upd s _ h None HI).
      * reflexivity.
      * simpl. rewrite V1. reflexivity.
      * intros k c Hk Ek. change (keeps s s1 c). apply K1.
        destruct (Nat.eq_dec c a); [right|left; auto]. subst c. exact (nrefs_two _ _ _ _ Ev Ek Hk).
  - (* Poke *)
    destruct HL as (l & El & Hi). simpl. rewrite El. rewrite wr_ok by auto. simpl.
    do 2 eexists; split; [reflexivity|]. split; [unfold Inv; exact (Inv_poke s f _ i v HI ltac:(eassumption))|].
    split; [reflexivity|]. split; [auto|]. eauto.
Qed.

Lemma Inv_init bufs : Inv (init bufs).
Proof.
  constructor; simpl.
  - intros a p H. destruct a; discriminate.
  - intros a H. unfold nrefs in H. simpl in H. lia.
  - intros a p H. destruct a; discriminate.
  - intros f H. rewrite nth_error_map in H. destruct (nth_error bufs f); discriminate.
Qed.

(* ---- refinement of value semantics ---- *)
Definition Rel s (t : sstate A) : Prop := Inv s /\ seen s = map (option_map Own) t.

Lemma Rel_svar s t h l : Rel s t -> svar t h = Some l -> nth_error (seen s) h = Some (Some (Own l)).
Proof.
  intros [_ HR] H. rewrite HR, nth_error_map. unfold svar in H.
  destruct (nth_error t h) as [[l'|]|]; simpl; try discriminate. congruence.
Qed.

Lemma sim_step s t o t' x :
  Rel s t -> sstep t o = Some (t', x) -> exists s', step s o = Ok (s', x) /\ Rel s' t' /\ ext s' = ext s.
Proof.
  intros HR HS. destruct HR as [HI HSeen]. assert (HR : Rel s t) by (split; auto).
  destruct o as [l| |f n|h|h g|h i v|h i|h|h l|h|f i v]; simpl in HS; try discriminate.
  - inversion HS; subst.
    destruct (step_ok s (ONew l) HI I) as (s' & y & E & I' & S' & X' & ->).
    exists s'. split; [auto|]. split; [split; auto|auto]. rewrite S', HSeen, map_app. reflexivity.
  - inversion HS; subst.
    destruct (step_ok s ODefault HI I) as (s' & y & E & I' & S' & X' & ->).
    exists s'. split; [auto|]. split; [split; auto|auto]. rewrite S', HSeen, map_app. reflexivity.
  - destruct (svar t h) as [l|] eqn:Ev; inversion HS; subst.
    assert (Eh := Rel_svar _ _ _ _ HR Ev).
    destruct (step_ok s (OCopy h) HI) as (s' & y & E & I' & b & Eb & S' & X' & ->); [eexists; eauto|].
    exists s'. split; [auto|]. split; [split; auto|auto]. rewrite S', HSeen, map_app. simpl. congruence.
  - destruct (svar t h) as [lh|] eqn:Evh; [|discriminate].
    destruct (svar t g) as [lg|] eqn:Evg; inversion HS; subst.
    assert (Eh := Rel_svar _ _ _ _ HR Evh). assert (Eg := Rel_svar _ _ _ _ HR Evg).
    destruct (step_ok s (OAssign h g) HI) as (s' & y & E & I' & b & Eb & S' & X' & ->);
      [split; eexists; eauto|].
    exists s'. split; [auto|]. split; [split; auto|auto]. rewrite S', HSeen, map_upd. simpl. congruence.
  - destruct (svar t h) as [l|] eqn:Ev; [|discriminate].
    assert (Eh := Rel_svar _ _ _ _ HR Ev).
    destruct (Nat.ltb_spec i (length l)); inversion HS; subst.
    destruct (step_ok s (OWrite h i v) HI) as (s' & y & E & I' & -> & b & l' & Eb & El & C);
      [exists (Own l); auto|].
    assert (b = Own l) by congruence. subst b. simpl in El. inversion El; subst l'.
    destruct C as [(f & n & l0 & F & _)|(_ & S' & X')]; [discriminate|].
    exists s'. split; [auto|]. split; [split; auto|auto]. rewrite S', HSeen, map_upd. reflexivity.
  - destruct (svar t h) as [l|] eqn:Ev; [|discriminate].
    assert (Eh := Rel_svar _ _ _ _ HR Ev).
    destruct (nth_error l i) as [v|] eqn:Ei; inversion HS; subst.
    destruct (step_ok s (ORead h i) HI) as (s' & y & E & I' & -> & b & l' & v' & Eb & El & Ev' & ->).
    { exists (Own l); split; auto. simpl. eapply nth_error_lt_inv; eauto. }
    assert (b = Own l) by congruence. subst b. simpl in El. inversion El; subst l'.
    exists s. split; [congruence|]. auto.
  - destruct (svar t h) as [l|] eqn:Ev; inversion HS; subst.
    assert (Eh := Rel_svar _ _ _ _ HR Ev).
    destruct (step_ok s (OSize h) HI) as (s' & y & E & I' & -> & b & Eb & ->); [eexists; eauto|].
    assert (b = Own l) by congruence. subst b. exists s. auto.
  - destruct (svar t h) as [l0|] eqn:Ev; inversion HS; subst.
    assert (Eh := Rel_svar _ _ _ _ HR Ev).
    destruct (step_ok s (OResize h l) HI) as (s' & y & E & I' & S' & X' & ->); [eexists; eauto|].
    exists s'. split; [auto|]. split; [split; auto|auto]. rewrite S', HSeen, map_upd. reflexivity.
  - destruct (svar t h) as [l0|] eqn:Ev; inversion HS; subst.
    assert (Eh := Rel_svar _ _ _ _ HR Ev).
    destruct (step_ok s (ODestroy h) HI) as (s' & y & E & I' & S' & X' & ->); [eexists; eauto|].
    exists s'. split; [auto|]. split; [split; auto|auto]. rewrite S', HSeen, map_upd. reflexivity.
Qed.

Lemma sim_run ops : forall s t t' xs,
  Rel s t -> srun t ops = Some (t', xs) -> exists s', run s ops = Ok (s', xs) /\ Rel s' t' /\ ext s' = ext s.
Proof.
  induction ops as [|o ops IH]; intros s t t' xs HR HS; simpl in *.
  - inversion HS; subst; eauto.
  - destruct (sstep t o) as [[t1 x]|] eqn:E1; [|discriminate].
    destruct (srun t1 ops) as [[t2 ys]|] eqn:E2; inversion HS; subst.
    destruct (sim_step _ _ _ _ _ HR E1) as (s1 & F1 & R1 & X1).
    destruct (IH _ _ _ _ R1 E2) as (s2 & F2 & R2 & X2).
    rewrite F1. simpl. rewrite F2. simpl. eexists; split; [reflexivity|]. split; [auto|congruence].
Qed.

Lemma reach_Inv bufs ops s : reach (init bufs) ops s -> Inv s.
Proof.
  induction 1 as [|ops s o s' x HR IH HL HS].
  - apply Inv_init.
  - destruct (step_ok s o IH HL) as (s'' & y & E & I' & _). congruence.
Qed.

Lemma reach_progress bufs ops s o :
  reach (init bufs) ops s -> legal s o -> exists s' x, step s o = Ok (s', x).
Proof.
  intros HR HL. destruct (step_ok s o (reach_Inv _ _ _ HR) HL) as (s' & x & E & _). eauto.
Qed.

Lemma step_det_effect s o s' x : Inv s -> legal s o -> step s o = Ok (s', x) -> effect s o s' x.
Proof.
  intros HI HL E. destruct (step_ok s o HI HL) as (s'' & y & E' & _ & H). congruence.
Qed.

End Inv.

Lemma c01_run A (bufs : list (list A)) ops t xs :
  srun [] ops = Some (t, xs) ->
  exists s, run (init bufs) ops = Ok (s, xs) /\
    seen s = map (option_map Own) t /\ ext s = map Some bufs.
Proof.
  intros H. destruct (sim_run ops (init bufs) [] t xs) as (s & E & [_ R] & X); auto.
  - split; [apply Inv_init|reflexivity].
  - exists s. auto.
Qed.

Lemma c02_counts A (bufs : list (list A)) ops s :
  reach (init bufs) ops s ->
  (forall o, legal s o -> exists s' x, step s o = Ok (s', x)) /\
  (forall h a, nth_error (vars s) h = Some (Some a) ->
     ref_count s h = Ok (nrefs (vars s) a) /\ (1 <= nrefs (vars s) a)%Z) /\
  (forall a p, nth_error (heap s) a = Some (Some p) ->
     exists h, nth_error (vars s) h = Some (Some a)) /\
  (Forall (fun v => v = None) (vars s) -> Forall (fun b => b = None) (heap s)).
Proof.
  intros HR. assert (HI := reach_Inv _ _ _ HR).
  assert (HH : forall a p, nth_error (heap s) a = Some (Some p) ->
     exists h, nth_error (vars s) h = Some (Some a)).
  { intros a p Hp. destruct (inv_cnt _ _ HI a p Hp) as [_ Hc].
    unfold nrefs in Hc. assert (Hin : In (Some a) (vars s)).
    { apply (count_occ_In odec). lia. }
    apply In_nth_error in Hin. exact Hin. }
  split; [|split; [|split]].
  - intros o HL. eapply reach_progress; eauto.
  - intros h a E. destruct (Inv_var _ _ _ HI E) as (p & Hp & Hc & _). split.
    + unfold ref_count. rewrite (var_ok _ _ _ E). simpl. rewrite (get_ok _ _ _ Hp). simpl. congruence.
    + eapply nrefs_pos; eauto.
  - exact HH.
  - intros HF. apply Forall_forall. intros b Hb. destruct b as [p|]; auto.
    apply In_nth_error in Hb. destruct Hb as [a Ha]. destruct (HH a p Ha) as [h Hh].
    rewrite Forall_forall in HF. apply nth_error_In in Hh. apply HF in Hh. discriminate.
Qed.

Lemma upd_diff {X} (l : list X) k v i : nth_error l i <> nth_error (upd l k v) i ->
  k = i /\ nth_error (upd l k v) i = Some v.
Proof.
  intros H. destruct (Nat.eq_dec k i) as [->|Hn].
  - split; auto. destruct (lt_dec i (length l)).
    + apply nth_error_upd_eq; auto.
    + exfalso. apply H. rewrite (proj2 (nth_error_None l i)) by lia.
      symmetry. apply nth_error_None. rewrite length_upd. lia.
  - exfalso. apply H. rewrite nth_error_upd_ne; auto.
Qed.

Lemma c03_foreign A (bufs : list (list A)) ops s o s' x :
  reach (init bufs) ops s -> legal s o -> step s o = Ok (s', x) ->
  (forall f l, nth_error (ext s) f = Some (Some l) ->
     exists l', nth_error (ext s') f = Some (Some l') /\ length l' = length l) /\
  (forall f l l' i, nth_error (ext s) f = Some (Some l) -> nth_error (ext s') f = Some (Some l') ->
     nth_error l i <> nth_error l' i ->
     (exists v, o = OPoke f i v /\ nth_error l' i = Some v) \/
     (exists h v n, o = OWrite h i v /\ nth_error l' i = Some v /\
        nth_error (seen s) h = Some (Some (Ext f n)) /\ i < n /\ ref_count s h = Ok 1%Z)) /\
  (forall h i v f n, o = OWrite h i v -> nth_error (seen s) h = Some (Some (Ext f n)) ->
     ref_count s h <> Ok 1%Z ->
     ext s' = ext s /\ exists l, nth_error (ext s) f = Some (Some l) /\
       nth_error (seen s') h = Some (Some (Own (upd (firstn n l) i v)))) /\
  (forall h i f n, o = ORead h i -> nth_error (seen s) h = Some (Some (Ext f n)) ->
     exists l v, nth_error (ext s) f = Some (Some l) /\ nth_error l i = Some v /\ x = OVal v).
Proof.
  intros HR HL HS. assert (HI := reach_Inv _ _ _ HR).
  assert (HE := step_det_effect _ _ _ _ HI HL HS).
  (* either ext unchanged or one position updated *)
  assert (HX : ext s' = ext s \/
    exists f l0 i v, nth_error (ext s) f = Some (Some l0) /\ ext s' = upd (ext s) f (Some (upd l0 i v)) /\
      (o = OPoke f i v \/
       exists h n, o = OWrite h i v /\ nth_error (seen s) h = Some (Some (Ext f n)) /\ i < n /\
         ref_count s h = Ok 1%Z)).
  { destruct o as [l| |f n|h|h g|h i v|h i|h|h l|h|f i v]; simpl in HE.
    - left; tauto.
    - left; tauto.
    - left; tauto.
    - left; destruct HE as (b & _ & _ & H & _); auto.
    - left; destruct HE as (b & _ & _ & H & _); auto.
    - destruct HE as (_ & b & l & Eb & El & [(f & n & l0 & -> & Hc & E0 & _ & EX)|(_ & _ & EX)]); [|left; auto].
      right. exists f, l0, i, v. split; [auto|]. split; [auto|]. right. exists h, n.
      split; [auto|]. split; [auto|]. split; [|auto].
      destruct HL as (b & Eb' & Hi). assert (b = Ext f n) by congruence. subst; auto.
    - left; destruct HE as [-> _]; auto.
    - left; destruct HE as [-> _]; auto.
    - left; tauto.
    - left; tauto.
    - right. destruct HE as (_ & _ & l0 & E0 & EX). exists f, l0, i, v. auto. }
  split; [|split; [|split]].
  - intros f l El. destruct HX as [->|(f' & l0 & i & v & E0 & -> & _)]; [eauto|].
    destruct (Nat.eq_dec f' f) as [->|Hn].
    + rewrite nth_error_upd_eq by (eapply nth_error_lt_inv; eauto).
      eexists; split; [reflexivity|]. rewrite length_upd. congruence.
    + rewrite nth_error_upd_ne by auto. eauto.
  - intros f l l' i El El' Hd. destruct HX as [HX|(f' & l0 & k & v & E0 & HX & HC)].
    { rewrite HX in El'. congruence. }
    rewrite HX in El'. destruct (Nat.eq_dec f' f) as [->|Hn].
    + rewrite nth_error_upd_eq in El' by (eapply nth_error_lt_inv; eauto).
      assert (l0 = l) by congruence. subst l0.
      assert (l' = upd l k v) by congruence. subst l'.
      destruct (upd_diff _ _ _ _ Hd) as [-> Hv].
      destruct HC as [->|(h & n & -> & Hs & Hi & Hc)]; [left; eauto|right; eauto 10].
    + rewrite nth_error_upd_ne in El' by auto. congruence.
  - intros h i v f n -> Hs Hc. simpl in HE.
    destruct HE as (_ & b & l & Eb & El & HE).
    assert (b = Ext f n) by congruence. subst b.
    destruct HE as [(f' & n' & l0 & Eb' & Hc' & _)|(_ & ES & EX)]; [contradiction|].
    split; [auto|]. simpl in El. destruct (nth_error (ext s) f) as [[l0|]|] eqn:E0; try discriminate.
    exists l0. split; [auto|]. rewrite ES.
    rewrite nth_error_upd_eq by (eapply nth_error_lt_inv; eauto).
    destruct (n <=? length l0); congruence.
  - intros h i f n -> Hs. simpl in HE.
    destruct HE as (_ & b & l & v & Eb & El & Ev & ->).
    assert (b = Ext f n) by congruence. subst b. simpl in El.
    destruct (nth_error (ext s) f) as [[l0|]|] eqn:E0; try discriminate.
    exists l0, v. split; [auto|]. split; [|auto].
    destruct (n <=? length l0); inversion El; subst l.
    clear - Ev. revert l0 i Ev. induction n as [|n IH]; intros [|y l0] [|i] Ev; simpl in *; try discriminate; auto.
Qed.

Lemma c04_refuted : exists ops, sp_legal (mkSP [] []) ops /\ sprun (mkSP [] []) ops = UB.
Proof.
  exists [SPNew; SPCopy 0; SPDestroy 0; SPDestroy 1]. split; [|reflexivity].
  repeat (split; [first [exact I | eexists; reflexivity] | intros ? E; inversion E; subst; clear E]).
Qed.

Lemma c04_partial ops :
  ~ (exists h, In (SPCopy h) ops) -> sp_legal (mkSP [] []) ops ->
  exists s, sprun (mkSP [] []) ops = Ok s.
Proof.
  (* without copies every counter is held by exactly one variable and is 1 *)
  set (P := fun s => (forall h a, nth_error (spvars s) h = Some (Some a) -> nth_error (cnt s) a = Some (Some 1%Z)) /\
                     (forall h g a, nth_error (spvars s) h = Some (Some a) -> nth_error (spvars s) g = Some (Some a) -> h = g)).
  assert (HG : forall ops s, P s -> ~ (exists h, In (SPCopy h) ops) -> sp_legal s ops -> exists s', sprun s ops = Ok s').
  { clear ops. induction ops as [|o ops IH]; intros s HP HN HL; simpl; [eauto|].
    assert (HN' : ~ exists h, In (SPCopy h) ops) by (intros [h Hh]; apply HN; exists h; right; auto).
    destruct HP as [P1 P2]. destruct HL as [HL1 HL2].
    destruct o as [|h|h].
    - simpl. apply IH; auto.
      + assert (HX : forall h a, nth_error (spvars s ++ [Some (length (cnt s))]) h = Some (Some a) ->
          (h < length (spvars s) /\ nth_error (spvars s) h = Some (Some a) /\ a < length (cnt s)) \/
          (h = length (spvars s) /\ a = length (cnt s))).
        { intros h a E. destruct (lt_dec h (length (spvars s))).
          - left. rewrite nth_error_app1 in E by auto. split; [auto|split; auto].
            apply P1 in E. eapply nth_error_lt_inv; eauto.
          - right. rewrite nth_error_app2 in E by lia.
            destruct (h - length (spvars s)) as [|k] eqn:Ek; simpl in E.
            + inversion E. lia.
            + destruct k; discriminate. }
        split; simpl.
        * intros h a E. destruct (HX h a E) as [(_ & E' & Ha)|(_ & ->)].
          -- rewrite nth_error_app1 by auto. eauto.
          -- rewrite nth_error_app2, Nat.sub_diag by lia. reflexivity.
        * intros h g a E F. destruct (HX h a E) as [(H1 & E' & Ha)|(-> & ->)];
            destruct (HX g _ F) as [(H2 & F' & Hb)|(-> & Hb)]; try lia. eauto.
    - exfalso. apply HN. exists h. left; auto.
    - destruct HL1 as [a Ea]. assert (Ec := P1 _ _ Ea).
      simpl in HL2 |- *. rewrite Ea, Ec in HL2 |- *. simpl in *.
      apply IH; auto. split; simpl.
      + intros g b Eg. destruct (Nat.eq_dec h g) as [->|Hn].
        { rewrite nth_error_upd_eq in Eg by (eapply nth_error_lt_inv; eauto). discriminate. }
        rewrite nth_error_upd_ne in Eg by auto.
        assert (b <> a) by (intros ->; apply Hn; eapply P2; eauto).
        rewrite nth_error_upd_ne by auto. eauto.
      + intros g k b Eg Ek.
        destruct (Nat.eq_dec h g) as [->|Hn].
        { rewrite nth_error_upd_eq in Eg by (eapply nth_error_lt_inv; eauto). discriminate. }
        destruct (Nat.eq_dec h k) as [->|Hn'].
        { rewrite nth_error_upd_eq in Ek by (eapply nth_error_lt_inv; eauto). discriminate. }
        rewrite nth_error_upd_ne in Eg, Ek by auto. eauto. }
  intros HN HL. apply HG; auto. split; intros h; destruct h; discriminate.
Qed.

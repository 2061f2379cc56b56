(* Lemmas about kept iterators. *)
From Verif Require Import Base M_RefCount S_RefCount L_RefCount M_Iter S_Iter.

Section Iter.
Context {A : Type}.
Implicit Types s : state A.

Lemma dereference_vars s a s' : dereference s a = Ok s' -> vars s' = vars s /\ length (heap s') = length (heap s).
Proof.
  unfold dereference. destruct (get s a) as [p| | |]; try discriminate. cbn [bind]. destruct (prefs p - 1 <=? 0)%Z; intros H; injection H as <-; cbn; rewrite length_upd; auto.
Qed.
Lemma reference_vars s a s' b : reference s a = Ok (s', b) -> vars s' = vars s /\ b = a /\ length (heap s') = length (heap s).
Proof. unfold reference. destruct (get s a) as [p| | |]; try discriminate. cbn [bind]. intros H; injection H as <- <-. cbn. rewrite length_upd. auto. Qed.
Lemma store_vars s a i v s' : store s a i v = Ok s' -> vars s' = vars s.
Proof.
  unfold store. destruct (get s a) as [p| | |]; try discriminate. cbn [bind]. destruct (pbuf p) as [l|f n].
  - destruct (wr l i v); try discriminate. intros H; injection H as <-. reflexivity.
  - destruct (nth_error (ext s) f) as [[l|]|]; try discriminate. destruct (i <? n); try discriminate. destruct (wr l i v); try discriminate. intros H; injection H as <-. reflexivity.
Qed.

(* what one operation does to the variables *)
Inductive moved s (o : op A) : list (option nat) -> Prop :=
| mv_same : moved s o (vars s)
| mv_new : moved s o (vars s ++ [Some (length (heap s))])
| mv_copy h a : o = OCopy h -> nth_error (vars s) h = Some (Some a) -> moved s o (vars s ++ [Some a])
| mv_assign h g a b : o = OAssign h g -> nth_error (vars s) h = Some (Some a) -> nth_error (vars s) g = Some (Some b) -> moved s o (upd (vars s) h (Some b))
| mv_write h i v a b : o = OWrite h i v -> nth_error (vars s) h = Some (Some a) -> (nrefs (vars s) a = 1%Z -> b = a) -> (b = a \/ nrefs (vars s) b = 0%Z) ->
    moved s o (upd (vars s) h (Some b))
| mv_set h a b : (exists l, o = OResize h l) \/ o = ODestroy h -> nth_error (vars s) h = Some (Some a) -> (b = None \/ b = Some (length (heap s))) -> moved s o (upd (vars s) h b).

Lemma fresh_refs s : Inv s -> nrefs (vars s) (length (heap s)) = 0%Z.
Proof.
  intros HI. pose proof (nrefs_nonneg (vars s) (length (heap s))). destruct (Z.eq_dec (nrefs (vars s) (length (heap s))) 0) as [|H1]; [auto|].
  destruct (inv_live _ _ HI (length (heap s))) as [p Hp]; [lia|]. apply nth_error_lt_inv in Hp. lia.
Qed.
Lemma appropriate_moved s h a : Inv s -> nth_error (vars s) h = Some (Some a) ->
  exists s' b, appropriate s h = Ok s' /\ Inv s' /\ vars s' = upd (vars s) h (Some b) /\ nrefs (vars s') b = 1%Z /\
    (nrefs (vars s) a = 1%Z -> b = a) /\ (b = a \/ nrefs (vars s) b = 0%Z).
Proof.
  intros HI E. destruct (appropriate_ok s h a HI E) as (s' & b & E1 & I1 & V & X & N & _ & C). exists s', b. split; [auto|]. split; [auto|]. split; [auto|]. split; [auto|].
  destruct (Nat.eq_dec b a) as [->|Hb]; [auto|]. assert (L : (h < length (vars s))%nat) by (eapply nth_error_lt_inv; eauto).
  destruct C as [(C1 & _ & C3)|(C1 & _)]; [congruence|]. split; [lia|]. right. rewrite V in N. rewrite (nrefs_upd _ _ (Some a)) in N by auto.
  rewrite ind_same in N. rewrite ind_diff in N by auto. lia.
Qed.
Lemma step_moved s o s' x : Inv s -> step s o = Ok (s', x) -> moved s o (vars s').
Proof.
  intros HI. destruct o as [l| |f n|h|h g|h i v|h i|h|h l|h|f i v]; cbn [step].
  - intros H; injection H as <- _. cbn. constructor.
  - intros H; injection H as <- _. cbn. constructor.
  - destruct (nth_error (ext s) f) as [[l|]|]; try discriminate. destruct (n <=? length l); try discriminate. intros H; injection H as <- _. cbn. constructor.
  - unfold var. destruct (nth_error (vars s) h) as [[a|]|] eqn:E; try discriminate. cbn [bind]. destruct (reference s a) as [[s1 b]| | |] eqn:R; try discriminate. cbn [bind].
    intros H; injection H as <- _. destruct (reference_vars _ _ _ _ R) as (V & -> & _). cbn. rewrite V. eapply mv_copy; eauto.
  - unfold var. destruct (nth_error (vars s) h) as [[a|]|] eqn:E; try discriminate. cbn [bind]. destruct (nth_error (vars s) g) as [[b|]|] eqn:E2; try discriminate. cbn [bind].
    destruct (b =? a) eqn:Eb; [intros H; injection H as <- _; constructor|]. destruct (dereference s a) as [s1| | |] eqn:D; try discriminate. cbn [bind].
    destruct (reference s1 b) as [[s2 b']| | |] eqn:R; try discriminate. cbn [bind]. intros H; injection H as <- _. destruct (reference_vars _ _ _ _ R) as (V & -> & _).
    destruct (dereference_vars _ _ _ D) as [V1 _]. cbn. rewrite V, V1. eapply mv_assign; eauto.
  - destruct (nth_error (vars s) h) as [[a|]|] eqn:E.
    + destruct (appropriate_moved s h a HI E) as (s1 & b & E1 & _ & V & _ & B1 & B2). rewrite E1. cbn [bind]. destruct (var s1 h) as [c| | |]; try discriminate. cbn [bind].
      destruct (store s1 c i v) as [s2| | |] eqn:S; try discriminate. cbn [bind]. intros H; injection H as <- _. rewrite (store_vars _ _ _ _ _ S), V. eapply mv_write; eauto.
    + unfold appropriate, var. rewrite E. discriminate.
    + unfold appropriate, var. rewrite E. discriminate.
  - destruct (var s h) as [a| | |]; try discriminate. cbn [bind]. destruct (get s a) as [p| | |]; try discriminate. cbn [bind]. destruct (contents s (pbuf p)) as [l| | |]; try discriminate. cbn [bind].
    destruct (rd l i); try discriminate. intros H; injection H as <- _. constructor.
  - destruct (var s h) as [a| | |]; try discriminate. cbn [bind]. destruct (get s a) as [p| | |]; try discriminate. intros H; injection H as <- _. constructor.
  - unfold var. destruct (nth_error (vars s) h) as [[a|]|] eqn:E; try discriminate. cbn [bind]. destruct (dereference s a) as [s1| | |] eqn:D; try discriminate. cbn [bind].
    intros H; injection H as <- _. destruct (dereference_vars _ _ _ D) as [V1 V2]. cbn. rewrite V1, V2. eapply mv_set; eauto.
  - unfold var. destruct (nth_error (vars s) h) as [[a|]|] eqn:E; try discriminate. cbn [bind]. destruct (dereference s a) as [s1| | |] eqn:D; try discriminate. cbn [bind].
    intros H; injection H as <- _. destruct (dereference_vars _ _ _ D) as [V1 V2]. cbn. rewrite V1. eapply mv_set; eauto.
  - destruct (nth_error (ext s) f) as [[l|]|]; try discriminate. destruct (wr l i v); try discriminate. intros H; injection H as <- _. exact (mv_same s _).
Qed.

(* a kept pointer points into the block of its variable, alone if it is for writing *)
Definition good (vs : list (option nat)) (p : option (bool * nat)) (a : nat) : Prop :=
  match p with None => True | Some (w, h) => nth_error vs h = Some (Some a) /\ (w = true -> nrefs vs a = 1%Z) end.

Lemma refs_one_other vs h g a : nrefs vs a = 1%Z -> nth_error vs h = Some (Some a) -> g <> h -> nth_error vs g <> Some (Some a).
Proof. intros N E D E2. pose proof (nrefs_two vs h g a E E2 D). lia. Qed.

Lemma good_write vs g b c w h a : negb w && (g =? h) = false -> nth_error vs g = Some (Some b) -> (nrefs vs b = 1%Z -> c = b) -> (c = b \/ nrefs vs c = 0%Z) ->
  good vs (Some (w, h)) a -> good (upd vs g (Some c)) (Some (w, h)) a.
Proof.
  intros F Eg C1 C2 [G1 G2]. assert (Lh : h < length vs) by (eapply nth_error_lt_inv; eauto). pose proof (nrefs_pos _ _ _ G1) as Pos. destruct (Nat.eq_dec g h) as [->|D].
  - rewrite Nat.eqb_refl, andb_true_r in F. destruct w; [|discriminate]. assert (b = a) by congruence. subst b. rewrite C1 by auto.
    split; [apply nth_error_upd_eq; auto|]. intros _. rewrite (nrefs_upd _ _ (Some a)) by auto. rewrite G2 by auto. lia.
  - split; [rewrite nth_error_upd_ne; auto|]. intros Hw. rewrite (nrefs_upd _ _ (Some b)) by auto. rewrite G2 by auto.
    assert (Hb : b <> a) by (intros ->; apply (refs_one_other vs h g a); auto). rewrite (ind_diff b a) by auto. rewrite ind_diff; [lia|]. intros ->.
    destruct C2 as [->|C2]; [congruence|]. lia.
Qed.
Lemma good_moved s o vs w h a : Inv s -> moved s o vs -> forgets o (w, h) = false -> good (vars s) (Some (w, h)) a -> good vs (Some (w, h)) a.
Proof.
  intros HI M F [G1 G2]. assert (Lh : h < length (vars s)) by (eapply nth_error_lt_inv; eauto). pose proof (nrefs_pos _ _ _ G1) as Pos.
  destruct M as [ | |g b E Eg|g f b c E Eg Ef|g i v b c E Eg C1 C2|g b c E Eg C].
  - split; auto.
  - split; [rewrite nth_error_app1; auto|]. intros Hw. rewrite nrefs_app, G2 by auto. rewrite ind_diff; [lia|]. intros <-. rewrite (fresh_refs s HI) in Pos. lia.
  - split; [rewrite nth_error_app1; auto|]. intros Hw. subst o. cbn in F. rewrite Hw in F. cbn in F. apply Nat.eqb_neq in F. rewrite nrefs_app, G2 by auto.
    rewrite ind_diff; [lia|]. intros ->. apply (refs_one_other (vars s) h g a); auto.
  - subst o. cbn in F. apply orb_false_iff in F as [F1 F2]. apply Nat.eqb_neq in F1. split; [rewrite nth_error_upd_ne; auto|]. intros Hw. rewrite Hw in F2. cbn in F2. apply Nat.eqb_neq in F2.
    rewrite (nrefs_upd _ _ (Some b)) by auto. rewrite G2 by auto. rewrite (ind_diff b a) by (intros ->; apply (refs_one_other (vars s) h g a); auto).
    rewrite (ind_diff c a) by (intros ->; apply (refs_one_other (vars s) h f a); auto). lia.
  - subst o. cbn in F. eapply good_write; eauto. split; auto.
  - assert (D : g <> h). { destruct E as [[l ->]| ->]; cbn in F; apply Nat.eqb_neq in F; auto. }
    split; [rewrite nth_error_upd_ne; auto|]. intros Hw. rewrite (nrefs_upd _ _ (Some b)) by auto. rewrite G2 by auto.
    assert (Hb : b <> a) by (intros ->; apply (refs_one_other (vars s) h g a); auto). rewrite (ind_diff b a) by auto.
    destruct C as [->| ->]; [rewrite ind_none; lia|]. rewrite ind_diff; [lia|]. intros <-. rewrite (fresh_refs s HI) in Pos. lia.
Qed.

Definition IRel (s : istate A) (t : sstate A * kept) : Prop :=
  Rel (ist s) (fst t) /\ Forall2 (good (vars (ist s))) (snd t) (iptr s).

Lemma good_forget vs vs' f ks ps : (forall w h a, f (w, h) = false -> good vs (Some (w, h)) a -> good vs' (Some (w, h)) a) ->
  Forall2 (good vs) ks ps -> Forall2 (good vs') (forget f ks) ps.
Proof.
  intros H G. induction G as [|k a ks ps Hk G IH]; cbn; constructor; auto. destruct k as [[w h]|]; [|exact I]. destruct (f (w, h)) eqn:E; [exact I|]. apply H; auto.
Qed.
Lemma forall2_nth {X Y} (P : X -> Y -> Prop) l m k x : Forall2 P l m -> nth_error l k = Some x -> exists y, nth_error m k = Some y /\ P x y.
Proof. intros H. revert k. induction H as [|x0 y0 l m H0 H IH]; intros [|k] E; cbn in *; try discriminate; [injection E as <-; eauto|auto]. Qed.

Lemma isim_step (s : istate A) t o t' x : IRel s t -> isstep t o = Some (t', x) ->
  exists s' : istate A, istep s o = Ok (s', x) /\ IRel s' t' /\ ext (ist s') = ext (ist s).
Proof.
  destruct s as [s ps], t as [t ks]. intros [R G] H. cbn [ist iptr fst snd] in *. destruct o as [o|h|h|k i|k i v]; cbn [isstep istep ist iptr] in *.
  - destruct (sstep t o) as [[t1 y]|] eqn:E; [|discriminate]. injection H as <- <-. destruct (sim_step s t o t1 y R E) as (s1 & E1 & R1 & X1). rewrite E1. cbn [bind].
    eexists. split; [reflexivity|]. split; [|exact X1]. split; [exact R1|]. cbn [snd iptr ist fst]. eapply good_forget; [|exact G]. intros w h a F Gd.
    eapply good_moved; eauto. { apply R. } eapply step_moved; eauto. apply R.
  - destruct (svar t h) as [l|] eqn:E; [|discriminate]. injection H as <- <-. pose proof (Rel_svar _ _ _ _ R E) as Es. destruct R as [HI HS].
    rewrite nth_seen in Es. destruct (nth_error (vars s) h) as [[a|]|] eqn:Ea; try discriminate.
    destruct (appropriate_moved s h a HI Ea) as (s1 & b & E1 & I1 & V & N & B1 & B2).
    destruct (appropriate_ok s h a HI Ea) as (s1' & b' & E1' & _ & V' & X' & _ & K & C). rewrite E1 in E1'. injection E1' as <-.
    assert (Lh : h < length (vars s)) by (eapply nth_error_lt_inv; eauto).
    rewrite E1. cbn [bind]. rewrite (var_ok s1 h b) by (rewrite V; apply nth_error_upd_eq; auto). cbn [bind]. eexists. split; [reflexivity|]. split; [|exact X'].
    split; cbn [fst snd ist iptr].
    + split; [exact I1|]. rewrite <- HS. apply (list_eq_nth_len _ _); [unfold seen; rewrite !map_length, V, length_upd; reflexivity|]. intros g _. rewrite !nth_seen.
      assert (vb : forall (q : state A) g0 a0 bf, nth_error (vars q) g0 = Some (Some a0) -> (vbuf q g0 = Some bf <-> look q (Some a0) = Some bf)).
      { intros q g0 a0 bf Eg. unfold vbuf, look. rewrite Eg. tauto. }
      destruct (Nat.eq_dec g h) as [->|Dg].
      * rewrite V, nth_error_upd_eq by auto. rewrite Ea. cbn [option_map]. f_equal.
        destruct C as [(C1 & C2 & _)|(_ & p & l0 & Hp & Hl & Hh)]; [rewrite (B1 C1), C2; reflexivity|].
        assert (b' = b). { apply (f_equal (fun z => nth_error z h)) in V, V'. rewrite nth_error_upd_eq in V, V' by auto. congruence. } subst b'.
        rewrite (look_at _ _ _ Hh), (look_at _ _ _ Hp). cbn [pbuf]. cbn [option_map] in Es. rewrite (look_at _ _ _ Hp) in Es. injection Es as Es. rewrite Es in *. cbn in Hl. congruence.
      * rewrite V, nth_error_upd_ne by auto. destruct (nth_error (vars s) g) as [[c|]|] eqn:Ec; [|reflexivity|reflexivity]. cbn [option_map]. f_equal.
        destruct (look s (Some c)) as [bf|] eqn:El; [|exfalso; apply (look_live s g c HI Ec El)].
        apply (vb s1 g c); [rewrite V, nth_error_upd_ne; auto|]. apply K; auto. apply (vb s g c); auto.
    + apply Forall2_app; [|constructor; [|constructor]].
      * eapply good_forget; [|exact G]. intros w g c F Gd. rewrite V. cbn [fst snd] in F. eapply good_write; eauto. rewrite Nat.eqb_sym. exact F.
      * split; [rewrite V; apply nth_error_upd_eq; auto|auto].
  - destruct (svar t h) as [l|] eqn:E; [|discriminate]. injection H as <- <-. pose proof (Rel_svar _ _ _ _ R E) as Es.
    rewrite nth_seen in Es. destruct (nth_error (vars s) h) as [[a|]|] eqn:Ea; try discriminate. rewrite (var_ok s h a Ea). cbn [bind]. eexists. split; [reflexivity|]. split; [|reflexivity].
    split; [exact R|]. cbn [fst snd ist iptr]. apply Forall2_app; [exact G|]. constructor; [|constructor]. split; [exact Ea|discriminate].
  - destruct (nth_error ks k) as [[[w h]|]|] eqn:Ek; try discriminate. destruct (sstep t (ORead h i)) as [[t1 y]|] eqn:E; [|discriminate]. injection H as <- <-.
    destruct (forall2_nth _ _ _ _ _ G Ek) as (a & Ea & G1 & _). unfold ptr. cbn [iptr]. rewrite Ea. cbn [bind].
    destruct (sim_step s t (ORead h i) t1 y R E) as (s1 & E1 & R1 & X1). cbn [step] in E1. rewrite (var_ok s h a G1) in E1. cbn [bind] in E1.
    destruct (get s a) as [p| | |]; try discriminate. cbn [bind] in *. destruct (contents s (pbuf p)) as [l| | |]; try discriminate. cbn [bind] in *.
    destruct (rd l i) as [v| | |]; try discriminate. cbn [bind] in *. injection E1 as <- <-. eexists. split; [reflexivity|]. split; [split; auto|reflexivity].
  - destruct (nth_error ks k) as [[[[|] h]|]|] eqn:Ek; try discriminate. destruct (sstep t (OWrite h i v)) as [[t1 y]|] eqn:E; [|discriminate]. injection H as <- <-.
    destruct (forall2_nth _ _ _ _ _ G Ek) as (a & Ea & G1 & G2). unfold ptr. cbn [iptr]. rewrite Ea. cbn [bind].
    destruct (sim_step s t (OWrite h i v) t1 y R E) as (s1 & E1 & R1 & X1). pose proof (proj1 R) as HI.
    assert (Ap : appropriate s h = Ok s).
    { destruct (Inv_var _ _ _ HI G1) as (p & Hp & Hc & _). unfold appropriate. rewrite (var_ok s h a G1). cbn [bind]. rewrite (get_ok _ _ _ Hp). cbn [bind]. rewrite Hc, G2 by auto. reflexivity. }
    cbn [step] in E1. rewrite Ap in E1. cbn [bind] in E1. rewrite (var_ok s h a G1) in E1. cbn [bind] in E1. destruct (store s a i v) as [s2| | |] eqn:Es; try discriminate. cbn [bind] in *. injection E1 as <- <-.
    eexists. split; [reflexivity|]. split; [|exact X1]. split; [exact R1|]. cbn [fst snd ist iptr]. rewrite (store_vars _ _ _ _ _ Es). exact G.
Qed.
Lemma isim_run ops : forall (s : istate A) t t' xs, IRel s t -> isrun t ops = Some (t', xs) ->
  exists s' : istate A, irun s ops = Ok (s', xs) /\ IRel s' t' /\ ext (ist s') = ext (ist s).
Proof.
  induction ops as [|o ops IH]; intros s t t' xs R H; cbn [isrun irun] in *.
  - injection H as <- <-. eauto.
  - destruct (isstep t o) as [[t1 x]|] eqn:E; [|discriminate]. destruct (isrun t1 ops) as [[t2 ys]|] eqn:E2; [|discriminate]. injection H as <- <-.
    destruct (isim_step _ _ _ _ _ R E) as (s1 & E1 & R1 & X1). rewrite E1. cbn [bind]. destruct (IH _ _ _ _ R1 E2) as (s2 & F2 & R2 & X2). rewrite F2. cbn [bind].
    eexists. split; [reflexivity|]. split; [exact R2|congruence].
Qed.
End Iter.

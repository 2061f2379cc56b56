(* t *= t: the order in which begin() is asked for does not matter; whole programs. *)
From Verif Require Import Base Spec M_RefCount S_RefCount L_RefCount M_Iter S_Iter L_Iter M_Tensor M_Arith M_Range M_TensorHeap S_TensorHeap L_TensorHeap L_TensorHeap2 L_TensorHeap3 L_TensorHeap4.
Local Open Scope nat_scope.

Section Self.
Context {A : Type}.
Implicit Types (s : state A).

Definition square (f : A -> A -> A) (b i n : nat) (s : state A) : outcome (state A) :=
  for_from i n (fun i s => p <- M_RefCount.get s b ;; l <- contents s (pbuf p) ;; v <- rd l i ;; M_RefCount.store s b i (f v v)) s.

(* a is the block of the pointer that is read, b the block that is written *)
Definition agree s (a b i : nat) : Prop :=
  a = b \/ a <> b /\ exists p q l m, nth_error (heap s) a = Some (Some p) /\ pbuf p = Own l /\ nth_error (heap s) b = Some (Some q) /\ pbuf q = Own m /\
    forall j, i <= j -> nth_error l j = nth_error m j.

Lemma h_square (f : A -> A -> A) hi P ita itb dest a b : nth_error P ita = Some b -> nth_error P dest = Some b -> nth_error P itb = Some a ->
  forall n i s, agree s a b i ->
  hrun (loop n i (fun i _ => pbind (loadE ita i) (fun x => pbind (loadE itb i) (fun y => storeE dest i (f x y)))) tt) (mkH hi (mkI s P))
  = (s' <- square f b i n s ;; Ok (mkH hi (mkI s' P), tt)).
Proof.
  intros Ha Hd Hb. unfold square. induction n as [|n IH]; intros i s Ag; cbn [loop for_from]; [reflexivity|].
  rewrite !hrun_bind. unfold loadE at 1. cbn [hrun istep hE hI]. unfold ptr. cbn [iptr ist]. rewrite Ha. cbn [bind].
  destruct (M_RefCount.get s b) as [q| | |] eqn:Eq; try reflexivity. cbn [bind]. destruct (contents s (pbuf q)) as [m| | |] eqn:Em; try reflexivity. cbn [bind].
  destruct (rd m i) as [v| | |] eqn:Ev; try reflexivity. cbn [bind hrun].
  assert (E2 : (p <- M_RefCount.get s a ;; l <- contents s (pbuf p) ;; rd l i) = Ok v).
  { destruct Ag as [->|(Hne & p0 & q0 & l & m0 & Hp & Bp & Hq & Bq & J)]. { rewrite Eq. cbn [bind]. rewrite Em. cbn [bind]. exact Ev. }
    apply get_inv in Eq. rewrite Hq in Eq. injection Eq as ->. rewrite Bq in Em. cbn in Em. injection Em as ->. rewrite (get_ok _ _ _ Hp). cbn [bind]. rewrite Bp. cbn [contents bind].
    unfold rd in *. rewrite (J i ltac:(lia)). exact Ev. }
  rewrite hrun_bind. unfold loadE at 1. cbn [hrun istep hE hI]. unfold ptr. cbn [iptr ist]. rewrite Hb. cbn [bind].
  destruct (M_RefCount.get s a) as [p| | |] eqn:Ep; try discriminate. cbn [bind] in *. destruct (contents s (pbuf p)) as [l| | |] eqn:El; try discriminate. cbn [bind] in *. rewrite E2. cbn [bind hrun].
  unfold storeE at 1. cbn [hrun istep hE hI]. unfold ptr. cbn [iptr ist]. rewrite Hd. cbn [bind].
  destruct (M_RefCount.store s b i (f v v)) as [s1| | |] eqn:Es; try reflexivity. cbn [bind hrun]. apply IH.
  destruct Ag as [->|(Hne & p0 & q0 & l0 & m0 & Hp & Bp & Hq & Bq & J)]; [left; reflexivity|right]. split; [exact Hne|].
  unfold M_RefCount.store in Es. rewrite (get_ok _ _ _ Hq) in Es. cbn [bind] in Es. rewrite Bq in Es. unfold wr in Es. destruct (i <? length m0) eqn:Ei; [|discriminate]. cbn [bind] in Es. injection Es as <-.
  exists p0, (mkP (Own (upd m0 i (f v v))) (prefs q0) (powned q0)), l0, (upd m0 i (f v v)). cbn [put_heap heap]. rewrite nth_error_upd_ne by auto. rewrite nth_error_upd_eq by (eapply nth_error_lt_inv; eauto).
  split; [auto|]. split; [auto|]. split; [auto|]. split; [auto|]. intros j Hj. rewrite nth_error_upd_ne by lia. apply J. lia.
Qed.

Lemma begin_h s P h hi s' a : appropriate s h = Ok s' -> var s' h = Ok a -> hrun (beginE h) (mkH hi (mkI s P)) = Ok (mkH hi (mkI s' (P ++ [a])), length P).
Proof. intros H1 H2. unfold beginE. cbn. rewrite H1. cbn. rewrite H2. reflexivity. Qed.
Lemma cbegin_h s P h hi a : var s h = Ok a -> hrun (cbeginE h) (mkH hi (mkI s P)) = Ok (mkH hi (mkI s (P ++ [a])), length P).
Proof. intros H2. unfold cbeginE. cbn. rewrite H2. reflexivity. Qed.

Lemma appropriate_twice s h a : Inv s -> nth_error (vars s) h = Some (Some a) -> (forall b, nth_error (seen s) h = Some (Some b) -> exists l, b = Own l) ->
  exists s' b, appropriate s h = Ok s' /\ var s' h = Ok b /\ appropriate s' h = Ok s' /\ agree s' a b 0.
Proof.
  intros HI E HO. destruct (appropriate_ok s h a HI E) as (s' & b & E1 & I1 & V & X & N & K & C). exists s', b.
  assert (Lh : h < length (vars s)) by (eapply nth_error_lt_inv; eauto).
  assert (E2 : nth_error (vars s') h = Some (Some b)) by (rewrite V; apply nth_error_upd_eq; auto).
  split; [auto|]. split; [apply var_ok; auto|]. split.
  - destruct (appropriate_ok s' h b I1 E2) as (s'' & b' & E1' & _ & _ & _ & _ & _ & C'). destruct C' as [(_ & -> & _)|(C' & _)]; [auto|lia].
  - destruct C as [(_ & _ & ->)|(C1 & p & l & Hp & Hl & Hb)]; [left; reflexivity|]. right.
    assert (Sp : nth_error (seen s) h = Some (Some (pbuf p))). { rewrite nth_seen, E. cbn. rewrite Hp. reflexivity. }
    destruct (HO _ Sp) as [l0 B0]. rewrite B0 in Hl. cbn in Hl. injection Hl as ->.
    assert (Ho : (1 <= nrefs (upd (vars s) h None) a)%Z). { rewrite (nrefs_upd _ _ _ _ _ E). rewrite ind_same, ind_none. lia. }
    unfold nrefs in Ho. assert (Hin : In (Some a) (upd (vars s) h None)) by (apply (count_occ_In odec); lia). apply In_nth_error in Hin as [g Hg]. apply nth_upd_some in Hg as [Hgh Hg].
    assert (Vg : vbuf s g = Some (pbuf p)) by (apply vbuf_some; eauto). apply (K g _ Hgh) in Vg. apply vbuf_some in Vg as (a1 & p1 & Ev & Eh & Eb). rewrite V, nth_error_upd_ne, Hg in Ev by auto. injection Ev as <-.
    split. { intros ->. apply (nrefs_two (vars s') h g b) in E2; [lia| |auto]. rewrite V, nth_error_upd_ne; auto. }
    exists p1, (mkP (Own l) 1 true), l, l. split; [auto|]. split; [congruence|]. auto.
Qed.

Lemma locals_h {X} (p : prog A X) hi s : hrun (locals p) (mkH hi (mkI s [])) = ('(h, x) <- hrun p (mkH hi (mkI s [])) ;; Ok (mkH (hI h) (mkI (ist (hE h)) []), x)).
Proof. unfold locals. cbn [hrun iptr hE ist length]. rewrite hrun_bind. destruct (hrun p _) as [[h x]| | |]; reflexivity. Qed.
Lemma hbind_eq {X Y} (p : prog A X) (g g' : X -> prog A Y) h : (forall h' x, hrun p h = Ok (h', x) -> hrun (g x) h' = hrun (g' x) h') -> hrun (pbind p g) h = hrun (pbind p g') h.
Proof. intros H. rewrite !hrun_bind. destruct (hrun p h) as [[h' x]| | |]; try reflexivity. cbn. apply H. reflexivity. Qed.

Lemma transform_self (f : A -> A -> A) before h I E d e l m : before < 3 -> HRel h (mkW I E []) -> svar I d = Some m -> svar E e = Some l ->
  hrun (tensor_transform_assign f before (d, e) (d, e)) h = hrun (tensor_transform_assign f 3 (d, e) (d, e)) h.
Proof.
  intros Hb R Hd He. unfold tensor_transform_assign. cbn [fst snd].
  destruct (wsim _ _ _ _ _ R (w_listI I E [] d m Hd)) as (h1 & F1 & R1). destruct (wsim _ _ _ _ _ R1 (w_listI I E [] d m Hd)) as (h2 & F2 & R2).
  destruct (wsim _ _ _ _ _ R2 (w_sizeE I E [] e l He)) as (h3 & F3 & R3).
  apply hbind_eq. intros h1' x G1. rewrite F1 in G1. injection G1 as <- <-. apply hbind_eq. intros h2' x G2. rewrite F2 in G2. injection G2 as <- <-.
  apply hbind_eq. intros h2' x Ga. cbn [hrun] in Ga. destruct (verify_dims_match m m); [|discriminate]. cbn in Ga. injection Ga as <- <-. apply hbind_eq. intros h3' x G3. rewrite F3 in G3. injection G3 as <- <-.
  clear F1 F2 F3 R1 R2 R. destruct h3 as [hi [s P]]. destruct R3 as [_ [[HI HS] RP]]. cbn [hE ist iptr fst snd wE wK] in *. inversion RP. subst P. clear RP.
  assert (Es : nth_error (seen s) e = Some (Some (Own l))). { eapply Rel_svar; [split; eauto|exact He]. }
  assert (Ev : exists a, nth_error (vars s) e = Some (Some a)). { rewrite nth_seen in Es. destruct (nth_error (vars s) e) as [[a|]|]; try discriminate. eauto. }
  destruct Ev as [a Ea]. destruct (appropriate_twice s e a HI Ea) as (s' & b & A1 & A2 & A3 & Ag). { intros c Hc. rewrite Es in Hc. injection Hc as <-. eauto. }
  assert (Va : var s e = Ok a) by (apply var_ok; auto).
  assert (T3 : hrun (pbind (begins 3 e) (fun ps => pbind (cbeginE e) (fun itb => pbind (begins (3 - 3) e) (fun qs => pbind (Done (rd (ps ++ qs) 0)) (fun ita => pbind (Done (rd (ps ++ qs) 2)) (fun dest =>
      loop (length l) 0 (fun i _ => pbind (loadE ita i) (fun x => pbind (loadE itb i) (fun y => storeE dest i (f x y)))) tt))))))
      (mkH hi (mkI s [])) = (s1 <- square f b 0 (length l) s' ;; Ok (mkH hi (mkI s1 [b; b; b; b]), tt))).
  { cbn [begins]. rewrite !hrun_bind. rewrite (begin_h s [] e hi s' b) by auto. cbn [bind]. rewrite !hrun_bind. rewrite (begin_h s' _ e hi s' b) by auto. cbn [bind app]. rewrite !hrun_bind. rewrite (begin_h s' _ e hi s' b) by auto.
    cbn [bind app length]. cbn [hrun pbind bind]. rewrite !hrun_bind. rewrite (cbegin_h s' _ e hi b) by auto. cbn [bind app length]. cbn [rd nth_error pbind Nat.sub begins]. apply h_square with (a := b); try reflexivity. left. reflexivity. }
  assert (TB : exists P, hrun (pbind (begins before e) (fun ps => pbind (cbeginE e) (fun itb => pbind (begins (3 - before) e) (fun qs => pbind (Done (rd (ps ++ qs) 0)) (fun ita => pbind (Done (rd (ps ++ qs) 2)) (fun dest =>
      loop (length l) 0 (fun i _ => pbind (loadE ita i) (fun x => pbind (loadE itb i) (fun y => storeE dest i (f x y)))) tt))))))
      (mkH hi (mkI s [])) = (s1 <- square f b 0 (length l) s' ;; Ok (mkH hi (mkI s1 P), tt))).
  { destruct before as [|[|[|before]]]; [| | |lia]; cbn [begins Nat.sub].
    - exists [a; b; b; b]. cbn [pbind]. rewrite !hrun_bind. rewrite (cbegin_h s _ e hi a) by auto. cbn [bind app length]. rewrite !hrun_bind. rewrite (begin_h s _ e hi s' b) by auto. cbn [bind app]. rewrite !hrun_bind.
      rewrite (begin_h s' _ e hi s' b) by auto. cbn [bind app]. rewrite !hrun_bind. rewrite (begin_h s' _ e hi s' b) by auto. cbn [bind app length]. cbn [hrun pbind bind app rd nth_error]. apply h_square with (a := a); try reflexivity. exact Ag.
    - exists [b; b; b; b]. cbn [pbind]. rewrite !hrun_bind. rewrite (begin_h s _ e hi s' b) by auto. cbn [bind app length]. cbn [hrun pbind bind]. rewrite !hrun_bind. rewrite (cbegin_h s' _ e hi b) by auto. cbn [bind app length]. rewrite !hrun_bind.
      rewrite (begin_h s' _ e hi s' b) by auto. cbn [bind app]. rewrite !hrun_bind. rewrite (begin_h s' _ e hi s' b) by auto. cbn [bind app length]. cbn [hrun pbind bind app rd nth_error]. apply h_square with (a := b); try reflexivity. left. reflexivity.
    - exists [b; b; b; b]. cbn [pbind]. rewrite !hrun_bind. rewrite (begin_h s _ e hi s' b) by auto. cbn [bind app length]. rewrite !hrun_bind. rewrite (begin_h s' _ e hi s' b) by auto. cbn [bind app length]. cbn [hrun pbind bind]. rewrite !hrun_bind.
      rewrite (cbegin_h s' _ e hi b) by auto. cbn [bind app length]. rewrite !hrun_bind. rewrite (begin_h s' _ e hi s' b) by auto. cbn [bind app length]. cbn [hrun pbind bind app rd nth_error]. apply h_square with (a := b); try reflexivity. left. reflexivity. }
  destruct TB as [P TB]. rewrite !locals_h. rewrite TB, T3. destruct (square f b 0 (length l) s'); reflexivity.
Qed.

Lemma H_step h en I E (vs : values A) st vs' o : HRel h (mkW I E []) -> VRel en I E vs -> vstep vs st = Some (vs', o) ->
  exists h' I' E' en', hrun (exec en st) h = Ok (h', (en', o)) /\ HRel h' (mkW I' E' []) /\ VRel en' I' E' vs'.
Proof.
  intros R V H. destruct (self_transform st) eqn:Es.
  - destruct st; cbn in Es; try discriminate. apply andb_true_iff in Es as [Et Eb]. apply Nat.eqb_eq in Et. subst u. apply Nat.leb_le in Eb.
    assert (H3 : vstep vs (TOpTransform f 3 t t) = Some (vs', o)) by exact H.
    destruct (W_step en I E vs _ _ _ V H3) as (I' & E' & en' & W & V'). { cbn. apply andb_false_r. }
    destruct (wsim _ _ _ _ _ R W) as (h' & F & R'). exists h', I', E', en'. split; [|auto]. rewrite <- F.
    cbn [vstep] in H. unfold obind in H. destruct (tval vs t) as [x|] eqn:Hx; [|discriminate]. destruct (V_tval _ _ _ _ _ _ V Hx) as (d & e & En & Hd & He).
    unfold exec, tvar. rewrite En. cbn [pbind]. unfold quiet. rewrite !hrun_bind. rewrite (transform_self f before h I E d e _ _ ltac:(lia) R Hd He). reflexivity.
  - destruct (W_step en I E vs _ _ _ V H Es) as (I' & E' & en' & W & V'). destruct (wsim _ _ _ _ _ R W) as (h' & F & R'). exists h', I', E', en'. auto.
Qed.
Lemma H_run ss : forall h en I E (vs : values A) vs' os, HRel h (mkW I E []) -> VRel en I E vs -> vrun vs ss = Some (vs', os) ->
  exists h' I' E' en', exec_all en ss h = Ok (h', en', os) /\ HRel h' (mkW I' E' []) /\ VRel en' I' E' vs'.
Proof.
  induction ss as [|st ss IH]; intros h en I E vs vs' os R V H; cbn [vrun exec_all] in *.
  - injection H as <- <-. exists h, I, E, en. auto.
  - unfold obind in H. destruct (vstep vs st) as [[vs1 o]|] eqn:E1; [|discriminate]. cbn [fst snd] in H. destruct (vrun vs1 ss) as [[vs2 os2]|] eqn:E2; [|discriminate]. cbn [fst snd] in H. injection H as <- <-.
    destruct (H_step h en I E vs _ _ _ R V E1) as (h1 & I1 & E1' & en1 & F1 & R1 & V1). destruct (IH h1 en1 I1 E1' vs1 _ _ R1 V1 E2) as (h2 & I2 & E2' & en2 & F2 & R2 & V2).
    exists h2, I2, E2', en2. rewrite F1. cbn [bind]. rewrite F2. cbn [bind]. auto.
Qed.
Lemma H_empty : HRel (@empty_heap A) (mkW [] [] []) /\ VRel no_variables [] [] (mkV (A := A) [] []).
Proof.
  split.
  - split; [|split]; cbn.
    + split; [apply Inv_init|reflexivity].
    + split; [apply Inv_init|reflexivity].
    + constructor.
  - constructor; cbn; try constructor; intros; try (destruct t; discriminate).
    + destruct d; discriminate.
    + destruct e; discriminate.
Qed.
End Self.

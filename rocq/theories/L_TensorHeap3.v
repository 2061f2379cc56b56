(* Slices on vectors with values of their own, and whole statements. *)
From Verif Require Import Base Spec M_RefCount S_RefCount L_RefCount M_Iter S_Iter L_Iter M_Tensor M_Arith M_Range M_TensorHeap S_TensorHeap L_TensorHeap L_TensorHeap2.
Local Open Scope nat_scope.

Section Sl.
Context {A : Type}.
Implicit Types (I : sstate nat) (E : sstate A).

Lemma make_view_dep (x : tensor A) ss : make_view (mkT (dims x) (repeat tt (length (data x)))) ss = make_view x ss.
Proof. unfold make_view. cbn [dims data]. rewrite repeat_length. reflexivity. Qed.
Lemma map_nat_Z ns : forallb (Z.leb 0) ns = true -> map Z.of_nat (map Z.to_nat ns) = ns.
Proof. intros H. rewrite forallb_forall in H. rewrite map_map. rewrite <- (map_id ns) at 2. apply map_ext_in. intros z Hz. apply H in Hz. lia. Qed.
Lemma total_size_nonneg ns : forallb (Z.leb 0) ns = true -> total_size (map Z.to_nat ns) = Z.to_nat (total_sizeZ ns).
Proof. intros H. unfold total_size. rewrite map_nat_Z by auto. reflexivity. Qed.
Lemma loop_nonneg ns : forall a, (0 <= a)%Z -> (0 <= total_size_loop a ns)%Z.
Proof. induction ns as [|n ns IH]; intros a Ha; cbn; [auto|]. destruct (Z.ltb_spec n 0); [lia|]. apply IH. nia. Qed.
Lemma total_sizeZ_nonneg ns : (0 <= total_sizeZ ns)%Z.
Proof. unfold total_sizeZ. destruct ns; [lia|]. apply loop_nonneg. lia. Qed.

Lemma w_ranges_of I E d e (x : tensor A) ss v : svar I d = Some (dims x) -> svar E e = Some (data x) -> make_view x ss = Ok v ->
  wrun (ranges_of (d, e) ss) (mkW I E []) = Some (mkW I E [], v).
Proof.
  intros Hd He Hv. unfold ranges_of. cbn [fst snd]. eapply wbind_ok; [apply w_listI; eauto|]. eapply wbind_ok; [apply w_sizeE; eauto|]. rewrite make_view_dep, Hv. reflexivity.
Qed.
Lemma w_view_dims I E ns : forallb (Z.leb 0) ns = true -> wrun (view_dims ns) (mkW I E []) = Some (mkW (I ++ [Some (map Z.to_nat ns)]) E [], length I).
Proof. intros H. unfold view_dims. rewrite H. cbn [pbind]. apply w_makeI_new. Qed.
Lemma drop_first I (m : list nat) : upd ((I ++ [Some m]) ++ [Some m]) (length I) None = I ++ [None; Some m].
Proof. rewrite <- app_assoc. rewrite <- (Nat.add_0_r (length I)), upd_app_r. reflexivity. Qed.
Lemma w_view_make I E d e (x : tensor A) ss ns r : svar I d = Some (dims x) -> svar E e = Some (data x) -> make_view x ss = Ok (ns, r) -> forallb (Z.leb 0) ns = true ->
  wrun (view_make (d, e) ss) (mkW I E []) = Some (mkW (I ++ [None; Some (map Z.to_nat ns)]) (E ++ [Some (data x)]) [], ((length I + 1, length E), r)).
Proof.
  intros Hd He Hv Hn. unfold view_make. eapply wbind_ok; [eapply w_ranges_of; eauto|]. cbn [snd]. eapply wbind_ok; [apply w_view_dims; auto|]. eapply wbind_ok; [apply w_makeE_copy; eauto|].
  eapply wbind_ok; [apply w_makeI_copy; apply svar_end|]. eapply wbind_ok; [eapply w_destroyI; apply svar_app; apply svar_end|]. rewrite drop_first, app_length. reflexivity.
Qed.
Lemma w_mutable_view_make I E d e (x : tensor A) ss ns r : svar I d = Some (dims x) -> svar E e = Some (data x) -> make_view x ss = Ok (ns, r) -> forallb (Z.leb 0) ns = true ->
  wrun (mutable_view_make (d, e) ss) (mkW I E []) = Some (mkW (I ++ [None; Some (map Z.to_nat ns)]) E [], (length I + 1, r)).
Proof.
  intros Hd He Hv Hn. unfold mutable_view_make. eapply wbind_ok; [eapply w_ranges_of; eauto|]. eapply wbind_ok; [apply w_view_dims; auto|].
  eapply wbind_ok; [apply w_makeI_copy; apply svar_end|]. eapply wbind_ok; [eapply w_destroyI; apply svar_app; apply svar_end|]. rewrite drop_first, app_length. reflexivity.
Qed.

Lemma rdZ_inv (l : list A) j v : rdZ l j = Ok v -> (j <? 0)%Z = false /\ nth_error l (Z.to_nat j) = Some v.
Proof. unfold rdZ, rd. destruct (j <? 0)%Z; [discriminate|]. destruct (nth_error l (Z.to_nat j)); intros H; inversion H; subst; auto. Qed.
Lemma wrZ_inv (l l' : list A) j v : wrZ l j v = Ok l' -> (j <? 0)%Z = false /\ Z.to_nat j < length l /\ l' = upd l (Z.to_nat j) v.
Proof. unfold wrZ, wr. destruct (j <? 0)%Z; [discriminate|]. destruct (Z.to_nat j <? length l) eqn:Ek; intros H; inversion H; subst. apply Nat.ltb_lt in Ek. auto. Qed.
Lemma bnd_inv {X Y} (o : outcome X) (f : X -> outcome Y) y : (x <- o ;; f x) = Ok y -> exists x, o = Ok x /\ f x = Ok y.
Proof. destruct o; cbn; intros H; try discriminate. eauto. Qed.

Lemma w_slice_loop fuel I E K src eu it (d : list A) : svar E src = Some d -> src <> eu -> nth_error K it = Some (Some (true, eu)) -> (exists l, svar E eu = Some l) ->
  forall n r out k out', read_loop fuel n d r (out, k) = Ok out' ->
  wrun (slice_loop fuel n src r it k) (mkW I (upd E eu (Some out)) K) = Some (mkW I (upd E eu (Some out')) K, tt).
Proof.
  intros Hs Hne Hit [l Hl]. induction n as [|n IH]; intros r out k out' H; cbn [read_loop slice_loop] in *; [discriminate|].
  apply bnd_inv in H as ([j r'] & E1 & H). rewrite E1. cbn [pbind]. destruct (j =? nomore)%Z; [injection H as <-; reflexivity|].
  apply bnd_inv in H as (v & Ev & H). apply rdZ_inv in Ev as [Ej Ev]. rewrite Ej. apply bnd_inv in H as ([out1 k1] & Ep & H).
  unfold put, wr in Ep. cbn [fst snd] in Ep. destruct (k <? length out) eqn:Ek; [|discriminate]. cbn [bind] in Ep. injection Ep as <- <-.
  eapply wbind_ok; [eapply w_readE; [rewrite svar_upd_ne; eauto|exact Ev]|].
  eapply wbind_ok; [eapply w_storeE; [exact Hit|eapply svar_upd_eq; eauto|apply Nat.ltb_lt; auto]|]. rewrite upd_upd. apply IH. exact H.
Qed.
Lemma upd_end2 {B} (l : list B) a b c : upd (l ++ [a; b]) (length l + 1) c = l ++ [a; c].
Proof. rewrite upd_app_r. reflexivity. Qed.
Lemma w_tensor_slice fuel junk I E d e (x : tensor A) ss ns a : svar I d = Some (dims x) -> svar E e = Some (data x) -> proper x ss = true -> slice fuel junk x ss = Ok (ns, a) ->
  wrun (tensor_slice fuel junk (d, e) ss) (mkW I E []) = Some (mkW (I ++ [None; None; Some (map Z.to_nat ns)]) (E ++ [None; Some a]) [], (length I + 2, length E + 1)).
Proof.
  intros Hd He Hp F. unfold slice in F. unfold proper in Hp. apply bnd_inv in F as ([ns0 r] & Ev & F). rewrite Ev in Hp. unfold view_to_tensor in F.
  apply bnd_inv in F as (r' & Er & F). apply bnd_inv in F as (out' & Eo & F). injection F as -> ->.
  unfold tensor_slice. eapply wbind_ok; [eapply w_view_make; eauto|]. cbn [fst snd].
  eapply wbind_ok; [apply w_tensor_new; rewrite svar_at; reflexivity|]. rewrite Er. cbn [pbind snd]. rewrite !app_length. cbn [length].
  rewrite total_size_nonneg by auto. set (out := alloc junk (Z.to_nat (total_sizeZ ns))) in *.
  rewrite <- !app_assoc. cbn [app]. set (I2 := I ++ [None; Some (map Z.to_nat ns); Some (map Z.to_nat ns)]). set (E2 := E ++ [Some (data x); Some out]).
  assert (Hu : svar E2 (length E + 1) = Some out) by (unfold E2; rewrite svar_at; reflexivity).
  assert (Hw : svar E2 (length E) = Some (data x)) by (unfold E2; rewrite <- (Nat.add_0_r (length E)), svar_at; reflexivity).
  destruct (w_begin I2 E2 [] _ _ Hu) as (K1 & E1 & L1 & N1 & S1).
  eapply wbind_ok. { eapply w_locals with (K' := K1). eapply wbind_ok; [exact E1|]. cbn [length]. rewrite <- (svar_same _ _ _ Hu) at 1. eapply w_slice_loop; eauto. lia. }
  eapply wbind_ok. { eapply w_tensor_drop; [unfold I2; rewrite svar_at; reflexivity|rewrite svar_upd_ne by lia; exact Hw]. }
  cbn [wrun]. f_equal. f_equal. f_equal.
  - unfold I2. rewrite upd_app_r. reflexivity.
  - unfold E2. rewrite upd_app_r. cbn [upd]. rewrite <- (Nat.add_0_r (length E)), upd_app_r. reflexivity.
Qed.

Lemma w_fill_loop fuel I E e v : (exists l, svar E e = Some l) -> forall n r a a', fill_loop fuel n v r a = Ok a' ->
  wrun (fill_loop_h fuel n e v r) (mkW I (upd E e (Some a)) []) = Some (mkW I (upd E e (Some a')) [], tt).
Proof.
  intros [l Hl]. induction n as [|n IH]; intros r a a' H; cbn [fill_loop fill_loop_h] in *; [discriminate|].
  apply bnd_inv in H as ([j r'] & E1 & H). rewrite E1. cbn [pbind]. destruct (j =? nomore)%Z; [injection H as <-; reflexivity|].
  apply bnd_inv in H as (a1 & Ep & H). apply wrZ_inv in Ep as (Ej & Ek & ->). rewrite Ej.
  eapply wbind_ok; [eapply w_writeE; [eapply svar_upd_eq; eauto|exact Ek]|]. rewrite upd_upd. apply IH. exact H.
Qed.
Lemma w_tensor_set_number fuel I E d e (x z : tensor A) ss v : svar I d = Some (dims x) -> svar E e = Some (data x) -> proper x ss = true -> assign_scalar fuel x ss v = Ok z ->
  wrun (tensor_set_number fuel (d, e) ss v) (mkW I E []) = Some (mkW (I ++ [None; None]) (upd E e (Some (data z))) [], tt) /\ dims z = dims x.
Proof.
  intros Hd He Hp F. unfold assign_scalar in F. unfold proper in Hp. apply bnd_inv in F as ([ns r] & Ev & F). rewrite Ev in Hp.
  apply bnd_inv in F as (r' & Er & F). apply bnd_inv in F as (a' & Eo & F). injection F as <-. cbn [data dims]. split; [|reflexivity].
  unfold tensor_set_number. eapply wbind_ok; [eapply w_mutable_view_make; eauto|]. cbv beta iota. rewrite Er. cbn [pbind snd].
  eapply wbind_ok. { rewrite <- (svar_same _ _ _ He) at 1. eapply w_fill_loop; eauto. }
  erewrite w_destroyI; [|rewrite svar_at; reflexivity]. rewrite upd_end2. reflexivity.
Qed.

Lemma w_copy_element rf I E src i dst j l a v : svar E src = Some l -> nth_error l i = Some v -> svar E dst = Some a -> j < length a ->
  wrun (copy_element rf src i dst j) (mkW I E []) = Some (mkW I (upd E dst (Some (upd a j v))) [], tt).
Proof.
  intros Hs Hv Hd Hj. unfold copy_element. destruct rf.
  - eapply wbind_ok; [eapply w_readE; eauto|]. apply w_writeE; auto.
  - destruct (w_begin I E [] _ _ Hd) as (K1 & E1 & L1 & N1 & S1). eapply w_locals with (K' := K1). eapply wbind_ok; [exact E1|]. eapply wbind_ok; [eapply w_readE; eauto|].
    apply w_storeE; auto.
Qed.
Lemma w_copy_loop fuel rf I E src dst s : svar E src = Some s -> src <> dst -> (exists l, svar E dst = Some l) ->
  forall n r i a a', copy_loop fuel n s r i a = Ok a' ->
  wrun (copy_loop_h fuel n rf src dst r i) (mkW I (upd E dst (Some a)) []) = Some (mkW I (upd E dst (Some a')) [], tt).
Proof.
  intros Hs Hne [l Hl]. induction n as [|n IH]; intros r i a a' H; cbn [copy_loop copy_loop_h] in *; [discriminate|].
  apply bnd_inv in H as ([j r'] & E1 & H). rewrite E1. cbn [pbind]. destruct (j =? nomore)%Z; [injection H as <-; reflexivity|].
  apply bnd_inv in H as (v & Ev & H). apply bnd_inv in H as (a1 & Ep & H). apply wrZ_inv in Ep as (Ej & Ek & ->). rewrite Ej. unfold rd in Ev. destruct (nth_error s i) as [u|] eqn:Eu; inversion Ev; subst.
  eapply wbind_ok; [eapply w_copy_element; [rewrite svar_upd_ne; eauto|exact Eu|eapply svar_upd_eq; eauto|exact Ek]|]. rewrite upd_upd. apply IH. exact H.
Qed.
Lemma w_copy_loop_self fuel rf I E dst : (exists l, svar E dst = Some l) ->
  forall n r i a a', copy_loop_self fuel n r i a = Ok a' ->
  wrun (copy_loop_h fuel n rf dst dst r i) (mkW I (upd E dst (Some a)) []) = Some (mkW I (upd E dst (Some a')) [], tt).
Proof.
  intros [l Hl]. induction n as [|n IH]; intros r i a a' H; cbn [copy_loop_self copy_loop_h] in *; [discriminate|].
  apply bnd_inv in H as ([j r'] & E1 & H). rewrite E1. cbn [pbind]. destruct (j =? nomore)%Z; [injection H as <-; reflexivity|].
  apply bnd_inv in H as (v & Ev & H). apply bnd_inv in H as (a1 & Ep & H). apply wrZ_inv in Ep as (Ej & Ek & ->). rewrite Ej. unfold rd in Ev. destruct (nth_error a i) as [u|] eqn:Eu; inversion Ev; subst.
  eapply wbind_ok; [eapply w_copy_element; [eapply svar_upd_eq; eauto|exact Eu|eapply svar_upd_eq; eauto|exact Ek]|]. rewrite upd_upd. apply IH. exact H.
Qed.
Lemma total_agree ns m : forallb (Z.leb 0) ns = true -> (total_sizeZ ns =? Z.of_nat m)%Z = true -> (total_size (map Z.to_nat ns) =? m) = true.
Proof. intros H E. rewrite total_size_nonneg by auto. apply Nat.eqb_eq. apply Z.eqb_eq in E. lia. Qed.
Lemma w_tensor_set_slice fuel rf I E d e d' e' (x y z : tensor A) ss : svar I d = Some (dims x) -> svar E e = Some (data x) -> svar I d' = Some (dims y) -> svar E e' = Some (data y) ->
  proper x ss = true -> (e = e' /\ dims y = dims x /\ assign_self fuel x ss = Ok z \/ e <> e' /\ assign_tensor fuel x ss y = Ok z) ->
  wrun (tensor_set_slice fuel rf (d, e) ss (d', e')) (mkW I E []) = Some (mkW (I ++ [None; None]) (upd E e (Some (data z))) [], tt) /\ dims z = dims x.
Proof.
  intros Hd He Hd' He' Hp F.
  assert (F' : exists ns r r' a', make_view x ss = Ok (ns, r) /\ reset fuel r = Ok r' /\ (total_sizeZ ns =? Z.of_nat (total_size (dims y)))%Z = true /\ z = mkT (dims x) a' /\
     (e = e' /\ copy_loop_self fuel fuel r' 0 (data x) = Ok a' \/ e <> e' /\ copy_loop fuel fuel (data y) r' 0 (data x) = Ok a')).
  { destruct F as [(-> & Dy & F)|(Hn & F)]; [unfold assign_self in F|unfold assign_tensor in F].
    - apply bnd_inv in F as ([ns r] & Ev & F). apply bnd_inv in F as (u & Ea & F). unfold assert_ in Ea. destruct (_ =? _)%Z eqn:Et in Ea; [|discriminate].
      apply bnd_inv in F as (r' & Er & F). apply bnd_inv in F as (a' & Eo & F). injection F as <-. exists ns, r, r', a'. rewrite Dy. auto 10.
    - apply bnd_inv in F as ([ns r] & Ev & F). apply bnd_inv in F as (u & Ea & F). unfold assert_ in Ea. destruct (_ =? _)%Z eqn:Et in Ea; [|discriminate].
      apply bnd_inv in F as (r' & Er & F). apply bnd_inv in F as (a' & Eo & F). injection F as <-. exists ns, r, r', a'. auto 10. }
  clear F. destruct F' as (ns & r & r' & a' & Ev & Er & Et & -> & F). cbn [data dims]. split; [|reflexivity]. unfold proper in Hp. rewrite Ev in Hp.
  unfold tensor_set_slice. eapply wbind_ok; [eapply w_mutable_view_make; eauto|]. cbn [fst snd]. eapply wbind_ok; [apply w_listI; rewrite svar_at; reflexivity|].
  eapply wbind_ok; [apply w_listI; apply svar_app; eauto|]. rewrite (total_agree _ _ Hp Et). cbn [assert_ pbind]. rewrite Er. cbn [pbind].
  eapply wbind_ok with (w1 := mkW (I ++ [None; Some (map Z.to_nat ns)]) (upd E e (Some a')) []) (x := tt). { rewrite <- (svar_same _ _ _ He) at 1. destruct F as [(-> & F)|(Hn & F)]; [eapply w_copy_loop_self; eauto|eapply w_copy_loop with (s := data y); [exact He'|congruence|eauto|exact F]]. }
  erewrite w_destroyI; [|rewrite svar_at; reflexivity]. rewrite upd_end2. reflexivity.
Qed.
Lemma w_copy_view_loop fuel rf I E src dst s : svar E src = Some s -> src <> dst -> (exists l, svar E dst = Some l) ->
  forall n r1 r2 a a', copy_view_loop fuel n s r1 r2 a = Ok a' ->
  wrun (copy_view_loop_h fuel n rf src dst r1 r2) (mkW I (upd E dst (Some a)) []) = Some (mkW I (upd E dst (Some a')) [], tt).
Proof.
  intros Hs Hne [l Hl]. induction n as [|n IH]; intros r1 r2 a a' H; cbn [copy_view_loop copy_view_loop_h] in *; [discriminate|].
  apply bnd_inv in H as ([i r1'] & E1 & H). rewrite E1. apply bnd_inv in H as ([j r2'] & E2 & H). rewrite E2. cbn [pbind]. destruct ((i =? nomore)%Z || (j =? nomore)%Z); [injection H as <-; reflexivity|].
  apply bnd_inv in H as (v & Ev & H). apply bnd_inv in H as (a1 & Ep & H). apply wrZ_inv in Ep as (Ei & Ek & ->). apply rdZ_inv in Ev as (Ej & Ev). rewrite Ei, Ej. cbn [orb].
  eapply wbind_ok; [eapply w_copy_element; [rewrite svar_upd_ne; eauto|exact Ev|eapply svar_upd_eq; eauto|exact Ek]|]. rewrite upd_upd. apply IH. exact H.
Qed.
Lemma w_tensor_set_view fuel rf I E d e d' e' (x y z : tensor A) ss su : svar I d = Some (dims x) -> svar E e = Some (data x) -> svar I d' = Some (dims y) -> svar E e' = Some (data y) ->
  proper x ss = true -> proper y su = true -> assign_view fuel x ss y su = Ok z ->
  wrun (tensor_set_view fuel rf (d, e) ss (d', e') su) (mkW I E []) = Some (mkW (I ++ [None; None; None; None]) (upd E e (Some (data z)) ++ [None]) [], tt) /\ dims z = dims x.
Proof.
  intros Hd He Hd' He' Hp Hq F. unfold assign_view in F. apply bnd_inv in F as ([ns r] & Ev & F). apply bnd_inv in F as ([ms q] & Ew & F). apply bnd_inv in F as (u & Ea & F). unfold assert_ in Ea.
  destruct (_ =? _)%Z eqn:Et in Ea; [|discriminate]. apply bnd_inv in F as (r' & Er & F). apply bnd_inv in F as (q' & Eq & F). apply bnd_inv in F as (a' & Eo & F). injection F as <-.
  cbn [data dims]. split; [|reflexivity]. unfold proper in Hp, Hq. rewrite Ev in Hp. rewrite Ew in Hq.
  unfold tensor_set_view. eapply wbind_ok; [eapply w_mutable_view_make; eauto|]. cbn [fst snd]. set (I1 := I ++ [None; Some (map Z.to_nat ns)]).
  assert (Hd1 : svar I1 (length I + 1) = Some (map Z.to_nat ns)) by (unfold I1; rewrite svar_at; reflexivity).
  eapply wbind_ok; [eapply w_view_make with (x := y); eauto; unfold I1; apply svar_app; auto|]. cbn [fst snd].
  eapply wbind_ok; [apply w_listI; apply svar_app; eauto|]. eapply wbind_ok; [apply w_listI; rewrite svar_at; reflexivity|].
  rewrite (total_agree ns (total_size (map Z.to_nat ms))); [|auto|rewrite total_size_nonneg by auto; pose proof (total_sizeZ_nonneg ms); rewrite Z2Nat.id by auto; exact Et].
  cbn [assert_ pbind]. rewrite Er, Eq. cbn [pbind]. set (E2 := E ++ [Some (data y)]). assert (He2 : svar E2 e = Some (data x)) by (apply svar_app; auto). assert (Hw : svar E2 (length E) = Some (data y)) by apply svar_end.
  assert (Hn : length E <> e) by (apply svar_lt in He; lia).
  eapply wbind_ok. { rewrite <- (svar_same _ _ _ He2) at 1. eapply w_copy_view_loop; eauto. }
  eapply wbind_ok. { eapply w_tensor_drop; [rewrite svar_at; reflexivity|rewrite svar_upd_ne by auto; exact Hw]. }
  rewrite upd_end2. erewrite w_destroyI; [|apply svar_app; exact Hd1]. f_equal. f_equal. f_equal.
  - rewrite upd_app_l by (apply svar_lt in Hd1; auto). unfold I1. rewrite upd_end2, <- app_assoc. reflexivity.
  - unfold E2. rewrite upd_app_l by (apply svar_lt in He; auto). rewrite <- (length_upd E e (Some a')), <- (Nat.add_0_r (length _)), upd_app_r. reflexivity.
Qed.
End Sl.

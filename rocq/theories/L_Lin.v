(* Lemmas about column-major positions, used by most proofs. *)
From Verif Require Import Base Spec.

Lemma validb_iff ds ix : validb ds ix = true <-> valid ds ix.
Proof.
  unfold valid. revert ix; induction ds as [|d ds IH]; intros [|i ix]; simpl.
  - split; auto.
  - split; [discriminate|inversion 1].
  - split; [discriminate|inversion 1].
  - rewrite andb_true_iff, Nat.ltb_lt, IH. split.
    + intros [? ?]; constructor; assumption.
    + inversion 1; subst; auto.
Qed.

Lemma valid_length ds ix : valid ds ix -> length ix = length ds.
Proof. induction 1; simpl; congruence. Qed.

Lemma valid_nil ix : valid [] ix <-> ix = [].
Proof. split; [inversion 1; auto | intros ->; constructor]. Qed.

Lemma valid_cons d ds i ix : valid (d :: ds) (i :: ix) <-> i < d /\ valid ds ix.
Proof. split; [inversion 1; subst; auto | intros [? ?]; constructor; auto]. Qed.

Lemma valid_cons_inv d ds ix :
  valid (d :: ds) ix -> exists i ix', ix = i :: ix' /\ i < d /\ valid ds ix'.
Proof. inversion 1; subst; eauto. Qed.

Lemma valid_app ds1 ds2 ix1 ix2 :
  length ix1 = length ds1 ->
  (valid (ds1 ++ ds2) (ix1 ++ ix2) <-> valid ds1 ix1 /\ valid ds2 ix2).
Proof.
  revert ix1; induction ds1 as [|d ds1 IH]; intros [|i ix1]; simpl; intros Hl; try discriminate.
  - split; [intros H; split; auto; constructor | tauto].
  - rewrite !valid_cons, IH by congruence. tauto.
Qed.

Lemma valid_app_inv ds1 ds2 ix :
  valid (ds1 ++ ds2) ix ->
  exists ix1 ix2, ix = ix1 ++ ix2 /\ valid ds1 ix1 /\ valid ds2 ix2.
Proof.
  unfold valid. intros H. apply Forall2_app_inv_r in H as (l1 & l2 & H1 & H2 & ->).
  eauto.
Qed.

Lemma valid_nth ds ix k i d :
  valid ds ix -> nth_error ix k = Some i -> nth_error ds k = Some d -> i < d.
Proof.
  intros H. revert k; induction H as [|i0 d0 ix ds Hi H IH]; intros [|k]; simpl; try discriminate.
  - intros E1 E2; inversion E1; inversion E2; subst; assumption.
  - apply IH.
Qed.

Lemma prod_cons d ds : prod (d :: ds) = d * prod ds.
Proof. reflexivity. Qed.

Lemma prod_app a b : prod (a ++ b) = prod a * prod b.
Proof.
  induction a as [|d a IH]; [rewrite Nat.mul_1_l; reflexivity|].
  rewrite <- app_comm_cons, !prod_cons, IH. lia.
Qed.

Lemma nelem_prod ds : ds <> [] -> nelem ds = prod ds.
Proof. destruct ds; [congruence|reflexivity]. Qed.

Lemma lin_nil ix : lin [] ix = 0.
Proof. reflexivity. Qed.

Lemma lin_cons d ds i ix : lin (d :: ds) (i :: ix) = i + d * lin ds ix.
Proof. reflexivity. Qed.

Lemma lin_app ds1 ds2 ix1 ix2 :
  length ix1 = length ds1 ->
  lin (ds1 ++ ds2) (ix1 ++ ix2) = lin ds1 ix1 + prod ds1 * lin ds2 ix2.
Proof.
  revert ix1; induction ds1 as [|d ds1 IH]; intros [|i ix1] Hl; try discriminate.
  - simpl. lia.
  - rewrite <- !app_comm_cons, !lin_cons, prod_cons, IH by (simpl in Hl; congruence). nia.
Qed.

Lemma lin_lt ds ix : valid ds ix -> lin ds ix < prod ds.
Proof.
  induction 1 as [|i d ix ds Hi H IH].
  - simpl; lia.
  - rewrite lin_cons, prod_cons. apply mix_lt; assumption.
Qed.

Lemma lin_inj ds ix1 ix2 : valid ds ix1 -> valid ds ix2 -> lin ds ix1 = lin ds ix2 -> ix1 = ix2.
Proof.
  intros H1; revert ix2; induction H1 as [|i d ix ds Hi H IH]; intros ix2 H2 E.
  - apply valid_nil in H2; auto.
  - apply valid_cons_inv in H2 as (j & ix2' & -> & Hj & H2).
    rewrite !lin_cons in E. apply mix_inj in E as [-> E]; auto.
    f_equal. apply IH; auto.
Qed.

(* the coordinates stored at position q *)
Fixpoint unlin (ds : list nat) (q : nat) : list nat :=
  match ds with
  | [] => []
  | d :: ds' => q mod d :: unlin ds' (q / d)
  end.

Lemma unlin_valid ds q : q < prod ds -> valid ds (unlin ds q).
Proof.
  revert q; induction ds as [|d ds IH]; intros q Hq; simpl.
  - constructor.
  - rewrite prod_cons in Hq. constructor.
    + apply Nat.mod_upper_bound. intros ->; lia.
    + apply IH. apply Nat.div_lt_upper_bound; [intros ->|]; lia.
Qed.

Lemma lin_unlin ds q : q < prod ds -> lin ds (unlin ds q) = q.
Proof.
  revert q; induction ds as [|d ds IH]; intros q Hq.
  - unfold prod in Hq; simpl in *; lia.
  - rewrite prod_cons in Hq. cbn [unlin]. rewrite lin_cons, IH.
    + symmetry. apply mix_split. intros ->; lia.
    + apply Nat.div_lt_upper_bound; [intros ->|]; lia.
Qed.

Lemma unlin_lin ds ix : valid ds ix -> unlin ds (lin ds ix) = ix.
Proof.
  intros H. apply (lin_inj ds); auto.
  - apply unlin_valid, lin_lt, H.
  - apply lin_unlin, lin_lt, H.
Qed.

Lemma lin_surj ds q : q < prod ds -> exists ix, valid ds ix /\ lin ds ix = q.
Proof. intros H. exists (unlin ds q). split; [apply unlin_valid|apply lin_unlin]; auto. Qed.

Section Elt.
  Context {A : Type}.
  Implicit Types t u : tensor A.

  Lemma elt_valid t ix : valid (dims t) ix -> elt t ix = nth_error (data t) (lin (dims t) ix).
  Proof. intros H. unfold elt. apply validb_iff in H. rewrite H. reflexivity. Qed.

  Lemma elt_some t ix : wf t -> dims t <> [] -> valid (dims t) ix -> exists x, elt t ix = Some x.
  Proof.
    intros Hw Hd H. rewrite elt_valid by assumption. apply nth_error_lt.
    rewrite Hw, nelem_prod by assumption. apply lin_lt; assumption.
  Qed.

  Lemma elt_some_valid t ix x : elt t ix = Some x -> valid (dims t) ix.
  Proof. unfold elt. destruct (validb (dims t) ix) eqn:E; [|discriminate]. intros _. apply validb_iff; auto. Qed.

  Lemma data_elt t q : wf t -> q < length (data t) ->
    nth_error (data t) q = elt t (unlin (dims t) q).
  Proof.
    intros Hw Hq. rewrite Hw in Hq.
    assert (Hd : dims t <> []) by (intros E; rewrite E in Hq; simpl in Hq; lia).
    rewrite nelem_prod in Hq by assumption.
    rewrite elt_valid by (apply unlin_valid; assumption).
    rewrite lin_unlin by assumption. reflexivity.
  Qed.

  Lemma tensor_ext t u : wf t -> wf u -> same_elts t u -> t = u.
  Proof.
    intros Ht Hu [Hd He]. destruct t as [dt xt], u as [du xu]; simpl in *. subst du.
    f_equal. unfold wf in *; simpl in *. apply list_eq_nth_len; [congruence|].
    intros q Hq. rewrite Ht in Hq.
    assert (Hne : dt <> []) by (intros ->; simpl in Hq; lia).
    rewrite nelem_prod in Hq by assumption.
    specialize (He (unlin dt q) (unlin_valid _ _ Hq)).
    unfold elt in He; simpl in He.
    rewrite (proj2 (validb_iff dt (unlin dt q)) (unlin_valid _ _ Hq)) in He.
    rewrite lin_unlin in He by assumption. exact He.
  Qed.

  Lemma elt_map_seq ds (f : nat -> A) n ix :
    n = prod ds -> valid ds ix -> elt (mkT ds (map f (seq 0 n))) ix = Some (f (lin ds ix)).
  Proof.
    intros -> H. rewrite elt_valid by assumption; simpl.
    apply nth_error_map_seq, lin_lt, H.
  Qed.

  Lemma wf_map_seq ds (f : nat -> A) : ds <> [] -> wf (mkT ds (map f (seq 0 (prod ds)))).
  Proof.
    intros H. unfold wf; simpl. rewrite map_length, seq_length, nelem_prod; auto.
  Qed.
End Elt.

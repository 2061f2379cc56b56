(* Lemmas for P_Matsort.v *)
From Coq Require Import QArith Lqa Permutation Sorting.Sorted.
From Verif Require Import Base Spec S_Pysdf S_Matsdf S_Matsort M_Pysdf M_Matsort L_Pysdf.
Local Open Scope nat_scope.

(* ---- the sort ---- *)
Definition placed (le : nat -> nat -> bool) (a b : nat) : Prop := le a b = true /\ (le b a = true -> a < b).

Section Le.
Context (le : nat -> nat -> bool).
Context (le_total : forall a b, le a b = true \/ le b a = true).
Context (le_trans : forall a b c, le a b = true -> le b c = true -> le a c = true).

Lemma insert_perm i l : Permutation (insert le i l) (i :: l).
Proof.
  clear. induction l as [|j l IH]; cbn [insert]; [apply Permutation_refl|]. destruct (le i j); [apply Permutation_refl|].
  eapply Permutation_trans; [apply perm_skip, IH|apply perm_swap].
Qed.
Lemma sort_perm_from k n : Permutation (fold_right (insert le) [] (seq k n)) (seq k n).
Proof.
  clear. revert k. induction n as [|n IH]; intros k; cbn [seq fold_right]; [apply Permutation_refl|].
  eapply Permutation_trans; [apply insert_perm|apply perm_skip, IH].
Qed.
Lemma insert_placed i l : Forall (fun j => i < j) l -> StronglySorted (placed le) l -> StronglySorted (placed le) (insert le i l).
Proof.
  intros F S. induction S as [|j l S IH Fj]; cbn [insert]; [repeat constructor|].
  inversion F as [|? ? Lij F']; subst. destruct (le i j) eqn:Q.
  - constructor; [constructor; auto|]. constructor; [split; auto|].
    rewrite Forall_forall in *. intros x Ix. split; [|intros _; auto]. apply (le_trans i j x Q). apply Fj; auto.
  - constructor; [apply IH; auto|]. apply (Permutation_Forall (Permutation_sym (insert_perm i l))).
    constructor; auto. split; [destruct (le_total i j); congruence|congruence].
Qed.
Lemma sort_placed_from k n : StronglySorted (placed le) (fold_right (insert le) [] (seq k n)).
Proof.
  revert k. induction n as [|n IH]; intros k; cbn [seq fold_right]; [constructor|].
  apply insert_placed; [|apply IH]. apply (Permutation_Forall (Permutation_sym (sort_perm_from (S k) n))).
  apply Forall_forall. intros x Ix. apply in_seq in Ix. lia.
Qed.
End Le.

Lemma sorted_nth {A} (R : A -> A -> Prop) l d : StronglySorted R l -> forall a b, a < b < length l -> R (nth a l d) (nth b l d).
Proof.
  induction 1 as [|x l S IH F]; intros a b L; cbn [length] in L; [lia|].
  destruct b as [|b]; [lia|]. destruct a as [|a]; cbn [nth].
  - rewrite Forall_forall in F. apply F, nth_In. lia.
  - apply IH. lia.
Qed.
Lemma sort_length le n : length (sort_by le n) = n.
Proof. unfold sort_by. rewrite (Permutation_length (sort_perm_from le 0 n)). apply seq_length. Qed.
Lemma sort_in le n p : In p (sort_by le n) <-> p < n.
Proof.
  unfold sort_by. split; intros H.
  - apply (Permutation_in _ (sort_perm_from le 0 n)), in_seq in H. lia.
  - apply (Permutation_in _ (Permutation_sym (sort_perm_from le 0 n))), in_seq. lia.
Qed.

Lemma qcompare_spec (a b : Q) : CompareSpec (a == b)%Q (a < b)%Q (b < a)%Q (a ?= b)%Q.
Proof.
  destruct (a ?= b)%Q eqn:C; constructor; [apply Qeq_alt|apply Qlt_alt|apply Qgt_alt]; exact C.
Qed.
Lemma row_total cols a b : row_le cols a b = true \/ row_le cols b a = true.
Proof.
  induction cols as [|c cols IH]; cbn [row_le]; [auto|].
  destruct (qcompare_spec (nth a c 0%Q) (nth b c 0%Q)), (qcompare_spec (nth b c 0%Q) (nth a c 0%Q)); auto; exfalso; lra.
Qed.
Lemma row_trans cols a b c : row_le cols a b = true -> row_le cols b c = true -> row_le cols a c = true.
Proof.
  induction cols as [|k cols IH]; cbn [row_le]; [auto|].
  destruct (qcompare_spec (nth a k 0%Q) (nth b k 0%Q)), (qcompare_spec (nth b k 0%Q) (nth c k 0%Q)), (qcompare_spec (nth a k 0%Q) (nth c k 0%Q)); try discriminate; auto; intros; exfalso; lra.
Qed.
Lemma row_le_spec cols a b : row_le cols a b = true -> before cols a b \/ alike cols a b.
Proof.
  induction cols as [|c cols IH]; cbn [row_le]; [right; intros k L; cbn [length] in L; lia|].
  destruct (qcompare_spec (nth a c 0%Q) (nth b c 0%Q)) as [Q|Q|Q]; [intros H|intros _|discriminate].
  - destruct (IH H) as [(k & L & Eq & Lt)|Al].
    + left. exists (S k). cbn [length nth]. split; [lia|]. split; [|exact Lt]. intros [|h] Lh; cbn [nth]; [exact Q|apply Eq; lia].
    + right. intros [|k] L; cbn [nth length] in *; [exact Q|apply Al; lia].
  - left. exists 0. cbn [length nth]. split; [lia|]. split; [intros h Lh; lia|exact Q].
Qed.
Lemma alike_le cols a b : alike cols a b -> row_le cols b a = true.
Proof.
  induction cols as [|c cols IH]; intros H; cbn [row_le]; [reflexivity|].
  pose proof (H 0 ltac:(cbn [length]; lia)) as H0. cbn [nth] in H0.
  destruct (qcompare_spec (nth b c 0%Q) (nth a c 0%Q)) as [Q|Q|Q]; [|reflexivity|exfalso; lra].
  apply IH. intros k L. apply (H (S k)). cbn [length]. lia.
Qed.
Lemma sorts_ok cols l : sorts cols l (sort_by (row_le cols) l).
Proof.
  split; [apply sort_length|]. split; [intros p; apply sort_in|]. intros a b L.
  destruct (sorted_nth _ _ 0 (sort_placed_from (row_le cols) (row_total cols) (row_trans cols) 0 l) a b) as [P1 P2].
  { pose proof (sort_length (row_le cols) l) as Q. unfold sort_by in Q. rewrite Q. exact L. }
  fold (sort_by (row_le cols) l) in P1, P2. destruct (row_le_spec _ _ _ P1) as [Bf|Al]; [auto|right]. split; [exact Al|]. apply P2, alike_le, Al.
Qed.

(* ---- entries ---- *)
Lemma last_big_shift i ds : last_big (S i) ds = option_map S (last_big i ds).
Proof.
  revert i. induction ds as [|d ds IH]; intros i; cbn [last_big]; [reflexivity|]. rewrite (IH (S i)).
  destruct (last_big (S i) ds); cbn [option_map]; [reflexivity|]. destruct (1 <? d); reflexivity.
Qed.
Lemma last_big_none ds : Forall (fun d => d <= 1) ds -> last_big 0 ds = None.
Proof.
  induction 1 as [|d ds Ld F IH]; cbn [last_big]; [reflexivity|]. rewrite last_big_shift, IH. cbn [option_map].
  destruct (Nat.ltb_spec 1 d); [lia|reflexivity].
Qed.
Lemma last_big_at bf l af : 1 < l -> Forall (fun d => d <= 1) af -> last_big 0 (bf ++ l :: af) = Some (length bf).
Proof.
  intros Ll F. induction bf as [|d bf IH]; cbn [app last_big length]; rewrite last_big_shift.
  - rewrite (last_big_none af F). cbn [option_map]. destruct (Nat.ltb_spec 1 l); [reflexivity|lia].
  - rewrite IH. reflexivity.
Qed.
Lemma last_big_inv ds k : last_big 0 ds = Some k -> exists bf l af, ds = bf ++ l :: af /\ length bf = k /\ 1 < l /\ Forall (fun d => d <= 1) af.
Proof.
  revert k. induction ds as [|d ds IH]; intros k; cbn [last_big]; [discriminate|]. rewrite last_big_shift.
  destruct (last_big 0 ds) as [k'|] eqn:L; cbn [option_map].
  - intros [= <-]. destruct (IH k' eq_refl) as (bf & l & af & -> & <- & Ll & F). exists (d :: bf), l, af. auto.
  - destruct (Nat.ltb_spec 1 d) as [Ld|]; [|discriminate]. intros [= <-]. exists [], d, ds. repeat split; auto.
    clear - L. induction ds as [|e ds IH]; constructor; cbn [last_big] in L; rewrite last_big_shift in L; destruct (last_big 0 ds); cbn [option_map] in L; try discriminate;
      destruct (Nat.ltb_spec 1 e); try discriminate; auto; lia.
Qed.
Lemma prod_app a b : prod (a ++ b) = prod a * prod b.
Proof. unfold prod. induction a as [|x a IH]; cbn [app fold_right]; [lia|rewrite IH; lia]. Qed.
Lemma entry_total {E} (t : tensor E) l : wf t -> has_entries t l -> length (data t) = entry_size t l * l.
Proof.
  intros W (bf & af & Ed & Ll & F). unfold entry_size. assert (D : exists c, length (data t) = c * l).
  { unfold wf in W. exists (prod bf * prod af). rewrite W. unfold nelem. destruct (dims t) eqn:Q; [destruct bf; discriminate|]. rewrite Ed, prod_app. unfold prod at 2. cbn [fold_right]. fold (prod af). lia. }
  destruct D as (c & ->). rewrite Nat.div_mul; lia.
Qed.

Section Select.
Context {E : Type}.
Lemma select_length m order (l : list E) n : length l = m * n -> (forall p, In p order -> p < n) -> length (select m order l) = m * length order.
Proof.
  intros L H. unfold select. induction order as [|p order IH]; cbn [map concat length]; [lia|].
  rewrite app_length, IH by (intros q Q; apply H; right; auto). rewrite firstn_length_le; [lia|].
  rewrite skipn_length, L. specialize (H p (or_introl eq_refl)). nia.
Qed.
Lemma nth_error_firstn_lt (l : list E) m c : c < m -> nth_error (firstn m l) c = nth_error l c.
Proof. revert l c. induction m as [|m IH]; intros [|x l] [|c] L; cbn; try lia; auto. apply IH. lia. Qed.
Lemma nth_error_skipn_ (l : list E) k c : nth_error (skipn k l) c = nth_error l (k + c).
Proof. revert l. induction k as [|k IH]; intros [|x l]; cbn; auto. destruct c; reflexivity. Qed.
Lemma select_nth m order (l : list E) n a c : length l = m * n -> (forall p, In p order -> p < n) -> a < length order -> c < m ->
  nth_error (select m order l) (c + m * a) = nth_error l (c + m * nth a order 0).
Proof.
  intros L. revert a. induction order as [|p order IH]; intros a H La Lc; cbn [length] in La; [lia|].
  assert (Lp : length (firstn m (skipn (m * p) l)) = m).
  { rewrite firstn_length_le; [reflexivity|]. rewrite skipn_length, L. specialize (H p (or_introl eq_refl)). nia. }
  unfold select. cbn [map concat]. fold (select m order l). destruct a as [|a]; cbn [nth].
  - rewrite nth_error_app1 by lia. replace (c + m * 0) with c by lia. rewrite nth_error_firstn_lt by lia. rewrite nth_error_skipn_. f_equal. lia.
  - rewrite nth_error_app2 by lia. replace (c + m * S a - _) with (c + m * a) by lia. apply IH; [intros q Q; apply H; right; auto|lia|lia].
Qed.

(* ---- the loop over the fields ---- *)
Lemma set_names (r : record E) name t t' : get_item r name = Some t -> map fst (set_item r name t') = map fst r.
Proof.
  induction r as [|[n o] r IH]; cbn [get_item set_item map]; [discriminate|]. destruct (list_eq_dec Z.eq_dec n name); cbn [map fst]; intros H; [reflexivity|]. f_equal. auto.
Qed.
Lemma get_some (r : record E) name : In name (map fst r) -> exists t, get_item r name = Some t.
Proof.
  induction r as [|[n o] r IH]; cbn [map get_item fst In]; [easy|]. intros [->|H]; [destruct (list_eq_dec Z.eq_dec name name); [eauto|congruence]|].
  destruct (list_eq_dec Z.eq_dec n name); eauto.
Qed.
Lemma get_in (r : record E) name t : get_item r name = Some t -> In name (map fst r).
Proof.
  induction r as [|[n o] r IH]; cbn [map get_item fst In]; [easy|]. destruct (list_eq_dec Z.eq_dec n name); auto.
Qed.
Lemma fields_ok (f : tensor E -> outcome (tensor E)) names : forall r, NoDup names -> incl names (map fst r) ->
  (forall name t, In name names -> get_item r name = Some t -> exists t', f t = Ok t') ->
  exists r', over_fields f names r = Ok r' /\ map fst r' = map fst r /\
    (forall name t, get_item r name = Some t -> exists t', get_item r' name = Some t' /\ (In name names -> f t = Ok t') /\ (~ In name names -> t' = t)).
Proof.
  induction names as [|n names IH]; intros r N I H; cbn [over_fields].
  - exists r. repeat split; auto. intros name t Q. exists t. repeat split; auto. easy.
  - inversion N as [|? ? Nn N']; subst. destruct (get_some r n (I n (or_introl eq_refl))) as (t & Qt). unfold getfield. rewrite Qt. cbn [bind].
    destruct (H n t (or_introl eq_refl) Qt) as (t' & Ft). rewrite Ft. cbn [bind].
    destruct (IH (set_item r n t') N') as (r' & Er & Nr & Hr).
    + rewrite (set_names r n t t' Qt). intros x Ix. apply I. right; auto.
    + intros name u In_ Gu. rewrite get_set in Gu. destruct (list_eq_dec Z.eq_dec n name) as [<-|D]; [contradiction|]. apply (H name u); [right; auto|auto].
    + exists r'. split; [exact Er|]. split; [rewrite Nr; apply (set_names r n t t' Qt)|]. intros name u Gu.
      destruct (list_eq_dec Z.eq_dec n name) as [<-|D].
      * destruct (Hr n t') as (v & Gv & _ & Kv); [rewrite get_set; destruct (list_eq_dec Z.eq_dec n n); congruence|].
        exists v. split; [exact Gv|]. rewrite Qt in Gu. injection Gu as <-. rewrite (Kv Nn). split; [auto|]. intros Q. exfalso. apply Q. left; reflexivity.
      * destruct (Hr name u) as (v & Gv & Iv & Kv); [rewrite get_set; destruct (list_eq_dec Z.eq_dec n name); [contradiction|auto]|].
        exists v. split; [exact Gv|]. split; [intros [Q|Q]; [contradiction|auto]|]. intros Q. apply Kv. intros Q'. apply Q. right; auto.
Qed.
(* an error in one field is an error *)
Lemma fields_abort (f : tensor E -> outcome (tensor E)) (Hf : forall t, (exists t', f t = Ok t') \/ f t = Abort) names : forall r name t,
  NoDup names -> incl names (map fst r) -> In name names -> get_item r name = Some t -> f t = Abort -> over_fields f names r = Abort.
Proof.
  induction names as [|n names IH]; intros r name t N I Hn Gt Ft; [easy|]. cbn [over_fields]. inversion N as [|? ? Nn N']; subst.
  destruct (get_some r n (I n (or_introl eq_refl))) as (u & Qu). unfold getfield. rewrite Qu. cbn [bind].
  destruct (Hf u) as [(u' & Fu)|Fu]; rewrite Fu; cbn [bind]; [|reflexivity].
  assert (D : n <> name) by (intros <-; congruence).
  apply (IH (set_item r n u') name t); auto.
  - rewrite (set_names r n u u' Qu). intros x Ix. apply I. right; auto.
  - destruct Hn as [Q|Q]; [contradiction|auto].
  - rewrite get_set. destruct (list_eq_dec Z.eq_dec n name); [contradiction|auto].
Qed.
End Select.

Lemma columns_ok {E} (num : E -> Q) (r : record E) l ts : forall acc names,
  Forall (fun c => length c = l) acc -> Forall2 (fun name t => get_item r name = Some t /\ length (data t) = l) names ts ->
  columns num r acc names = Ok (acc ++ map (fun t => map num (data t)) ts).
Proof.
  intros acc names F H. revert acc F. induction H as [|name t names ts (G & L) H IH]; intros acc F; cbn [columns map]; [rewrite app_nil_r; reflexivity|].
  unfold getfield. rewrite G. cbn [bind]. rewrite map_length, L. replace (forallb _ acc) with true.
  - rewrite IH by (apply Forall_app; split; [auto|constructor; [rewrite map_length; auto|constructor]]). rewrite <- app_assoc. reflexivity.
  - symmetry. apply forallb_forall. intros c Ic. rewrite Forall_forall in F. apply Nat.eqb_eq. auto.
Qed.

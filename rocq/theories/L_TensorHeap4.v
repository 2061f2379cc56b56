(* The variables of a program, their vectors, and the values they stand for. *)
From Verif Require Import Base Spec M_RefCount S_RefCount L_RefCount M_Iter S_Iter L_Iter M_Tensor M_Arith M_Range M_TensorHeap S_TensorHeap L_TensorHeap L_TensorHeap2 L_TensorHeap3.
Local Open Scope nat_scope.

Section V.
Context {A : Type}.
Implicit Types (I : sstate nat) (E : sstate A).

Definition trel I E (h : option thandle) (x : option (tensor A)) : Prop :=
  match h, x with Some (d, e), Some x => svar I d = Some (dims x) /\ svar E e = Some (data x) | None, None => True | _, _ => False end.
Definition irel I (h : option nat) (l : option (list nat)) : Prop :=
  match h, l with Some d, Some l => svar I d = Some l | None, None => True | _, _ => False end.

Record VRel (en : env) I E (vs : values A) : Prop := {
  v_t : Forall2 (trel I E) (etens en) (tens vs);
  v_i : Forall2 (irel I) (eind en) (inds vs);
  v_td : forall t u d e d' e', nth_error (etens en) t = Some (Some (d, e)) -> nth_error (etens en) u = Some (Some (d', e')) -> t <> u -> d <> d' /\ e <> e';
  v_id : forall t u d d', nth_error (eind en) t = Some (Some d) -> nth_error (eind en) u = Some (Some d') -> t <> u -> d <> d';
  v_x : forall t u d e d', nth_error (etens en) t = Some (Some (d, e)) -> nth_error (eind en) u = Some (Some d') -> d <> d';
  v_li : forall d l, svar I d = Some l -> (exists t e, nth_error (etens en) t = Some (Some (d, e))) \/ (exists u, nth_error (eind en) u = Some (Some d));
  v_le : forall e l, svar E e = Some l -> exists t d, nth_error (etens en) t = Some (Some (d, e))
}.

Lemma F2_nth {X Y} (P : X -> Y -> Prop) l m i a b : Forall2 P l m -> nth_error l i = Some a -> nth_error m i = Some b -> P a b.
Proof. intros H. revert i. induction H; intros [|i] E1 E2; cbn in *; try discriminate; [congruence|eauto]. Qed.
Lemma F2_upd {X Y} (P Q : X -> Y -> Prop) l m t a' b' : Forall2 P l m ->
  (forall i a b, i <> t -> nth_error l i = Some a -> nth_error m i = Some b -> P a b -> Q a b) -> Q a' b' -> Forall2 Q (upd l t a') (upd m t b').
Proof.
  intros H. revert t. induction H as [|x y l m H0 H IH]; intros t HQ Hab; [constructor|]. destruct t as [|t]; cbn [upd]; constructor.
  - exact Hab.
  - clear IH. assert (HQ' : forall i a b, nth_error l i = Some a -> nth_error m i = Some b -> P a b -> Q a b) by (intros i a b Ea Eb; apply (HQ (S i)); cbn; auto).
    clear HQ. induction H as [|x1 y1 l m H1 H IH]; constructor. { apply (HQ' 0); auto. } apply IH. intros i a b Ea Eb. apply (HQ' (S i)); auto.
  - apply (HQ 0); auto.
  - apply IH; [|exact Hab]. intros i a b Hi Ea Eb. apply (HQ (S i)); cbn; auto.
Qed.
Lemma F2_imp {X Y} (P Q : X -> Y -> Prop) l m : Forall2 P l m -> (forall i a b, nth_error l i = Some a -> nth_error m i = Some b -> P a b -> Q a b) -> Forall2 Q l m.
Proof. intros H. induction H as [|x y l m H0 H IH]; intros HQ; constructor. { apply (HQ 0); auto. } apply IH. intros i a b Ea Eb. apply (HQ (S i)); auto. Qed.
Lemma F2_nth2 {X Y} (P : X -> Y -> Prop) l m i b : Forall2 P l m -> nth_error m i = Some b -> exists a, nth_error l i = Some a /\ P a b.
Proof. intros H. revert i. induction H; intros [|i] E2; cbn in *; try discriminate; [injection E2 as <-; eauto|eauto]. Qed.

Lemma V_tval en I E vs t x : VRel en I E vs -> tval vs t = Some x -> exists d e, nth_error (etens en) t = Some (Some (d, e)) /\ svar I d = Some (dims x) /\ svar E e = Some (data x).
Proof.
  intros V H. unfold tval in H. destruct (nth_error (tens vs) t) as [[y|]|] eqn:Et; inversion H; subst. destruct (F2_nth2 _ _ _ _ _ (v_t _ _ _ _ V) Et) as ([[d e]|] & En & R); cbn in R; [|contradiction].
  destruct R. eauto.
Qed.
Lemma V_ival en I E vs t l : VRel en I E vs -> ival vs t = Some l -> exists d, nth_error (eind en) t = Some (Some d) /\ svar I d = Some l.
Proof.
  intros V H. unfold ival in H. destruct (nth_error (inds vs) t) as [[y|]|] eqn:Et; inversion H; subst. destruct (F2_nth2 _ _ _ _ _ (v_i _ _ _ _ V) Et) as ([d|] & En & R); cbn in R; [|contradiction]. eauto.
Qed.
Lemma V_lt_t en I E vs t d e : VRel en I E vs -> nth_error (etens en) t = Some (Some (d, e)) -> d < length I /\ e < length E.
Proof.
  intros V H. destruct (forall2_nth _ _ _ _ _ (v_t _ _ _ _ V) H) as ([x|] & _ & R); cbn in R; [|contradiction]. destruct R as [R1 R2]. apply svar_lt in R1. apply svar_lt in R2. auto.
Qed.
Lemma V_lt_i en I E vs t d : VRel en I E vs -> nth_error (eind en) t = Some (Some d) -> d < length I.
Proof. intros V H. destruct (forall2_nth _ _ _ _ _ (v_i _ _ _ _ V) H) as ([x|] & _ & R); cbn in R; [|contradiction]. apply svar_lt in R. auto. Qed.
Lemma svar_t en I E vs t d e : VRel en I E vs -> nth_error (etens en) t = Some (Some (d, e)) -> (exists l, svar I d = Some l) /\ (exists l, svar E e = Some l).
Proof. intros V H. destruct (forall2_nth _ _ _ _ _ (v_t _ _ _ _ V) H) as ([x|] & _ & R); cbn in R; [|contradiction]. destruct R as [R1 R2]. eauto. Qed.
Lemma svar_i en I E vs t d : VRel en I E vs -> nth_error (eind en) t = Some (Some d) -> exists l, svar I d = Some l.
Proof. intros V H. destruct (forall2_nth _ _ _ _ _ (v_i _ _ _ _ V) H) as ([x|] & _ & R); cbn in R; [|contradiction]. eauto. Qed.

Lemma svar_upd_some {B} (s : sstate B) h l l0 g m : svar s h = Some l0 -> svar (upd s h (Some l)) g = Some m -> exists m', svar s g = Some m'.
Proof. intros H0 H. destruct (Nat.eq_dec g h) as [->|Hne]; [eauto|]. rewrite svar_upd_ne in H; eauto. Qed.

Lemma V_set en I E vs t d e x : VRel en I E vs -> nth_error (etens en) t = Some (Some (d, e)) ->
  VRel en (upd I d (Some (dims x))) (upd E e (Some (data x))) (set_t vs t (Some x)).
Proof.
  intros V H. destruct (svar_t _ _ _ _ _ _ _ V H) as [[l1 Hd] [l2 He]]. destruct V as [vt vi vtd vid vx vli vle]. constructor; auto.
  - cbn [set_t tens]. rewrite <- (upd_same (etens en) t (Some (d, e)) H) at 1. eapply F2_upd; [exact vt| |].
    + intros i [[d' e']|] [y|] Hi Ea Eb R; cbn in *; auto. destruct (vtd _ _ _ _ _ _ Ea H Hi). rewrite !svar_upd_ne by auto. exact R.
    + cbn. split; eapply svar_upd_eq; eauto.
  - cbn [set_t inds]. eapply F2_imp; [exact vi|]. intros i [d'|] [l|] Ea Eb R; cbn in *; auto. pose proof (vx _ _ _ _ _ H Ea). rewrite svar_upd_ne by auto. exact R.
  - intros g l Hl. eapply svar_upd_some in Hl as [m Hm]; eauto.
  - intros g l Hl. eapply svar_upd_some in Hl as [m Hm]; eauto.
Qed.
Lemma V_seti en I E vs t d l : VRel en I E vs -> nth_error (eind en) t = Some (Some d) -> VRel en (upd I d (Some l)) E (set_i vs t (Some l)).
Proof.
  intros V H. destruct (svar_i _ _ _ _ _ _ V H) as [l1 Hd]. destruct V as [vt vi vtd vid vx vli vle]. constructor; auto.
  - cbn [set_i tens]. eapply F2_imp; [exact vt|]. intros i [[d' e']|] [y|] Ea Eb R; cbn in *; auto. pose proof (vx _ _ _ _ _ Ea H). rewrite svar_upd_ne by auto. exact R.
  - cbn [set_i inds]. rewrite <- (upd_same (eind en) t (Some d) H) at 1. eapply F2_upd; [exact vi| |].
    + intros i [d'|] [y|] Hi Ea Eb R; cbn in *; auto. pose proof (vid _ _ _ _ Ea H Hi). rewrite !svar_upd_ne by auto. exact R.
    + cbn. eapply svar_upd_eq; eauto.
  - intros g m Hl. eapply svar_upd_some in Hl as [m' Hm]; eauto.
Qed.
Lemma nth_upd_some {B} (l : list (option B)) t i b : nth_error (upd l t None) i = Some (Some b) -> i <> t /\ nth_error l i = Some (Some b).
Proof. intros H. assert (i <> t). { intros ->. pose proof (nth_error_lt_inv _ _ _ H) as L. rewrite length_upd in L. rewrite nth_error_upd_eq in H by exact L. discriminate. } split; auto. rewrite nth_error_upd_ne in H; auto. Qed.
Lemma svar_upd_none {B} (s : sstate B) h g m : svar (upd s h None) g = Some m -> g <> h /\ svar s g = Some m.
Proof. intros H. apply svar_nth in H. apply nth_upd_some in H as [H1 H2]. split; auto. apply svar_nth. exact H2. Qed.
Lemma V_dropt en I E vs t d e : VRel en I E vs -> nth_error (etens en) t = Some (Some (d, e)) ->
  VRel (mkEnv (upd (etens en) t None) (eind en)) (upd I d None) (upd E e None) (set_t vs t None).
Proof.
  intros V H. destruct (svar_t _ _ _ _ _ _ _ V H) as [[l1 Hd] [l2 He]]. destruct V as [vt vi vtd vid vx vli vle]. constructor; cbn [etens eind set_t tens inds].
  - eapply F2_upd; [exact vt| |exact Logic.I]. intros i [[d' e']|] [y|] Hi Ea Eb R; cbn in *; auto. destruct (vtd _ _ _ _ _ _ Ea H Hi). rewrite !svar_upd_ne by auto. exact R.
  - eapply F2_imp; [exact vi|]. intros i [d'|] [l|] Ea Eb R; cbn in *; auto. pose proof (vx _ _ _ _ _ H Ea). rewrite svar_upd_ne by auto. exact R.
  - intros i u d1 e1 d2 e2 H1 H2. apply nth_upd_some in H1 as [_ H1]. apply nth_upd_some in H2 as [_ H2]. eauto.
  - auto.
  - intros i u d1 e1 d2 H1. apply nth_upd_some in H1 as [_ H1]. eauto.
  - intros g l Hl. apply svar_upd_none in Hl as [Hn Hl]. destruct (vli _ _ Hl) as [(t' & e' & Ht)|R]; [left|auto]. exists t', e'. rewrite nth_error_upd_ne; auto. intros ->. congruence.
  - intros g l Hl. apply svar_upd_none in Hl as [Hn Hl]. destruct (vle _ _ Hl) as (t' & d' & Ht). exists t', d'. rewrite nth_error_upd_ne; auto. intros ->. congruence.
Qed.
Lemma V_dropi en I E vs t d : VRel en I E vs -> nth_error (eind en) t = Some (Some d) ->
  VRel (mkEnv (etens en) (upd (eind en) t None)) (upd I d None) E (set_i vs t None).
Proof.
  intros V H. destruct (svar_i _ _ _ _ _ _ V H) as [l1 Hd]. destruct V as [vt vi vtd vid vx vli vle]. constructor; cbn [etens eind set_i tens inds]; auto.
  - eapply F2_imp; [exact vt|]. intros i [[d' e']|] [y|] Ea Eb R; cbn in *; auto. pose proof (vx _ _ _ _ _ Ea H). rewrite svar_upd_ne by auto. exact R.
  - eapply F2_upd; [exact vi| |exact Logic.I]. intros i [d'|] [y|] Hi Ea Eb R; cbn in *; auto. pose proof (vid _ _ _ _ Ea H Hi). rewrite !svar_upd_ne by auto. exact R.
  - intros i u d1 d2 H1 H2. apply nth_upd_some in H1 as [_ H1]. apply nth_upd_some in H2 as [_ H2]. eauto.
  - intros i u d1 e1 d2 H1 H2. apply nth_upd_some in H2 as [_ H2]. eauto.
  - intros g l Hl. apply svar_upd_none in Hl as [Hn Hl]. destruct (vli _ _ Hl) as [R|(t' & Ht)]; [auto|right]. exists t'. rewrite nth_error_upd_ne; auto. intros ->. congruence.
Qed.
Lemma svar_app_inv {B} (s m : sstate B) g l : svar (s ++ m) g = Some l -> svar s g = Some l \/ exists k, g = length s + k /\ svar m k = Some l.
Proof.
  intros H. destruct (Nat.lt_ge_cases g (length s)) as [Hg|Hg].
  - left. unfold svar in *. rewrite nth_error_app1 in H by auto. exact H.
  - right. exists (g - length s). split; [lia|]. replace g with (length s + (g - length s)) in H by lia. rewrite svar_at in H. exact H.
Qed.
Lemma trel_app I E I' E' h x : trel I E h x -> trel (I ++ I') (E ++ E') h x.
Proof. destruct h as [[d e]|], x as [x|]; cbn; auto. intros [H1 H2]. split; apply svar_app; auto. Qed.
Lemma irel_app I I' h l : irel I h l -> irel (I ++ I') h l.
Proof. destruct h as [d|], l as [l|]; cbn; auto. apply svar_app. Qed.
Lemma V_app en I E vs I' E' : VRel en I E vs -> (forall k l, svar I' k <> Some l) -> (forall k l, svar E' k <> Some l) -> VRel en (I ++ I') (E ++ E') vs.
Proof.
  intros [vt vi vtd vid vx vli vle] HI HE. constructor; auto.
  - eapply F2_imp; [exact vt|]. intros. apply trel_app; auto.
  - eapply F2_imp; [exact vi|]. intros. apply irel_app; auto.
  - intros d l H. apply svar_app_inv in H as [H|(k & -> & H)]; [eauto|]. exfalso. eapply HI; eauto.
  - intros d l H. apply svar_app_inv in H as [H|(k & -> & H)]; [eauto|]. exfalso. eapply HE; eauto.
Qed.
Lemma nth_snoc {B} (l : list B) x i y : nth_error (l ++ [x]) i = Some y -> i < length l /\ nth_error l i = Some y \/ i = length l /\ y = x.
Proof.
  intros H. destruct (Nat.lt_ge_cases i (length l)) as [Hi|Hi]; [left; rewrite nth_error_app1 in H; auto|right]. rewrite nth_error_app2 in H by lia.
  destruct (i - length l) as [|k] eqn:Ek; cbn in H; [|destruct k; discriminate]. split; [lia|congruence].
Qed.
Lemma V_addt en I E vs I' E' i j x : VRel en I E vs -> svar I' i = Some (dims x) -> svar E' j = Some (data x) ->
  (forall k l, svar I' k = Some l -> k = i) -> (forall k l, svar E' k = Some l -> k = j) ->
  VRel (add_t en (length I + i, length E + j)) (I ++ I') (E ++ E') (new_t vs x).
Proof.
  intros V Hi Hj HI HE. specialize (fun t d e => V_lt_t _ _ _ _ t d e V) as LT'. specialize (fun t d => V_lt_i _ _ _ _ t d V) as LI'.
  destruct V as [vt vi vtd vid vx vli vle]. constructor; cbn [etens eind add_t new_t tens inds]; auto.
  - apply Forall2_app. { eapply F2_imp; [exact vt|]. intros. apply trel_app; auto. } constructor; [|constructor]. cbn. rewrite !svar_at. auto.
  - eapply F2_imp; [exact vi|]. intros. apply irel_app; auto.
  - intros t u d e d' e' H1 H2 Hn. apply nth_snoc in H1 as [[L1 H1]|[-> H1]]; apply nth_snoc in H2 as [[L2 H2]|[-> H2]]; [eauto| | |congruence].
    + injection H2 as -> ->. destruct (LT' _ _ _ H1). lia.
    + injection H1 as -> ->. destruct (LT' _ _ _ H2). lia.
  - intros t u d e d' H1 H2. apply nth_snoc in H1 as [[L1 H1]|[-> H1]]; [eauto|]. injection H1 as -> ->. apply LI' in H2. lia.
  - intros d l H. apply svar_app_inv in H as [H|(k & -> & H)].
    + destruct (vli _ _ H) as [(t & e & Ht)|R]; [left|auto]. exists t, e. rewrite nth_error_app1; auto. eapply nth_error_lt_inv; eauto.
    + apply HI in H. subst k. left. exists (length (etens en)), (length E + j). rewrite nth_error_app2, Nat.sub_diag by lia. reflexivity.
  - intros e l H. apply svar_app_inv in H as [H|(k & -> & H)].
    + destruct (vle _ _ H) as (t & d & Ht). exists t, d. rewrite nth_error_app1; auto. eapply nth_error_lt_inv; eauto.
    + apply HE in H. subst k. exists (length (etens en)), (length I + i). rewrite nth_error_app2, Nat.sub_diag by lia. reflexivity.
Qed.
Lemma svar_one {B} (l : list B) k m : svar [Some l] k = Some m -> k = 0.
Proof. destruct k as [|[|k]]; cbn; auto; discriminate. Qed.
Lemma V_addt1 en I E vs x : VRel en I E vs -> VRel (add_t en (length I, length E)) (I ++ [Some (dims x)]) (E ++ [Some (data x)]) (new_t vs x).
Proof. intros V. rewrite <- (Nat.add_0_r (length I)), <- (Nat.add_0_r (length E)). apply V_addt; auto; apply svar_one. Qed.
Lemma V_addi en I E vs l : VRel en I E vs -> VRel (add_i en (length I)) (I ++ [Some l]) E (new_i vs l).
Proof.
  intros V. specialize (fun t d e => V_lt_t _ _ _ _ t d e V) as LT'. specialize (fun t d => V_lt_i _ _ _ _ t d V) as LI'.
  destruct V as [vt vi vtd vid vx vli vle]. constructor; cbn [etens eind add_i new_i tens inds]; auto.
  - eapply F2_imp; [exact vt|]. intros i a b _ _ R. rewrite <- (app_nil_r E). apply trel_app; auto.
  - apply Forall2_app. { eapply F2_imp; [exact vi|]. intros. apply irel_app; auto. } constructor; [|constructor]. cbn. apply svar_end.
  - intros t u d d' H1 H2 Hn. apply nth_snoc in H1 as [[L1 H1]|[-> H1]]; apply nth_snoc in H2 as [[L2 H2]|[-> H2]]; [eauto| | |congruence].
    + injection H2 as ->. apply LI' in H1. lia.
    + injection H1 as ->. apply LI' in H2. lia.
  - intros t u d e d' H1 H2. apply nth_snoc in H2 as [[L2 H2]|[-> H2]]; [eauto|]. injection H2 as ->. destruct (LT' _ _ _ H1). lia.
  - intros d m H. apply svar_app_inv in H as [H|(k & -> & H)].
    + destruct (vli _ _ H) as [R|(t & Ht)]; [auto|right]. exists t. rewrite nth_error_app1; auto. eapply nth_error_lt_inv; eauto.
    + apply svar_one in H. subst k. right. exists (length (eind en)). rewrite nth_error_app2, Nat.sub_diag by lia. rewrite Nat.add_0_r. reflexivity.
Qed.
Lemma V_data en I E vs t d e (x y : tensor A) : VRel en I E vs -> nth_error (etens en) t = Some (Some (d, e)) -> svar I d = Some (dims x) -> dims y = dims x ->
  VRel en I (upd E e (Some (data y))) (set_t vs t (Some y)).
Proof. intros V H Hd D. pose proof (V_set _ _ _ _ _ _ _ y V H) as W. rewrite D, (svar_same _ _ _ Hd) in W. exact W. Qed.
Lemma no_svar1 k (l : list A) : svar [None] k <> Some l.
Proof. destruct k as [|[|k]]; cbn; discriminate. Qed.
Lemma no_svar {B} n k (l : list B) : svar (repeat None n) k <> Some l.
Proof. revert k. induction n as [|n IH]; intros [|k]; cbn; try discriminate. apply IH. Qed.

Definition self_transform (s : stmt A) : bool := match s with TOpTransform _ b t u => (t =? u) && (b <? 3) | _ => false end.

Ltac oinv H := unfold obind, check, ok in H; repeat match type of H with context [if ?b then Some tt else None] => destruct b eqn:?; try discriminate | context [match ?x with _ => _ end] => destruct x eqn:?; try discriminate end; try (injection H as <- <-).
Ltac var_t V Hx d e En Hd He := destruct (V_tval _ _ _ _ _ _ V Hx) as (d & e & En & Hd & He).
Ltac var_i V Hx d En Hd := destruct (V_ival _ _ _ _ _ _ V Hx) as (d & En & Hd).
Ltac start := unfold exec, tvar, ivar, quiet, defines.

Lemma tens_ne en I E vs t u d e d' e' : VRel en I E vs -> nth_error (etens en) t = Some (Some (d, e)) -> nth_error (etens en) u = Some (Some (d', e')) -> (t =? u) = false -> e <> e'.
Proof. intros V H H' Hn. apply Nat.eqb_neq in Hn. destruct (v_td _ _ _ _ V _ _ _ _ _ _ H H' Hn). auto. Qed.

Lemma W_step en I E vs s vs' o : VRel en I E vs -> vstep vs s = Some (vs', o) -> self_transform s = false ->
  exists I' E' en', wrun (exec en s) (mkW I E []) = Some (mkW I' E' [], (en', o)) /\ VRel en' I' E' vs'.
Proof.
  intros V H NS. destruct s; cbn [vstep] in H; try discriminate.
  - (* TIndices *) injection H as <- <-. do 3 eexists. split; [start; eapply wbind_ok; [apply w_makeI_new|reflexivity]|]. apply V_addi; auto.
  - (* TIndexSet *) oinv H. var_i V Heqo0 h En Hd. do 3 eexists. split; [start; rewrite En; cbn [pbind]; eapply wbind_ok; [apply w_writeI; [eauto|apply Nat.ltb_lt; eauto]|reflexivity]|].
    apply V_seti; auto.
  - (* TIndexCopy *) oinv H. var_i V Heqo0 h En Hd. do 3 eexists. split; [start; rewrite En; cbn [pbind]; eapply wbind_ok; [apply w_makeI_copy; eauto|reflexivity]|]. apply V_addi; auto.
  - (* TIndexDrop *) oinv H. var_i V Heqo0 h En Hd. do 3 eexists. split; [start; rewrite En; cbn [pbind]; eapply wbind_ok; [eapply w_destroyI; eauto|reflexivity]|]. apply V_dropi; auto.
  - (* TDimensions *) oinv H. var_t V Heqo0 d e En Hd He. do 3 eexists. split; [start; rewrite En; cbn [pbind]; eapply wbind_ok; [apply w_makeI_copy; eauto|reflexivity]|]. apply V_addi; auto.
  - (* TNew *) oinv H. var_i V Heqo0 h En Hd. do 3 eexists. split; [start; rewrite En; cbn [pbind]; eapply wbind_ok; [apply w_tensor_new; eauto|reflexivity]|].
    apply (V_addt1 _ _ _ _ (new_tensor junk l)); auto.
  - (* TCopy *) oinv H. var_t V Heqo0 d e En Hd He. do 3 eexists. split; [start; rewrite En; cbn [pbind]; eapply wbind_ok; [apply w_tensor_copy; eauto|reflexivity]|]. apply V_addt1; auto.
  - (* TAssign *) oinv H. var_t V Heqo0 d e En Hd He. var_t V Heqo1 d' e' En' Hd' He'. do 3 eexists. split; [start; rewrite En, En'; cbn [pbind]; eapply wbind_ok; [eapply w_tensor_assign; eauto|reflexivity]|].
    apply V_set; auto.
  - (* TDrop *) oinv H. var_t V Heqo0 d e En Hd He. do 3 eexists. split; [start; rewrite En; cbn [pbind]; eapply wbind_ok; [eapply w_tensor_drop; eauto|reflexivity]|]. apply V_dropt; auto.
  - (* TShare *) oinv H. var_i V Heqo0 h En Hd. var_t V Heqo1 d' e' En' Hd' He'. do 3 eexists. split; [start; rewrite En, En'; cbn [pbind]; eapply wbind_ok; [eapply w_tensor_share; eauto|reflexivity]|].
    apply (V_addt1 _ _ _ _ (mkT l (data t0))); auto.
  - (* TReshape *) oinv H. var_t V Heqo0 d' e' En' Hd' He'. var_i V Heqo1 h En Hd. do 3 eexists. split; [start; rewrite En, En'; cbn [pbind]; eapply wbind_ok; [eapply w_tensor_reshape; eauto|reflexivity]|].
    pose proof (V_set _ _ _ _ _ _ _ (mkT l (data t0)) V En') as W. cbn [dims data] in W. rewrite (svar_same _ _ _ He') in W. exact W.
  - (* TGet *) oinv H. var_t V Heqo0 d e En Hd He. do 3 eexists. split; [start; rewrite En; cbn [pbind]; unfold tensor_get; eapply wbind_ok; [eapply w_readE; eauto|reflexivity]|]. exact V.
  - (* TSet *) unfold obind, ok in H. destruct (tval vs t) as [x|] eqn:Hx; [|discriminate]. destruct (set1 x i v) as [y| | |] eqn:Hy; try discriminate. injection H as <- <-.
    var_t V Hx d e En Hd He. destruct (w_tensor_set I E d e _ _ _ _ He Hy) as [W D]. do 3 eexists. split; [start; rewrite En; cbn [pbind]; eapply wbind_ok; [exact W|reflexivity]|]. eapply V_data; eauto.
  - (* TFill *) unfold obind, ok in H. destruct (tval vs t) as [x|] eqn:Hx; [|discriminate]. destruct (fill_with x v) as [y| | |] eqn:Hy; try discriminate. injection H as <- <-.
    var_t V Hx d e En Hd He. destruct (w_tensor_fill I E d e _ _ _ He Hy) as [W D]. do 3 eexists. split; [start; rewrite En; cbn [pbind]; eapply wbind_ok; [exact W|reflexivity]|]. eapply V_data; eauto.
  - (* TOpT *) unfold obind, ok in H. destruct (tval vs t) as [x|] eqn:Hx; [|discriminate]. destruct (tval vs u) as [y|] eqn:Hy; [|discriminate]. destruct (op_assign_t f x y) as [z| | |] eqn:Hz; try discriminate. injection H as <- <-.
    var_t V Hx d e En Hd He. var_t V Hy d' e' En' Hd' He'. destruct (w_tensor_op_assign f I E d e d' e' _ _ _ He He' Hz) as [W D].
    do 3 eexists. split; [start; rewrite En, En'; cbn [pbind]; eapply wbind_ok; [exact W|reflexivity]|]. eapply V_data; eauto.
  - (* TOpTransform *) unfold obind, ok in H. destruct (tval vs t) as [x|] eqn:Hx; [|discriminate]. destruct (tval vs u) as [y|] eqn:Hy; [|discriminate]. destruct (op_assign_t_mixed f x y) as [z| | |] eqn:Hz; try discriminate. injection H as <- <-.
    var_t V Hx d e En Hd He. var_t V Hy d' e' En' Hd' He'. cbn [self_transform] in NS.
    assert (Ho : e <> e' \/ 3 <= before). { destruct (t =? u) eqn:Etu; [right; cbn in NS; apply Nat.leb_gt in NS; lia|left; eapply tens_ne; eauto]. }
    destruct (w_tensor_transform f before I E d e d' e' _ _ _ Hd Hd' He He' Hz Ho) as [W D].
    do 3 eexists. split; [start; rewrite En, En'; cbn [pbind]; eapply wbind_ok; [exact W|reflexivity]|]. eapply V_data; eauto.
  - (* TOpNum *) unfold obind, ok in H. destruct (tval vs t) as [x|] eqn:Hx; [|discriminate]. destruct (op_assign_n f x (Outside v)) as [z| | |] eqn:Hz; try discriminate. injection H as <- <-.
    var_t V Hx d e En Hd He. destruct (w_tensor_op_number f c I E d e _ _ _ Hd He Hz) as (m & W & D).
    do 3 eexists. split; [start; rewrite En; cbn [pbind]; eapply wbind_ok; [exact W|reflexivity]|]. apply V_app; [eapply V_data; eauto|intros; apply no_svar|intros; apply no_svar].
  - (* TBin *) unfold obind, ok in H. destruct (tval vs t) as [x|] eqn:Hx; [|discriminate]. destruct (tval vs u) as [y|] eqn:Hy; [|discriminate]. destruct (t_op_t f junk x y) as [z| | |] eqn:Hz; try discriminate. injection H as <- <-.
    var_t V Hx d e En Hd He. var_t V Hy d' e' En' Hd' He'. destruct (w_tensor_binop f junk I E d e d' e' _ _ _ Hd He He' Hz) as [W D].
    do 3 eexists. split; [start; rewrite En, En'; cbn [pbind]; eapply wbind_ok; [exact W|reflexivity]|]. rewrite <- D. apply V_addt1; auto.
  - (* TUn *) unfold obind, ok in H. destruct (tval vs t) as [x|] eqn:Hx; [|discriminate]. destruct (unop f junk x) as [z| | |] eqn:Hz; try discriminate. injection H as <- <-.
    var_t V Hx d e En Hd He. destruct (w_tensor_unop f junk I E d e _ _ Hd He Hz) as [W D].
    do 3 eexists. split; [start; rewrite En; cbn [pbind]; eapply wbind_ok; [exact W|reflexivity]|]. rewrite <- D. apply V_addt1; auto.
  - (* TSlice *) unfold obind, ok, check in H. destruct (tval vs t) as [x|] eqn:Hx; [|discriminate]. destruct (proper x ss) eqn:Hp; [|discriminate]. destruct (slice fuel junk x ss) as [[ns a]| | |] eqn:Hz; try discriminate. injection H as <- <-.
    var_t V Hx d e En Hd He. cbn [fst snd].
    do 3 eexists. split; [start; rewrite En; cbn [pbind]; eapply wbind_ok; [eapply w_tensor_slice; eauto|reflexivity]|]. apply (V_addt _ _ _ _ _ _ _ _ (mkT (map Z.to_nat ns) a)); auto.
    + intros [|[|[|[|k]]]] l; cbn; intros; try discriminate; reflexivity.
    + intros [|[|[|k]]] l; cbn; intros; try discriminate; reflexivity.
  - (* TSetNum *) unfold obind, ok, check in H. destruct (tval vs t) as [x|] eqn:Hx; [|discriminate]. destruct (proper x ss) eqn:Hp; [|discriminate]. destruct (assign_scalar fuel x ss v) as [z| | |] eqn:Hz; try discriminate. injection H as <- <-.
    var_t V Hx d e En Hd He. destruct (w_tensor_set_number fuel I E d e _ _ _ _ Hd He Hp Hz) as [W D].
    do 3 eexists. split; [start; rewrite En; cbn [pbind]; eapply wbind_ok; [exact W|reflexivity]|]. rewrite <- (app_nil_r (upd E e _)). apply V_app; [eapply V_data; eauto|intros; apply (no_svar 2)|intros; apply (no_svar 0)].
  - (* TSetSlice *) unfold obind, ok, check in H. destruct (tval vs t) as [x|] eqn:Hx; [|discriminate]. destruct (tval vs u) as [y|] eqn:Hy; [|discriminate]. destruct (proper x ss) eqn:Hp; [|discriminate].
    destruct (if t =? u then assign_self fuel x ss else assign_tensor fuel x ss y) as [z| | |] eqn:Hz; try discriminate. injection H as <- <-.
    var_t V Hx d e En Hd He. var_t V Hy d' e' En' Hd' He'.
    assert (HF : e = e' /\ dims y = dims x /\ assign_self fuel x ss = Ok z \/ e <> e' /\ assign_tensor fuel x ss y = Ok z).
    { destruct (t =? u) eqn:Etu; [left|right; split; [eapply tens_ne; eauto|auto]]. apply Nat.eqb_eq in Etu. subst u. rewrite En in En'. injection En' as -> ->. rewrite Hx in Hy. injection Hy as ->. auto. }
    destruct (w_tensor_set_slice fuel o0 I E d e d' e' _ _ _ _ Hd He Hd' He' Hp HF) as [W D].
    do 3 eexists. split; [start; rewrite En, En'; cbn [pbind]; eapply wbind_ok; [exact W|reflexivity]|]. rewrite <- (app_nil_r (upd E e _)). apply V_app; [eapply V_data; eauto|intros; apply (no_svar 2)|intros; apply (no_svar 0)].
  - (* TSetView *) unfold obind, ok, check in H. destruct (tval vs t) as [x|] eqn:Hx; [|discriminate]. destruct (tval vs u) as [y|] eqn:Hy; [|discriminate]. destruct (proper x ss && proper y su) eqn:Hp; [|discriminate].
    apply andb_true_iff in Hp as [Hp Hq]. destruct (assign_view fuel x ss y su) as [z| | |] eqn:Hz; try discriminate. injection H as <- <-.
    var_t V Hx d e En Hd He. var_t V Hy d' e' En' Hd' He'. destruct (w_tensor_set_view fuel o0 I E d e d' e' _ _ _ _ _ Hd He Hd' He' Hp Hq Hz) as [W D].
    do 3 eexists. split; [start; rewrite En, En'; cbn [pbind]; eapply wbind_ok; [exact W|reflexivity]|]. apply V_app; [eapply V_data; eauto|intros; apply (no_svar 4)|intros; apply (no_svar 1)].
Qed.
End V.

(* Invariants of the lock protocol. *)
From Verif Require Import Base M_Lock.

Lemma put_eq {B} (f : nat -> B) i v : put f i v i = v.
Proof. unfold put. rewrite Nat.eqb_refl. reflexivity. Qed.
Lemma put_ne {B} (f : nat -> B) i v j : j <> i -> put f i v j = f j.
Proof. intros H. unfold put. replace (j =? i) with false by lia. reflexivity. Qed.
Ltac puts := repeat match goal with
  | H : context [put ?f ?i ?v ?j] |- _ => destruct (Nat.eq_dec j i) as [?|?]; [subst; rewrite put_eq in H|rewrite (put_ne f i v j) in H by assumption]
  | |- context [put ?f ?i ?v ?j] => destruct (Nat.eq_dec j i) as [?|?]; [subst; rewrite put_eq|rewrite (put_ne f i v j) by assumption]
  end.

Record inv (s : sys) : Prop := {
  i_name : forall i, name s = Some i -> i < next s;
  i_fresh : forall i p, flocked s i = Some p -> i < next s;
  i_hold : forall p i, procs s p = Holding i -> name s = Some i /\ flocked s i = Some p;
  i_unl : forall p i, procs s p = Unlinked i -> flocked s i = Some p;
  i_open : forall p i, procs s p <> Opened i;
  i_owner : forall i p, flocked s i = Some p -> procs s p = Holding i \/ procs s p = Unlinked i }.

Lemma inv_init : inv init.
Proof. split; cbn; intros; try discriminate. Qed.

Ltac fin := try congruence; eauto; try (intuition congruence);
  try solve [repeat match goal with
    | H : Some _ = Some _ |- _ => injection H as H; subst
    | H : Holding _ = Holding _ |- _ => injection H as H; subst
    | H2 : forall i p, flocked ?s i = Some p -> i < next ?s, H : flocked ?s ?i = Some ?p |- _ =>
        lazymatch goal with _ : i < next s |- _ => fail | _ => assert (i < next s) by eauto end
    | H3 : forall p i, procs ?s p = Holding i -> _, H : procs ?s ?p = Holding ?i |- _ =>
        lazymatch goal with _ : flocked s i = Some p |- _ => fail | _ => destruct (H3 _ _ H) as [? ?] end
    | H4 : forall p i, procs ?s p = Unlinked i -> _, H : procs ?s ?p = Unlinked ?i |- _ =>
        lazymatch goal with _ : flocked s i = Some p |- _ => fail | _ => assert (flocked s i = Some p) by eauto end
    | H6 : forall i p, flocked ?s i = Some p -> _ \/ _, H : flocked ?s ?i = Some ?p |- _ =>
        lazymatch goal with _ : procs s p = Holding i |- _ => fail | _ : procs s p = Unlinked i |- _ => fail | _ => destruct (H6 _ _ H) end
    | H1 : forall i, name ?s = Some i -> _, H : name ?s = Some ?i |- _ =>
        lazymatch goal with _ : i < next s |- _ => fail | _ => assert (i < next s) by eauto end
    end; try congruence; try lia; intuition (try congruence; try lia)].
Lemma inv_step s s' : inv s -> atomic_step s s' -> inv s'.
Proof.
  intros [H1 H2 H3 H4 H5 H6] St. inversion St as [p a s1 b Ho Hf|p a b Hr|p a b Hu|p a b Hc|p a b Hd]; subst.
  - (* acquire *)
    inversion Ho as [? i Hp Hn|? Hp Hn]; subst; inversion Hf as [? i' Hp' Hl|? i' q Hp' Hl]; subst; cbn in *; rewrite put_eq in Hp'; inversion Hp'; subst i'; clear Hp';
      split; cbn; intros; puts; fin.
  - inversion Hr; subst. unfold go. split; cbn; intros; puts; fin.
  - inversion Hu as [? j Hj]; subst. destruct (H3 _ _ Hj) as [Ha Hb]. split; cbn; intros; puts; fin.
  - inversion Hc as [? j Hj]; subst. assert (Hl := H4 _ _ Hj). split; cbn; intros; puts; fin.
  - inversion Hd; subst. split; cbn; intros; puts;
    repeat match goal with
      | H : match ?x with _ => _ end = _ |- _ => destruct x eqn:?; try discriminate
      | H : (if ?q =? ?p then _ else _) = _ |- _ => destruct (Nat.eqb_spec q p); try discriminate
      end; fin.
    + destruct (H3 _ _ H) as [Ha Hb]. split; auto. rewrite Hb. replace (p0 =? p) with false by lia. reflexivity.
    + rewrite (H4 _ _ H). replace (p0 =? p) with false by lia. reflexivity.
Qed.
Lemma atomic_exclusive s p q : star atomic_step init s -> has_open s p -> has_open s q -> p = q.
Proof.
  intros Hs [i Hp] [j Hq]. assert (I : inv s).
  { clear Hp Hq. remember init as s0 eqn:E. induction Hs; [subst; apply inv_init|eapply inv_step; eauto]. }
  destruct (i_hold _ I _ _ Hp) as [H1 H2], (i_hold _ I _ _ Hq) as [H3 H4]. congruence.
Qed.

(* before the first release there is one inode *)
Record inv0 (s : sys) : Prop := {
  j_ref : forall p i, procs s p = Opened i \/ procs s p = Refused i \/ procs s p = Holding i -> name s = Some i;
  j_hold : forall p i, procs s p = Holding i -> flocked s i = Some p }.
Lemma inv0_step s s' : inv0 s -> step_before_release s s' -> inv0 s'.
Proof.
  intros [H1 H2] St. inversion St as [p a b Ho|p a b Ho|p a b Ho|p a b Ho]; subst; inversion Ho; subst; unfold go.
  - split; cbn; intros; puts; try congruence; eauto. intuition congruence.
  - split; cbn; intros; puts; try congruence; eauto.
    + intuition congruence.
    + exfalso. assert (name s = Some i) by eauto. congruence.
  - split; cbn; intros; puts; try congruence; eauto.
    + assert (i0 = i) by intuition congruence. subst. eauto.
    + specialize (H2 _ _ H3). congruence.
  - split; cbn; intros; puts; try congruence; eauto. assert (i0 = i) by intuition congruence. subst. eauto.
  - split; cbn; intros; puts; try congruence; eauto. intuition congruence.
  - split; cbn; intros; puts; try congruence; eauto; [intuition congruence|].
    rewrite (H2 _ _ H). replace (p0 =? p) with false by lia. reflexivity.
Qed.
Lemma before_release_exclusive s p q : star step_before_release init s -> has_open s p -> has_open s q -> p = q.
Proof.
  intros Hs [i Hp] [j Hq]. assert (I : inv0 s).
  { clear Hp Hq. remember init as s0 eqn:E. induction Hs; [subst; split; cbn; intros; [intuition discriminate|discriminate]|eapply inv0_step; eauto]. }
  assert (name s = Some i) by (eapply (j_ref _ I); eauto). assert (name s = Some j) by (eapply (j_ref _ I); eauto).
  assert (flocked s i = Some p) by (eapply (j_hold _ I); eauto). assert (flocked s j = Some q) by (eapply (j_hold _ I); eauto). congruence.
Qed.

(* two processes hold at once: 1 opens the lock file of 0 just before 0 unlinks
   it, and locks an inode that has no name any more; 0 then makes a new one *)
Lemma two_holders : exists s, star step init s /\ has_open s 0 /\ has_open s 1.
Proof.
  eexists. split.
  - eapply star_step. eapply star_step. eapply star_step. eapply star_step. eapply star_step. eapply star_step. eapply star_step. eapply star_step. apply star_refl.
    + apply (s_open 0). apply open_create; reflexivity.
    + apply (s_flock 0). eapply flock_ok; reflexivity.
    + apply (s_open 1). eapply open_existing; reflexivity.
    + apply (s_unlink 0). eapply do_unlink; reflexivity.
    + apply (s_close 0). eapply do_close; reflexivity.
    + apply (s_flock 1). eapply flock_ok; reflexivity.
    + apply (s_open 0). apply open_create; reflexivity.
    + apply (s_flock 0). eapply flock_ok; reflexivity.
  - split; eexists; reflexivity.
Qed.

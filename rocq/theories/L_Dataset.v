(* Proofs about the datasets of jobs. *)
From Verif Require Import Base M_Dataset.

Section Invariant.
Context {B : Type} (header : list B) (job : nat -> nat) (result : nat -> list B).
Notation sys := (@sys B).
Notation full p := (header ++ result p).

(* what holds when process p is at c *)
Definition at_ (d : @fs B) (p : nat) (c : @pc B) : Prop :=
  let j := job p in
  match c with
  | NotStarted | CheckDir | MkDir | Dead => True
  | IsDir | RecheckDir | CheckRecord => kind d = Directory
  | DeleteTmp => kind d = Directory /\ main d j = None
  | CheckTmp => kind d = Directory /\ main d j = None /\ tmp d j = None
  | OpenTmp ex => kind d = Directory /\ main d j = None /\ tmp d j = None /\ ex = false
  | Writing i rest => kind d = Directory /\ main d j = None /\ tmp d j = Some i /\ contents d i ++ rest = full p
  | CloseCheck | RenameCheckDest | RenameCheckOrig | Rename =>
    kind d = Directory /\ main d j = None /\ exists i, tmp d j = Some i /\ contents d i = full p
  | RenameDelete | Aborted => False
  | Written => exists i, main d j = Some i /\ contents d i = full p
  | Skipped => main d j <> None
  end.

Record inv (s : sys) : Prop := {
  i_kind : kind (disk s) <> PlainFile;
  i_at : forall p, at_ (disk s) p (procs s p);
  i_one : forall p q, live (procs s p) -> live (procs s q) -> job p = job q -> p = q;
  i_main : forall j i, main (disk s) j = Some i -> i < next (disk s) /\ exists p, job p = j /\ contents (disk s) i = full p;
  i_tmp : forall j i, tmp (disk s) j = Some i -> i < next (disk s);
  i_mm : forall j k i, main (disk s) j = Some i -> main (disk s) k = Some i -> j = k;
  i_tt : forall j k i, tmp (disk s) j = Some i -> tmp (disk s) k = Some i -> j = k;
  i_mt : forall j k i, main (disk s) j = Some i -> tmp (disk s) k = Some i -> False }.

Lemma put_eq {V} (f : nat -> V) i v : put f i v i = v.
Proof. unfold put. rewrite Nat.eqb_refl. reflexivity. Qed.
Lemma put_ne {V} (f : nat -> V) i v k : k <> i -> put f i v k = f k.
Proof. unfold put. intros H. destruct (Nat.eqb_spec k i); congruence. Qed.

(* the state of other processes survives changes of the names of other jobs and
   of the contents of inodes that are not theirs *)
Lemma at_other d d' p c : at_ d p c -> (live c -> kind d = Directory -> kind d' = Directory) ->
  (live c -> main d' (job p) = main d (job p) /\ tmp d' (job p) = tmp d (job p) /\ forall i, tmp d (job p) = Some i -> contents d' i = contents d i) ->
  (~ live c -> forall i, main d (job p) = Some i -> main d' (job p) = Some i /\ contents d' i = contents d i) -> at_ d' p c.
Proof.
  intros H HK HL HD. destruct c; cbn [at_ live] in *; auto; try (specialize (HK I)); try (destruct (HL I) as (-> & E2 & E3)); rewrite ?E2 in *.
  - tauto.
  - tauto.
  - tauto.
  - destruct H as (? & ? & ? & H). repeat split; auto. rewrite E3; auto.
  - destruct H as (? & ? & i & ? & H). repeat split; auto. exists i. rewrite E3; auto.
  - destruct H as (? & ? & i & ? & H). repeat split; auto. exists i. rewrite E3; auto.
  - destruct H as (? & ? & i & ? & H). repeat split; auto. exists i. rewrite E3; auto.
  - destruct H as (? & ? & i & ? & H). repeat split; auto. exists i. rewrite E3; auto.
  - destruct H as (i & H1 & H2). destruct (HD ltac:(auto) i H1) as (H3 & H4). exists i. rewrite H4. auto.
  - destruct (main d (job p)) as [i|] eqn:E; [|congruence]. destruct (HD ltac:(auto) i eq_refl) as (H3 & _). congruence.
Qed.

Lemma inv_start k : k <> PlainFile -> inv (start_with k).
Proof. intros Hk. split; cbn; try discriminate; auto; intros; contradiction. Qed.

Lemma inv_move s p c : inv s -> (forall q, live (procs s q) -> job q = job p -> q = p) -> at_ (disk s) p c -> inv (mkSys (disk s) (put (procs s) p c)).
Proof.
  intros I HU HA. destruct I. split; cbn [disk procs]; auto.
  - intros q. destruct (Nat.eq_dec q p) as [->|Hq]; [rewrite put_eq; auto|rewrite put_ne; auto].
  - intros q r Hq Hr Hj. destruct (Nat.eq_dec q p) as [->|Nq], (Nat.eq_dec r p) as [->|Nr]; auto.
    + rewrite put_ne in Hr by auto. symmetry. auto.
    + rewrite put_ne in Hq by auto. auto.
    + rewrite put_ne in Hq, Hr by auto. auto.
Qed.

Record change (d d' : @fs B) (j : nat) : Prop := {
  c_kind : kind d' <> PlainFile;
  c_dir : kind d = Directory -> kind d' = Directory;
  c_main : forall k, k <> j -> main d' k = main d k;
  c_tmp : forall k, k <> j -> tmp d' k = tmp d k;
  c_stable : forall i, main d j = Some i -> main d' j = Some i;
  c_cont : forall i, i < next d -> tmp d j <> Some i -> contents d' i = contents d i }.

Lemma inv_change s p d' c : inv s -> live (procs s p) -> change (disk s) d' (job p) -> at_ d' p c ->
  (forall j i, main d' j = Some i -> i < next d' /\ exists p, job p = j /\ contents d' i = full p) ->
  (forall j i, tmp d' j = Some i -> i < next d') ->
  (forall j k i, main d' j = Some i -> main d' k = Some i -> j = k) ->
  (forall j k i, tmp d' j = Some i -> tmp d' k = Some i -> j = k) ->
  (forall j k i, main d' j = Some i -> tmp d' k = Some i -> False) -> inv (mkSys d' (put (procs s) p c)).
Proof.
  intros I HL C HA H1 H2 H3 H4 H5. destruct I, C. split; cbn [disk procs]; auto.
  - intros q. destruct (Nat.eq_dec q p) as [->|Hq]; [rewrite put_eq; auto|rewrite put_ne; auto]. apply at_other with (d := disk s); auto.
    + intros Lq. assert (Hj : job q <> job p) by (intros Hj; apply Hq; auto). rewrite c_main0, c_tmp0 by auto. repeat split; auto.
      intros i Hi. apply c_cont0; [eauto|]. intros Hp. apply Hj. eauto.
    + intros _ i Hi. assert (Ec : contents d' i = contents (disk s) i) by (apply c_cont0; [eapply i_main0; eauto|intros Hp; eauto]).
      split; [|auto]. destruct (Nat.eq_dec (job q) (job p)) as [Ej|Ej]; [rewrite Ej in *; auto|rewrite c_main0; auto].
  - intros q r Hq Hr Hj. destruct (Nat.eq_dec q p) as [->|Nq], (Nat.eq_dec r p) as [->|Nr]; auto; rewrite ?(put_ne _ _ _ q), ?(put_ne _ _ _ r) in * by auto; auto.
Qed.

Lemma inv_call s p d' c : inv s -> advance header job result p (disk s) (procs s p) = Some (d', c) ->
  inv (mkSys d' (put (procs s) p c)) /\ change (disk s) d' (job p).
Proof.
  intros I H. pose proof (i_at s I p) as HA.
  assert (CR : change (disk s) (disk s) (job p)) by (destruct I; split; auto).
  assert (HM : live (procs s p) -> at_ (disk s) p c -> d' = disk s -> inv (mkSys d' (put (procs s) p c)) /\ change (disk s) d' (job p)).
  { intros L A ->. split; [|auto]. apply inv_move; auto. intros q Lq Hj. eapply i_one; eauto. }
  pose proof (i_kind s I) as IK. pose proof (i_main s I) as IM. pose proof (i_tmp s I) as IT. pose proof (i_mm s I) as MM. pose proof (i_tt s I) as TT. pose proof (i_mt s I) as MT.
  destruct (procs s p) as [| | | | | | | |ex|i [|b rest]| | | | | | | | |] eqn:Ec; cbn [advance] in H; try discriminate; cbn [at_] in HA; cbn [live] in HM; try specialize (HM Logic.I).
  - (* CheckDir *) injection H as <- <-. apply HM; auto. destruct (kind (disk s)) eqn:Ek; cbn; auto; congruence.
  - (* IsDir *) injection H as <- <-. apply HM; auto. rewrite HA. cbn. auto.
  - (* MkDir *) injection H as <- <-. destruct (kind (disk s)) eqn:Ek.
    + assert (C : change (disk s) (mkFs Directory (main (disk s)) (tmp (disk s)) (contents (disk s)) (next (disk s))) (job p)) by (split; cbn; auto; discriminate).
      split; [|auto]. apply (inv_change s p); auto; [rewrite Ec; cbn; auto|cbn; auto].
    + apply HM; auto.
    + congruence.
  - (* RecheckDir *) injection H as <- <-. apply HM; auto. rewrite HA. cbn. auto.
  - (* CheckRecord *) injection H as <- <-. apply HM; auto. destruct (main (disk s) (job p)) eqn:Em; cbn; [congruence|auto].
  - (* DeleteTmp *) injection H as <- <-. destruct HA as (K & Hm).
    assert (C : change (disk s) (mkFs (kind (disk s)) (main (disk s)) (put (tmp (disk s)) (job p) None) (contents (disk s)) (next (disk s))) (job p)).
    { split; cbn; auto. intros k Hk. apply put_ne; auto. }
    split; [|auto]. assert (PT : forall j i, put (tmp (disk s)) (job p) None j = Some i -> tmp (disk s) j = Some i).
    { intros j i. destruct (Nat.eq_dec j (job p)) as [->|]; [rewrite put_eq; discriminate|rewrite put_ne; auto]. }
    apply (inv_change s p); auto; try (rewrite Ec; cbn; auto); cbn [disk main tmp next kind contents] in *; eauto.
    cbn. rewrite put_eq. auto.
  - (* CheckTmp *) injection H as <- <-. apply HM; auto. destruct HA as (K & Hm & Ht). rewrite Ht. cbn. auto.
  - (* OpenTmp *) destruct HA as (K & Hm & Ht & ->). rewrite Ht in H. injection H as <- <-. set (d := disk s) in *. set (n := next d) in *.
    assert (C : change d (mkFs (kind d) (main d) (put (tmp d) (job p) (Some n)) (put (contents d) n []) (S n)) (job p)).
    { split; cbn; auto; intros k Hk; [apply put_ne; auto|]. intros _. apply put_ne. unfold n. lia. }
    split; [|auto].
    assert (PT : forall j i, put (tmp d) (job p) (Some n) j = Some i -> (j = job p /\ i = n) \/ tmp d j = Some i).
    { intros j i. destruct (Nat.eq_dec j (job p)) as [->|]; [rewrite put_eq; intros [= <-]; auto|rewrite put_ne; auto]. }
    apply (inv_change s p); auto; try (rewrite Ec; cbn; auto); cbn [disk main tmp next kind contents] in *; fold d.
    + cbn. rewrite !put_eq. auto.
    + intros j i Hj. destruct (IM j i Hj) as (Hi & q & Hq & Hc). split; [unfold n, d in *; lia|]. exists q. rewrite put_ne by (unfold n, d in *; lia). auto.
    + intros j i Hj. destruct (PT _ _ Hj) as [(_ & ->)|Hj']; [lia|]. pose proof (IT _ _ Hj'). unfold n, d in *. lia.
    + intros j k i Hj Hk. destruct (PT _ _ Hj) as [(-> & ->)|Hj'], (PT _ _ Hk) as [(-> & Hn)|Hk']; auto; [pose proof (IT _ _ Hk')|subst i; pose proof (IT _ _ Hj')|eauto]; unfold n, d in *; lia.
    + intros j k i Hj Hk. destruct (PT _ _ Hk) as [(-> & ->)|Hk']; [|eauto]. destruct (IM _ _ Hj). unfold n, d in *. lia.
  - (* Writing, end *) injection H as <- <-. apply HM; auto. destruct HA as (K & Hm & Ht & Hc). cbn. repeat split; auto. exists i. rewrite app_nil_r in Hc. auto.
  - (* Writing *) destruct HA as (K & Hm & Ht & Hc). injection H as <- <-. set (d := disk s) in *.
    assert (C : change d (mkFs (kind d) (main d) (tmp d) (put (contents d) i (contents d i ++ [b])) (next d)) (job p)).
    { split; cbn; auto. intros k Hk Hne. apply put_ne. congruence. }
    split; [|auto].
    apply (inv_change s p); auto; try (rewrite Ec; cbn; auto); cbn [disk main tmp next kind contents] in *; fold d; eauto.
    + cbn. rewrite put_eq, <- app_assoc. auto.
    + intros j k Hj. destruct (IM j k Hj) as (Hi & q & Hq & Hcc). split; [auto|]. exists q. rewrite put_ne; [auto|]. intros ->. eauto.
  - (* CloseCheck *) injection H as <- <-. apply HM; auto. destruct HA as (K & Hm & i & Ht & Hc). rewrite Ht. cbn. eauto.
  - (* RenameCheckDest *) injection H as <- <-. apply HM; auto. destruct HA as (K & Hm & i & Ht & Hc). rewrite Hm. cbn. eauto.
  - contradiction.
  - (* RenameCheckOrig *) injection H as <- <-. apply HM; auto. destruct HA as (K & Hm & i & Ht & Hc). rewrite Ht. cbn. eauto.
  - (* Rename *) destruct HA as (K & Hm & i & Ht & Hc). rewrite Ht in H. injection H as <- <-. set (d := disk s) in *.
    assert (C : change d (mkFs (kind d) (put (main d) (job p) (Some i)) (put (tmp d) (job p) None) (contents d) (next d)) (job p)).
    { split; cbn; auto; try (intros k Hk; apply put_ne; auto). congruence. }
    split; [|auto].
    assert (PM : forall j k, put (main d) (job p) (Some i) j = Some k -> (j = job p /\ k = i) \/ main d j = Some k).
    { intros j k. destruct (Nat.eq_dec j (job p)) as [->|]; [rewrite put_eq; intros [= <-]; auto|rewrite put_ne; auto]. }
    assert (PT : forall j k, put (tmp d) (job p) None j = Some k -> j <> job p /\ tmp d j = Some k).
    { intros j k. destruct (Nat.eq_dec j (job p)) as [->|]; [rewrite put_eq; discriminate|rewrite put_ne; auto]. }
    apply (inv_change s p); auto; try (rewrite Ec; cbn; auto); cbn [disk main tmp next kind contents] in *; fold d.
    + cbn. rewrite put_eq. eauto.
    + intros j k Hj. destruct (PM _ _ Hj) as [(-> & ->)|Hj']; [split; [eapply IT; eauto|eauto]|apply IM; auto].
    + intros j k Hj. destruct (PT _ _ Hj) as [_ Hj']. eapply IT; eauto.
    + intros j k x Hj Hk. destruct (PM _ _ Hj) as [(-> & ->)|Hj'], (PM _ _ Hk) as [(-> & Hn)|Hk']; auto; [|subst|]; try (exfalso; eauto; fail). eauto.
    + intros j k x Hj Hk. destruct (PT _ _ Hj) as [_ Hj'], (PT _ _ Hk) as [_ Hk']. eauto.
    + intros j k x Hj Hk. destruct (PT _ _ Hk) as [Nk Hk']. destruct (PM _ _ Hj) as [(-> & ->)|Hj']; [|eauto]. apply Nk. eauto.
Qed.

Lemma inv_step s s' : inv s -> step header job result (one_per_job job) s s' ->
  inv s' /\ forall j, record s j <> None -> record s' j = record s j.
Proof.
  intros I H. destruct H as [s p Hp Hm|s p d c Hc|s p Hl].
  - split; [|auto]. apply inv_move; cbn; auto. intros q Lq Hj. exfalso. apply (Hm q); auto.
  - destruct (inv_call s p d c I Hc) as [I' C]. split; [auto|]. unfold record. cbn [disk]. intros j Hj. destruct (main (disk s) j) as [i|] eqn:Em; [|contradiction].
    assert (Em' : main d j = Some i). { destruct (Nat.eq_dec j (job p)) as [->|Hne]; [apply (c_stable _ _ _ C); auto|rewrite (c_main _ _ _ C) by auto; auto]. }
    rewrite Em'. cbn [option_map]. f_equal. apply (c_cont _ _ _ C); [eapply (i_main s I); eauto|]. intros Ht. eapply (i_mt s I); eauto.
  - split; [|auto]. apply inv_move; cbn; auto. intros q Lq Hj. eapply i_one; eauto.
Qed.

Lemma inv_star s s' : inv s -> star (step header job result (one_per_job job)) s s' -> inv s' /\ forall j, record s j <> None -> record s' j = record s j.
Proof.
  intros I H. induction H as [s|s s1 s2 H IH Hs]; [auto|]. destruct (IH I) as [I1 H1]. destruct (inv_step s1 s2 I1 Hs) as [I2 H2].
  split; [auto|]. intros j Hj. rewrite <- (H1 j Hj). apply H2. rewrite (H1 j Hj). auto.
Qed.

(* no temporary file beside a record *)
Lemma notmp_star s s' : inv s -> (forall j, main (disk s) j <> None -> tmp (disk s) j = None) ->
  star (step header job result (one_per_job job)) s s' -> forall j, main (disk s') j <> None -> tmp (disk s') j = None.
Proof.
  intros I H0 H. induction H as [s|s s1 s2 H IH Hs]; [auto|]. specialize (IH I H0). destruct (inv_star s s1 I H) as [I1 _].
  destruct Hs as [s1 p Hp Hm|s1 p d c Hc|s1 p Hl]; cbn [disk]; auto.
  pose proof (i_at s1 I1 p) as HA. set (d0 := disk s1) in *. clearbody d0. intros j.
  destruct (procs s1 p) as [| | | | | | | |ex|i [|b rest]| | | | | | | | |]; cbn [advance] in Hc; try discriminate; cbn [at_] in HA;
    try (injection Hc as <- <-; auto; fail).
  - injection Hc as <- <-. destruct (kind d0); cbn [main tmp]; auto; apply IH.
  - injection Hc as <- <-. cbn [main tmp]. intros Hj. unfold put. destruct (j =? job p); auto.
  - destruct HA as (_ & Hm & Ht & _). rewrite Ht in Hc. injection Hc as <- <-. cbn [main tmp]. intros Hj. unfold put. destruct (Nat.eqb_spec j (job p)); [congruence|auto].
  - injection Hc as <- <-. cbn [main tmp]. apply IH.
  - contradiction.
  - destruct HA as (_ & _ & i & Ht & _). rewrite Ht in Hc. injection Hc as <- <-. cbn [main tmp]. unfold put. destruct (j =? job p); auto.
Qed.
End Invariant.

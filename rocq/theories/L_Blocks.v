(* Proofs about find_blocks. *)
From Coq Require Import Sorted.
From Verif Require Import Base Spec L_Lin M_Tensor L_Tensor M_Permute L_Permute M_Blocks S_Blocks.

(* ---- connectivity ---- *)
Lemma conn_mono (E E' : nat -> nat -> Prop) v w : (forall i j, E i j -> E' i j) -> conn E v w -> conn E' v w.
Proof. intros H C. induction C; [apply conn_refl|apply conn_edge; auto|apply conn_sym; auto|eapply conn_trans; eauto]. Qed.
Lemma conn_ext (E E' : nat -> nat -> Prop) v w : (forall i j, E i j <-> E' i j) -> (conn E v w <-> conn E' v w).
Proof. intros H. split; apply conn_mono; intros i j; apply H. Qed.

Definition plus (E : nat -> nat -> Prop) (r c : nat) : nat -> nat -> Prop := fun i j => E i j \/ (i = r /\ j = c).
Lemma conn_plus E r c v w : conn (plus E r c) v w <->
  conn E v w \/ (conn E v (Row r) /\ conn E (Col c) w) \/ (conn E v (Col c) /\ conn E (Row r) w).
Proof.
  split.
  - intros C. induction C as [v|i j [H|[-> ->]]|v w _ IH|u v w _ IH1 _ IH2].
    + left. apply conn_refl.
    + left. apply conn_edge. auto.
    + right; left. split; apply conn_refl.
    + destruct IH as [H|[[H1 H2]|[H1 H2]]]; [left; apply conn_sym; auto|right; right; split; apply conn_sym; auto|right; left; split; apply conn_sym; auto].
    + destruct IH1 as [H|[[H1 H2]|[H1 H2]]], IH2 as [G|[[G1 G2]|[G1 G2]]]; eauto 6 using conn_trans.
  - assert (M : forall v w, conn E v w -> conn (plus E r c) v w) by (intros; eapply conn_mono; [|eauto]; unfold plus; auto).
    assert (D : conn (plus E r c) (Row r) (Col c)) by (apply conn_edge; unfold plus; auto).
    intros [H|[[H1 H2]|[H1 H2]]]; [auto| |].
    + eapply conn_trans; [apply M; eauto|]. eapply conn_trans; [exact D|auto].
    + eapply conn_trans; [apply M; eauto|]. eapply conn_trans; [apply conn_sym; exact D|auto].
Qed.

(* vertices without edges *)
Definition isolated (E : nat -> nat -> Prop) (v : vertex) : Prop :=
  match v with Row i => forall j, ~ E i j | Col j => forall i, ~ E i j end.
Lemma isolated_conn E v w : isolated E v -> conn E v w -> v = w.
Proof.
  intros H C. assert (G : (isolated E v -> v = w) /\ (isolated E w -> v = w)); [|tauto]. clear H.
  induction C as [v|i j H|v w _ IH|u v w _ IH1 _ IH2].
  - auto.
  - split; intros G; exfalso; eapply G; eauto.
  - split; intros G; symmetry; tauto.
  - split; intros G.
    + assert (u = v) by tauto. subst. tauto.
    + assert (v = w) by tauto. subst. tauto.
Qed.

(* ---- labels ---- *)
Local Open Scope Z_scope.
Definition veq_dec (v w : vertex) : {v = w} + {v <> w}.
Proof. decide equality; apply Nat.eq_dec. Defined.

Definition good (E : nat -> nat -> Prop) (lab : vertex -> Z) : Prop :=
  (forall v w, lab v <> empty -> lab w <> empty -> (lab v = lab w <-> conn E v w)) /\
  (forall v, lab v = empty -> isolated E v).

Lemma good_ext E E' lab lab' : good E lab -> (forall i j, E i j <-> E' i j) -> (forall v, lab v = lab' v) -> good E' lab'.
Proof.
  intros [H1 H2] HE Hl. split.
  - intros v w. rewrite <- !Hl. intros Hv Hw. rewrite <- (conn_ext E E') by auto. auto.
  - intros v. rewrite <- Hl. intros Hv. specialize (H2 v Hv). destruct v; cbn in *; intros x Hx; eapply H2, HE; eauto.
Qed.
Lemma conn_empty E lab v w : good E lab -> lab v = empty -> lab w <> empty -> ~ conn E v w /\ ~ conn E w v.
Proof.
  intros [_ H] Hv Hw. split; intros C.
  - apply isolated_conn in C; [|auto]. congruence.
  - apply conn_sym in C. apply isolated_conn in C; [|auto]. congruence.
Qed.
Lemma isolated_plus E r c v : isolated E v -> v <> Row r -> v <> Col c -> isolated (plus E r c) v.
Proof. destruct v; cbn; intros H Hr Hc x [G|[-> ->]]; [eapply H; eauto|congruence|eapply H; eauto|congruence]. Qed.

Lemma good_same E lab r c : good E lab -> lab (Row r) <> empty -> lab (Row r) = lab (Col c) -> good (plus E r c) lab.
Proof.
  intros G Hr Hrc. assert (Crc : conn E (Row r) (Col c)) by (apply (proj1 G); auto; congruence). split.
  - intros v w Hv Hw. rewrite (proj1 G) by auto. rewrite conn_plus. split; [auto|]. intros [H|[[H1 H2]|[H1 H2]]]; [auto| |].
    + eapply conn_trans; [exact H1|]. eapply conn_trans; eauto.
    + eapply conn_trans; [exact H1|]. eapply conn_trans; [apply conn_sym; exact Crc|auto].
  - intros v Hv. apply isolated_plus; [apply (proj2 G); auto|congruence|congruence].
Qed.
Lemma good_join E lab r c : good E lab -> lab (Row r) <> empty -> lab (Col c) <> empty ->
  good (plus E r c) (fun v => if lab v =? lab (Col c) then lab (Row r) else lab v).
Proof.
  intros G Hr Hc. split.
  - intros v w. destruct (Z.eqb_spec (lab v) (lab (Col c))) as [Ev|Ev], (Z.eqb_spec (lab w) (lab (Col c))) as [Ew|Ew]; intros Hv Hw; rewrite conn_plus.
    + split; [intros _|auto]. left. apply (proj1 G); congruence.
    + rewrite <- !(proj1 G) by congruence. split; [intros E1; right; right; auto|intros [H|[[H1 H2]|[H1 H2]]]; congruence].
    + rewrite <- !(proj1 G) by congruence. split; [intros E1; right; left; split; congruence|intros [H|[[H1 H2]|[H1 H2]]]; congruence].
    + rewrite <- !(proj1 G) by congruence. split; [auto|intros [H|[[H1 H2]|[H1 H2]]]; congruence].
  - intros v. destruct (Z.eqb_spec (lab v) (lab (Col c))) as [Ev|Ev]; intros Hv; [contradiction|].
    apply isolated_plus; [apply (proj2 G); auto|congruence|congruence].
Qed.
Lemma good_new E lab r c : good E lab -> lab (Row r) = empty -> lab (Col c) <> empty ->
  good (plus E r c) (fun v => if veq_dec v (Row r) then lab (Col c) else lab v).
Proof.
  intros G Hr Hc. 
  assert (K : forall v, lab v <> empty -> conn E v (Row r) <-> False) by (intros v Hv; split; [apply (conn_empty E lab (Row r) v G Hr Hv)|tauto]).
  assert (K' : forall v, lab v <> empty -> conn E (Row r) v <-> False) by (intros v Hv; split; [apply (conn_empty E lab (Row r) v G Hr Hv)|tauto]).
  pose proof (conn_refl E (Row r)) as Crr.
  split.
  - intros v w. destruct (veq_dec v (Row r)) as [->|Nv], (veq_dec w (Row r)) as [->|Nw]; intros Hv Hw; rewrite conn_plus.
    + split; auto.
    + pose proof (K' (Col c) Hc). pose proof (K' w Hw). pose proof (proj1 G (Col c) w Hc Hw). tauto.
    + pose proof (K (Col c) Hc). pose proof (K v Hv). pose proof (proj1 G v (Col c) Hv Hc). tauto.
    + pose proof (K v Hv). pose proof (K' w Hw). pose proof (proj1 G v w Hv Hw). tauto.
  - intros v. destruct (veq_dec v (Row r)) as [->|Nv]; intros Hv; [contradiction|].
    apply isolated_plus; [apply (proj2 G); auto|auto|congruence].
Qed.
(* a fresh label for a vertex without edges, and back *)
Lemma good_fresh E lab x f : good E lab -> lab x = empty -> f <> empty -> (forall v, lab v <> f) ->
  good E (fun v => if veq_dec v x then f else lab v).
Proof.
  intros G Hx Hf Hfr. split.
  - intros v w. destruct (veq_dec v x) as [->|Nv], (veq_dec w x) as [->|Nw]; intros Hv Hw.
    + split; auto using conn_refl.
    + split; [intros E1; exfalso; eapply Hfr; eauto|]. intros C. destruct (conn_empty E lab x w G Hx Hw); tauto.
    + split; [intros E1; exfalso; eapply Hfr; eauto|]. intros C. destruct (conn_empty E lab x v G Hx Hv); tauto.
    + apply (proj1 G); auto.
  - intros v. destruct (veq_dec v x); intros Hv; [contradiction|]. apply (proj2 G); auto.
Qed.
Lemma good_drop E lab x : good E lab -> isolated E x -> good E (fun v => if veq_dec v x then empty else lab v).
Proof.
  intros G Hx. split.
  - intros v w. destruct (veq_dec v x); [congruence|]. destruct (veq_dec w x); [congruence|]. apply (proj1 G).
  - intros v. destruct (veq_dec v x) as [->|]; [auto|]. apply (proj2 G).
Qed.

Lemma conn_iff E lab v w : good E lab -> lab v <> empty -> (conn E v w <-> lab w = lab v).
Proof.
  intros G Hv. destruct (Z.eq_dec (lab w) empty) as [Hw|Hw].
  - split; [intros C; destruct (conn_empty E lab w v G Hw Hv); tauto|congruence].
  - rewrite <- (proj1 G) by auto. split; auto.
Qed.
Definition touched (E : nat -> nat -> Prop) (v : vertex) : Prop :=
  match v with Row i => exists j, E i j | Col j => exists i, E i j end.
Lemma touched_lab E lab v : good E lab -> touched E v -> lab v <> empty.
Proof. intros G Ht Hv. apply (proj2 G) in Hv. destruct v; destruct Ht as (x & Hx); eapply Hv; eauto. Qed.
Lemma edge_lab E lab i j : good E lab -> E i j -> lab (Row i) = lab (Col j) /\ lab (Col j) <> empty.
Proof.
  intros G H. assert (lab (Row i) <> empty) by (eapply touched_lab; eauto; exists j; auto). assert (lab (Col j) <> empty) by (eapply touched_lab; eauto; exists i; auto).
  split; [|auto]. apply (proj1 G); auto. apply conn_edge. auto.
Qed.

(* ---- the arrays ---- *)
Notation at_ v k := (nth k v empty).

Lemma at_upd v k x j : (k < length v)%nat -> at_ (upd v k x) j = if (j =? k)%nat then x else at_ v j.
Proof.
  intros H. destruct (Nat.lt_ge_cases j (length v)) as [L|L].
  - apply nth_error_nth. rewrite nth_error_upd. replace (k <? length v)%nat with true by lia. rewrite andb_true_r. destruct (j =? k)%nat; [reflexivity|]. apply nth_error_nth'. auto.
  - replace (j =? k)%nat with false by lia. rewrite !nth_overflow; auto. rewrite length_upd. auto.
Qed.
Lemma rd_at v k : (k < length v)%nat -> rd v k = Ok (at_ v k).
Proof. intros H. apply rd_ok, nth_error_nth'. auto. Qed.

Lemma replace_ok n v a b : (n <= length v)%nat -> exists v', replace_integer n v a b = Ok v' /\ length v' = length v /\
  forall k, at_ v' k = if (k <? n)%nat && (at_ v k =? a) then b else at_ v k.
Proof.
  intros Hn. unfold replace_integer.
  destruct (for_inv (fun i (v' : list Z) => length v' = length v /\ forall k, at_ v' k = if (k <? i)%nat && (at_ v k =? a) then b else at_ v k) n
    (fun k v => x <- rd v k ;; if x =? a then wr v k b else Ok v) v) as (v' & E & H); [split; auto| |eauto].
  intros i v' Hi (Hl & Hk). rewrite rd_at by lia. cbn [bind]. rewrite (Hk i). rewrite Nat.ltb_irrefl. cbn [andb].
  destruct (Z.eqb_spec (at_ v i) a) as [Ea|Ea].
  - rewrite wr_ok by lia. eexists. split; [reflexivity|]. split; [rewrite length_upd; auto|]. intros k. rewrite at_upd by lia. rewrite Hk.
    destruct (Nat.eqb_spec k i) as [->|N]; [replace (i <? S i)%nat with true by lia; rewrite Ea, Z.eqb_refl; reflexivity|]. replace (k <? S i)%nat with (k <? i)%nat by lia. reflexivity.
  - eexists. split; [reflexivity|]. split; [auto|]. intros k. rewrite Hk. destruct (Nat.eqb_spec k i) as [->|N].
    + replace (at_ v i =? a) with false by lia. rewrite !andb_false_r. reflexivity.
    + replace (k <? S i)%nat with (k <? i)%nat by lia. reflexivity.
Qed.

Lemma NoDup_remove_z (x : Z) l : NoDup l -> NoDup (remove Z.eq_dec x l).
Proof.
  induction 1 as [|y l Hy Hn IH]; [constructor|]. cbn [remove]. destruct (Z.eq_dec x y); [auto|]. constructor; [|auto]. intros H. apply in_remove in H as [H _]. contradiction.
Qed.
Lemma len_remove (x : Z) l : NoDup l -> length (remove Z.eq_dec x l) = (length l - if in_dec Z.eq_dec x l then 1 else 0)%nat.
Proof.
  induction 1 as [|y l Hy Hn IH]; [reflexivity|]. cbn [remove]. destruct (Z.eq_dec x y) as [->|N].
  - rewrite notin_remove by auto. destruct (in_dec Z.eq_dec y (y :: l)) as [_|C]; [cbn [length]; lia|]. exfalso. apply C. left. reflexivity.
  - cbn [length]. rewrite IH. destruct (in_dec Z.eq_dec x l) as [I|I], (in_dec Z.eq_dec x (y :: l)) as [J|J].
    + destruct l; [contradiction|cbn [length]; lia].
    + exfalso. apply J. right. auto.
    + destruct J; [congruence|contradiction].
    + lia.
Qed.

Lemma NoDup_app_one {X} (l : list X) x : NoDup l -> ~ In x l -> NoDup (l ++ [x]).
Proof.
  induction 1 as [|y l Hy Hn IH]; intros Hx; cbn [app]; [constructor; [auto|constructor]|]. constructor; [|apply IH; intros H; apply Hx; right; auto].
  intros H. apply in_app_or in H as [H|[H|[]]]; [contradiction|]. apply Hx. left. auto.
Qed.
Section Loop.
Context {A T : Type} (significant : T -> A -> bool) (tol : T) (d : list A) (N M : nat) (Hd : (N * M <= length d)%nat).
Definition sig (i j : nat) : Prop := exists x, nth_error d (i + N * j) = Some x /\ significant tol x = true.
Definition edges (col row : nat) (i j : nat) : Prop := (i < N)%nat /\ sig i j /\ ((j < col)%nat \/ (j = col /\ (i < row)%nat)).

Definition lab0 (rb cb : list Z) (col : nat) (v : vertex) : Z :=
  match v with Row i => at_ rb i | Col j => if (j <? col)%nat then at_ cb j else empty end.
Definition lab1 (rb cb : list Z) (col : nat) (curr : Z) (v : vertex) : Z :=
  match v with Row i => at_ rb i | Col j => if (j <? col)%nat then at_ cb j else if (j =? col)%nat then curr else empty end.
Definition distinct (rb : list Z) (L : list Z) : Prop :=
  NoDup L /\ forall l, In l L <-> l <> empty /\ exists r, at_ rb r = l.

Definition inner (col row : nat) (st : fb_state) : Prop :=
  let lab := lab1 (row_block st) (col_block st) col (curr_block st) in
  length (row_block st) = N /\ length (col_block st) = M /\
  good (edges col row) lab /\
  (forall v, lab v <> empty -> 0 <= lab v <= Z.of_nat col) /\ curr_block st <> empty /\
  (forall v, lab v <> empty -> v = Col col \/ touched (edges col row) v) /\
  (fb_set st = true <-> exists r, (r < row)%nat /\ (r < N)%nat /\ sig r col) /\
  exists L, distinct (row_block st) L /\ Z.of_nat (length L) = fb_nblocks st + if fb_set st then 1 else 0.

Lemma touched_mono (E E' : nat -> nat -> Prop) v : (forall i j, E i j -> E' i j) -> touched E v -> touched E' v.
Proof. intros H. destruct v; intros (x & Hx); exists x; auto. Qed.
Lemma edges_S col row i j : (row < N)%nat -> sig row col -> (plus (edges col row) row col i j <-> edges col (S row) i j).
Proof.
  intros Hr Hs. unfold plus, edges. split.
  - intros [(H1 & H2 & H3)|[-> ->]]; [split; [auto|]; split; [auto|]; lia|]. split; [auto|]. split; [auto|]. lia.
  - intros (H1 & H2 & H3). destruct (Nat.eq_dec i row) as [->|Ni]; [destruct (Nat.eq_dec j col) as [->|Nj]; [right; auto|]|]; left; (split; [auto|]); (split; [auto|]); lia.
Qed.
Lemma edges_S_not col row i j : ~ sig row col -> (edges col row i j <-> edges col (S row) i j).
Proof.
  intros Hs. unfold edges. split; intros (H1 & H2 & H3); (split; [auto|]); (split; [auto|]); [lia|].
  destruct H3 as [H3|[-> H3]]; [auto|]. right. split; [auto|]. destruct (Nat.eq_dec i row) as [->|]; [contradiction|lia].
Qed.

Lemma inner_step col row st : (row < N)%nat -> (col < M)%nat -> inner col row st ->
  exists st', fb_row significant d tol N col row st = Ok st' /\ inner col (S row) st'.
Proof.
  intros Hrow Hcol (Hrb & Hcb & G & Hrng & Hcur & HT & Hset & L & (HL1 & HL2) & HL3). unfold fb_row.
  assert (Hpos : (row + N * col < length d)%nat) by nia.
  destruct (nth_error_lt d _ Hpos) as (x & Hx). rewrite (rd_ok _ _ _ Hx). cbn [bind].
  destruct (significant tol x) eqn:Es.
  2:{ assert (Hns : ~ sig row col) by (intros (y & Hy & Ey); congruence).
      exists st. split; [reflexivity|]. split; [auto|]. split; [auto|]. split; [eapply good_ext; [exact G|intros; apply edges_S_not; auto|auto]|].
      split; [auto|]. split; [auto|]. split; [|split].
      - intros v Hv. destruct (HT v Hv) as [->|Ht]; [auto|]. right. eapply touched_mono; [|exact Ht]. intros i j. apply edges_S_not. auto.
      - rewrite Hset. split; intros (r & Hr & HrN & Hs); exists r; (split; [|auto]); [lia|]. destruct (Nat.eq_dec r row) as [->|]; [contradiction|lia].
      - exists L. split; [split; auto|auto]. }
  assert (Hs : sig row col) by (exists x; auto).
  assert (HE : forall i j, plus (edges col row) row col i j <-> edges col (S row) i j) by (intros; apply edges_S; auto).
  assert (Hmono : forall v, touched (edges col row) v -> touched (edges col (S row)) v) by (intros v; apply touched_mono; intros i j H; apply HE; left; auto).
  assert (Hset' : true = true <-> exists r, (r < S row)%nat /\ (r < N)%nat /\ sig r col) by (split; [intros _; exists row; auto|auto]).
  assert (Lcol : lab1 (row_block st) (col_block st) col (curr_block st) (Col col) = curr_block st) by (unfold lab1; rewrite Nat.ltb_irrefl, Nat.eqb_refl; reflexivity).
  (* the current label is a row's label once something was found *)
  assert (HcurL : In (curr_block st) L <-> fb_set st = true).
  { rewrite Hset, HL2. split.
    - intros (_ & r & Hr). assert (C : conn (edges col row) (Row r) (Col col)) by (apply (proj1 G); [cbn; congruence|rewrite Lcol; auto|rewrite Lcol; exact Hr]).
      assert (Hiso : ~ isolated (edges col row) (Col col)) by (intros Hi; apply conn_sym, isolated_conn in C; [discriminate|auto]).
      destruct (fb_set st) eqn:Ef; [apply Hset; auto|]. exfalso. apply Hiso. intros i (Hi & Hsi & [H|[_ H]]); [lia|].
      assert (false = true) by (apply Hset; exists i; auto). discriminate.
    - intros (r & Hr & HrN & Hsr). split; [auto|]. exists r. assert (He : edges col row r col) by (split; [auto|split; auto]).
      destruct (edge_lab _ _ _ _ G He) as [E1 _]. rewrite Lcol in E1. exact E1. }
  rewrite rd_at by lia. cbn [bind]. destruct (Z.eqb_spec (at_ (row_block st) row) empty) as [Er|Er].
  - (* an unlabelled row *)
    rewrite wr_ok by lia. cbn [bind]. eexists. split; [reflexivity|]. unfold inner. cbn [row_block col_block curr_block fb_nblocks fb_set].
    assert (Elab : forall v, (if veq_dec v (Row row) then curr_block st else lab1 (row_block st) (col_block st) col (curr_block st) v) =
        lab1 (upd (row_block st) row (curr_block st)) (col_block st) col (curr_block st) v).
    { intros [i|j]; destruct (veq_dec _ _) as [E|E]; try discriminate; unfold lab1; [| |reflexivity]; rewrite at_upd by lia.
      - injection E as ->. rewrite Nat.eqb_refl. reflexivity.
      - destruct (Nat.eqb_spec i row); [congruence|reflexivity]. }
    split; [rewrite length_upd; auto|]. split; [auto|]. split; [|split; [|split; [auto|split; [|split; [exact Hset'|]]]]].
    + eapply good_ext; [apply (good_new _ _ row col G)|exact HE|].
      * exact Er.
      * rewrite Lcol. auto.
      * intros v. rewrite Lcol. apply Elab.
    + intros v. rewrite <- Elab. destruct (veq_dec v (Row row)); [|apply Hrng]. intros _. rewrite <- Lcol. apply Hrng. rewrite Lcol. auto.
    + intros v. rewrite <- Elab. destruct (veq_dec v (Row row)) as [->|]; [intros _; right; exists col; apply HE; right; auto|]. intros Hv. destruct (HT v Hv); auto.
    + assert (Hin : forall r, at_ (upd (row_block st) row (curr_block st)) r = if (r =? row)%nat then curr_block st else at_ (row_block st) r) by (intros; apply at_upd; lia).
      destruct (fb_set st) eqn:Ef.
      * exists L. split; [|exact HL3]. split; [auto|]. intros l. rewrite HL2. split; intros (Hl & r & Hr); (split; [auto|]).
        -- exists r. rewrite Hin. destruct (Nat.eqb_spec r row) as [->|]; [congruence|auto].
        -- rewrite Hin in Hr. destruct (r =? row)%nat; [|exists r; auto]. apply HL2. rewrite <- Hr. apply HcurL. reflexivity.
      * exists (curr_block st :: L). split; [|cbn [length]; lia]. split.
        -- constructor; [|auto]. rewrite HcurL. discriminate.
        -- intros l. cbn [In]. rewrite HL2. split.
           ++ intros [<-|(Hl & r & Hr)]; (split; [auto|]); [exists row; rewrite Hin, Nat.eqb_refl; auto|]. exists r. rewrite Hin. destruct (Nat.eqb_spec r row) as [->|]; [congruence|auto].
           ++ intros (Hl & r & Hr). rewrite Hin in Hr. destruct (r =? row)%nat; [left; auto|]. right. split; [auto|]. exists r. auto.
  - destruct (Z.eqb_spec (at_ (row_block st) row) (curr_block st)) as [Ec|Ec]; cbn [negb].
    + (* same block already *)
      eexists. split; [reflexivity|]. unfold inner. cbn [row_block col_block curr_block fb_nblocks fb_set].
      split; [auto|]. split; [auto|]. split; [|split; [auto|split; [auto|split; [|split; [exact Hset'|]]]]].
      * eapply good_ext; [apply (good_same _ _ row col G)|exact HE|auto]; [exact Er|]. rewrite Lcol. exact Ec.
      * intros v Hv. destruct (HT v Hv); auto.
      * exists L. split; [split; auto|]. rewrite HL3. replace (fb_set st) with true; [reflexivity|]. symmetry. apply HcurL. apply HL2. split; [auto|]. exists row. auto.
    + (* two blocks become one *)
      set (nb := at_ (row_block st) row) in *.
      destruct (replace_ok N (row_block st) (curr_block st) nb ltac:(lia)) as (rb & -> & Lrb & Arb). cbn [bind].
      destruct (replace_ok col (col_block st) (curr_block st) nb ltac:(lia)) as (cb & -> & Lcb & Acb). cbn [bind].
      eexists. split; [reflexivity|]. unfold inner. cbn [row_block col_block curr_block fb_nblocks fb_set].
      assert (Arb' : forall k, at_ rb k = if at_ (row_block st) k =? curr_block st then nb else at_ (row_block st) k).
      { intros k. rewrite Arb. destruct (Nat.ltb_spec k N); [reflexivity|]. cbn [andb]. rewrite nth_overflow by lia. destruct (Z.eqb_spec empty (curr_block st)); [congruence|reflexivity]. }
      assert (Elab : forall v, (if lab1 (row_block st) (col_block st) col (curr_block st) v =? curr_block st then nb else lab1 (row_block st) (col_block st) col (curr_block st) v) = lab1 rb cb col nb v).
      { intros [i|j]; unfold lab1; [rewrite Arb'; reflexivity|]. rewrite Acb. destruct (Nat.ltb_spec j col); [reflexivity|]. destruct (j =? col)%nat; [rewrite Z.eqb_refl; reflexivity|].
        destruct (Z.eqb_spec empty (curr_block st)); [congruence|reflexivity]. }
      assert (Hnb : 0 <= nb <= Z.of_nat col) by (exact (Hrng (Row row) Er)).
      split; [congruence|]. split; [congruence|]. split; [|split; [|split; [auto|split; [|split; [exact Hset'|]]]]].
      * eapply good_ext; [apply (good_join _ _ row col G)|exact HE|]; [exact Er|rewrite Lcol; auto|]. intros v. rewrite Lcol. apply Elab.
      * intros v. rewrite <- Elab. destruct (_ =? _); [auto|apply Hrng].
      * intros v. rewrite <- Elab. intros Hv. assert (Hv' : lab1 (row_block st) (col_block st) col (curr_block st) v <> empty) by (intros E; rewrite E in Hv; destruct (Z.eqb_spec empty (curr_block st)); congruence).
        destruct (HT v Hv'); auto.
      * exists (remove Z.eq_dec (curr_block st) L). split.
        -- split; [apply NoDup_remove_z; auto|]. intros l. split.
           ++ intros Hl. apply in_remove in Hl as [Hl Hne]. apply HL2 in Hl as (Hl & r & Hr). split; [auto|]. exists r. rewrite Arb', Hr. destruct (Z.eqb_spec l (curr_block st)); [contradiction|auto].
           ++ intros (Hl & r & Hr). rewrite Arb' in Hr. destruct (Z.eqb_spec (at_ (row_block st) r) (curr_block st)) as [E|E].
              ** subst l. apply in_in_remove; [auto|]. apply HL2. split; [auto|]. exists row. auto.
              ** apply in_in_remove; [congruence|]. apply HL2. split; [auto|]. exists r. auto.
        -- rewrite len_remove by auto. destruct (in_dec Z.eq_dec (curr_block st) L) as [I|I].
           ++ assert (fb_set st = true) by (apply HcurL; auto). rewrite H in HL3. destruct L; [contradiction|]. cbn [length] in *. lia.
           ++ destruct (fb_set st); [exfalso; apply I, HcurL; auto|]. lia.
Qed.

Definition outer (col : nat) (s : list Z * list Z * Z) : Prop :=
  let '(rb, cb, nb) := s in
  length rb = N /\ length cb = M /\ good (edges col 0) (lab0 rb cb col) /\
  (forall v, lab0 rb cb col v <> empty -> 0 <= lab0 rb cb col v < Z.of_nat col) /\
  (forall v, lab0 rb cb col v <> empty -> touched (edges col 0) v) /\
  exists L, distinct rb L /\ Z.of_nat (length L) = nb.

Lemma edges_next col i j : edges col N i j <-> edges (S col) 0 i j.
Proof. unfold edges. split; intros (H1 & H2 & H3); (split; [auto|]); (split; [auto|]); lia. Qed.

Lemma outer_step col s : (col < M)%nat -> outer col s -> exists s', fb_col significant d tol N col s = Ok s' /\ outer (S col) s'.
Proof.
  destruct s as [[rb cb] nb]. intros Hcol (Hrb & Hcb & G & Hrng & HT & L & HL & HL3). unfold fb_col.
  assert (Iso : isolated (edges col 0) (Col col)) by (intros i (_ & _ & [H|[_ H]]); lia).
  assert (L0 : lab0 rb cb col (Col col) = empty) by (unfold lab0; rewrite Nat.ltb_irrefl; reflexivity).
  assert (Elab : forall v, (if veq_dec v (Col col) then Z.of_nat col else lab0 rb cb col v) = lab1 rb cb col (Z.of_nat col) v).
  { intros [i|j]; destruct (veq_dec _ _) as [E|E]; try discriminate; unfold lab0, lab1; [reflexivity| |].
    - injection E as ->. rewrite Nat.ltb_irrefl, Nat.eqb_refl. reflexivity.
    - destruct (Nat.ltb_spec j col); [reflexivity|]. destruct (Nat.eqb_spec j col); [congruence|reflexivity]. }
  destruct (for_inv (inner col) N (fb_row significant d tol N col) (mkFB rb cb nb (Z.of_nat col) false)) as (st & E & I).
  { unfold inner. cbn [row_block col_block curr_block fb_nblocks fb_set]. split; [auto|]. split; [auto|]. split; [|split; [|split; [unfold empty; lia|split; [|split]]]].
    - eapply good_ext; [apply (good_fresh _ _ (Col col) (Z.of_nat col) G)|intros; reflexivity|exact Elab]; [auto|unfold empty; lia|].
      intros v Hv. assert (Hne : lab0 rb cb col v <> empty) by (rewrite Hv; unfold empty; lia). specialize (Hrng v Hne). lia.
    - intros v. rewrite <- Elab. destruct (veq_dec v (Col col)); [lia|]. intros Hv. specialize (Hrng v Hv). lia.
    - intros v. rewrite <- Elab. destruct (veq_dec v (Col col)); [auto|]. intros Hv. right. auto.
    - split; [discriminate|]. intros (r & Hr & _). lia.
    - exists L. split; [auto|]. lia. }
  { intros row st Hr. apply inner_step; auto. }
  rewrite E. cbn [bind]. clear E Elab Iso L0 G Hrng HT L HL HL3.
  destruct I as (Hrb' & Hcb' & G & Hrng & Hcur & HT & Hset & L & HL & HL3).
  assert (Hmono : forall v, touched (edges col N) v -> touched (edges (S col) 0) v) by (intros v; apply touched_mono; intros i j H; apply edges_next; auto).
  destruct (fb_set st) eqn:Ef; rewrite wr_ok by lia; cbn [bind]; (eexists; split; [reflexivity|]).
  - assert (Elab : forall v, lab1 (row_block st) (col_block st) col (curr_block st) v = lab0 (row_block st) (upd (col_block st) col (curr_block st)) (S col) v).
    { intros [i|j]; unfold lab1, lab0; [reflexivity|]. rewrite at_upd by lia. destruct (Nat.ltb_spec j col), (Nat.ltb_spec j (S col)), (Nat.eqb_spec j col); try lia; reflexivity. }
    split; [auto|]. split; [rewrite length_upd; auto|]. split; [|split; [|split]].
    + eapply good_ext; [exact G|apply edges_next|exact Elab].
    + intros v. rewrite <- Elab. intros Hv. specialize (Hrng v Hv). lia.
    + intros v. rewrite <- Elab. intros Hv. apply Hmono. destruct (HT v Hv) as [->|]; [|auto]. destruct (proj1 Hset eq_refl) as (r & Hr & HrN & Hs). exists r. split; [auto|]. split; auto.
    + exists L. split; [auto|]. lia.
  - assert (Iso : isolated (edges col N) (Col col)).
    { intros i (Hi & Hs & [H|[_ H]]); [lia|]. assert (false = true) by (apply Hset; exists i; auto). discriminate. }
    assert (Elab : forall v, (if veq_dec v (Col col) then empty else lab1 (row_block st) (col_block st) col (curr_block st) v) = lab0 (row_block st) (upd (col_block st) col empty) (S col) v).
    { intros [i|j]; destruct (veq_dec _ _) as [E|E]; try discriminate; unfold lab1, lab0; [reflexivity| |]; rewrite at_upd by lia.
      - injection E as ->. replace (col <? S col)%nat with true by lia. rewrite Nat.eqb_refl. reflexivity.
      - destruct (Nat.ltb_spec j col), (Nat.ltb_spec j (S col)), (Nat.eqb_spec j col); try lia; try reflexivity. congruence. }
    split; [auto|]. split; [rewrite length_upd; auto|]. split; [|split; [|split]].
    + eapply good_ext; [apply (good_drop _ _ (Col col) G Iso)|apply edges_next|exact Elab].
    + intros v. rewrite <- Elab. destruct (veq_dec v (Col col)); [congruence|]. intros Hv. specialize (Hrng v Hv). lia.
    + intros v. rewrite <- Elab. destruct (veq_dec v (Col col)); [congruence|]. intros Hv. apply Hmono. destruct (HT v Hv); [congruence|auto].
    + exists L. split; [auto|]. lia.
Qed.

Lemma scan_ok junk : exists rb cb nb, for_ M (fb_col significant d tol N) (repeat empty N, alloc junk M, 0) = Ok (rb, cb, nb) /\ outer M (rb, cb, nb).
Proof.
  destruct (for_inv outer M (fb_col significant d tol N) (repeat empty N, alloc junk M, 0)) as ([[rb cb] nb] & E & I).
  - assert (R : forall k, at_ (repeat empty N) k = empty) by (intros k; apply nth_repeat).
    assert (R0 : forall v, lab0 (repeat empty N) (alloc junk M) 0 v = empty) by (intros [i|j]; unfold lab0; [apply R|reflexivity]).
    split; [apply repeat_length|]. split; [apply length_alloc|]. split; [|split; [|split]].
    + split; [intros v w Hv; rewrite R0 in Hv; contradiction|]. intros [i|j] _ x (_ & _ & H); lia.
    + intros v Hv. rewrite R0 in Hv. contradiction.
    + intros v Hv. rewrite R0 in Hv. contradiction.
    + exists []. split; [|reflexivity]. split; [constructor|]. intros l. split; [intros []|]. intros (Hl & r & Hr). rewrite R in Hr. congruence.
  - intros col s Hc. apply outer_step. auto.
  - eauto 6.
Qed.

(* ---- reading the blocks off the labels ---- *)
Definition rowsof (rb : list Z) (l : Z) : list nat := filter (fun r => at_ rb r =? l) (seq 0 N).
Definition colsof (cb : list Z) (l : Z) : list nat := filter (fun c => at_ cb c =? l) (seq 0 M).
Lemma take_rows_ok rb l : length rb = N -> take_rows N l rb = Ok (rowsof rb l).
Proof.
  intros H. unfold take_rows, rowsof.
  destruct (for_inv (fun i buf => buf = filter (fun r => at_ rb r =? l) (seq 0 i)) N (fun r buf => x <- rd rb r ;; if x =? l then Ok (buf ++ [r]) else Ok buf) []) as (buf & E & ->); [reflexivity| |exact E].
  intros i buf Hi ->. rewrite rd_at by lia. cbn [bind]. rewrite seq_S, filter_app. cbn [Nat.add filter]. destruct (at_ rb i =? l); eexists; (split; [reflexivity|]); [reflexivity|]. rewrite app_nil_r. reflexivity.
Qed.
Lemma take_cols_ok cb l : length cb = M -> l <> empty -> exists cb', take_cols M l cb = Ok (colsof cb l, cb') /\ length cb' = M /\
  forall c, at_ cb' c = if at_ cb c =? l then empty else at_ cb c.
Proof.
  intros H Hl. unfold take_cols, colsof.
  destruct (for_inv (fun i (s : list nat * list Z) => let '(buf, cb') := s in buf = filter (fun c => at_ cb c =? l) (seq 0 i) /\ length cb' = M /\
     forall c, at_ cb' c = if (c <? i)%nat && (at_ cb c =? l) then empty else at_ cb c) M
    (fun c s => let '(buf, cb) := s in x <- rd cb c ;; if x =? l then cb <- wr cb c empty ;; Ok (buf ++ [c], cb) else Ok (buf, cb)) ([], cb)) as ([buf cb'] & E & -> & L' & At).
  - split; [reflexivity|]. split; [auto|]. reflexivity.
  - intros i [buf cb'] Hi (-> & L' & At). rewrite rd_at by lia. cbn [bind]. rewrite At, Nat.ltb_irrefl. cbn [andb]. rewrite seq_S, filter_app. cbn [Nat.add filter].
    destruct (Z.eqb_spec (at_ cb i) l) as [Ei|Ei].
    + rewrite wr_ok by lia. cbn [bind]. eexists. split; [reflexivity|]. split; [reflexivity|]. split; [rewrite length_upd; auto|]. intros c. rewrite at_upd by lia. rewrite At.
      destruct (Nat.eqb_spec c i) as [->|]; [replace (i <? S i)%nat with true by lia; rewrite Ei, Z.eqb_refl; reflexivity|]. replace (c <? S i)%nat with (c <? i)%nat by lia. reflexivity.
    + eexists. split; [reflexivity|]. split; [rewrite app_nil_r; reflexivity|]. split; [auto|]. intros c. rewrite At. destruct (Nat.eqb_spec c i) as [->|].
      * replace (at_ cb i =? l) with false by lia. rewrite !andb_false_r. reflexivity.
      * replace (c <? S i)%nat with (c <? i)%nat by lia. reflexivity.
  - exists cb'. split; [exact E|]. split; [auto|]. intros c. rewrite At. destruct (Nat.ltb_spec c M); [reflexivity|]. cbn [andb]. rewrite nth_overflow by lia.
    destruct (empty =? l); reflexivity.
Qed.
Lemma in_rowsof rb l i : length rb = N -> l <> empty -> (In i (rowsof rb l) <-> at_ rb i = l).
Proof.
  intros H Hl. unfold rowsof. rewrite filter_In, in_seq, Z.eqb_eq. split; [tauto|]. intros E. split; [|auto]. destruct (Nat.lt_ge_cases i N); [lia|]. rewrite nth_overflow in E by lia. congruence.
Qed.
Lemma in_colsof cb l i : length cb = M -> l <> empty -> (In i (colsof cb l) <-> at_ cb i = l).
Proof.
  intros H Hl. unfold colsof. rewrite filter_In, in_seq, Z.eqb_eq. split; [tauto|]. intros E. split; [|auto]. destruct (Nat.lt_ge_cases i M); [lia|]. rewrite nth_overflow in E by lia. congruence.
Qed.
Lemma sorted_seq a n : StronglySorted lt (seq a n).
Proof. revert a. induction n; intros a; cbn [seq]; constructor; [auto|]. apply Forall_forall. intros x Hx. apply in_seq in Hx. lia. Qed.
Lemma sorted_filter (f : nat -> bool) l : StronglySorted lt l -> StronglySorted lt (filter f l).
Proof.
  induction 1 as [|x l Hs IH Hx]; [constructor|]. cbn [filter]. destruct (f x); [|auto]. constructor; [auto|]. apply Forall_forall. intros y Hy. apply filter_In in Hy as [Hy _].
  rewrite Forall_forall in Hx. auto.
Qed.

Lemma lab0_col rb cb j : length cb = M -> lab0 rb cb M (Col j) = at_ cb j.
Proof. intros H. unfold lab0. destruct (Nat.ltb_spec j M); [reflexivity|]. rewrite nth_overflow by lia. reflexivity. Qed.

Definition E0 (i j : nat) : Prop := (i < N)%nat /\ (j < M)%nat /\ sig i j.
Lemma extract_ok rb cb nb : outer M (rb, cb, nb) ->
  exists rows cols, components E0 rows cols /\ nb = Z.of_nat (length rows) /\ fb_extract N M rb cb nb = Ok (rows, cols).
Proof.
  intros (Hrb & Hcb & G & _ & HT & L & (HL1 & HL2) & HL3).
  assert (HE : forall i j, edges M 0 i j <-> E0 i j) by (intros; unfold edges, E0; intuition lia).
  set (lab := lab0 rb cb M) in *.
  assert (Lr : forall i, lab (Row i) = at_ rb i) by reflexivity. assert (Lc : forall j, lab (Col j) = at_ cb j) by (intros; apply lab0_col; auto).
  (* column labels are row labels and conversely *)
  assert (CR : forall j, at_ cb j <> empty -> exists i, E0 i j /\ at_ rb i = at_ cb j).
  { intros j Hj. rewrite <- Lc in Hj. destruct (HT _ Hj) as (i & Hi). exists i. split; [apply HE; auto|]. rewrite <- Lr, <- Lc. apply (edge_lab _ _ _ _ G Hi). }
  assert (RC : forall i, at_ rb i <> empty -> exists j, E0 i j /\ at_ cb j = at_ rb i).
  { intros i Hi. rewrite <- Lr in Hi. destruct (HT _ Hi) as (j & Hj). exists j. split; [apply HE; auto|]. rewrite <- Lr, <- Lc. symmetry. apply (edge_lab _ _ _ _ G Hj). }
  unfold fb_extract. replace (nb <? 0) with false by lia.
  set (P := fun (col : nat) (s : nat * list Z * list (list nat) * list (list nat)) =>
    let '(b, cb', R, C) := s in exists ls, NoDup ls /\ length ls = b /\
      (forall l, In l ls -> l <> empty /\ exists c, at_ cb c = l) /\
      (forall c, (c < col)%nat -> at_ cb c <> empty -> In (at_ cb c) ls) /\
      length cb' = M /\ (forall c, at_ cb' c = if in_dec Z.eq_dec (at_ cb c) ls then empty else at_ cb c) /\
      length R = length L /\ length C = length L /\
      forall k l, nth_error ls k = Some l -> nth_error R k = Some (rowsof rb l) /\ nth_error C k = Some (colsof cb l)).
  match goal with |- context [for_ M ?f ?s0] => destruct (for_inv P M f s0) as ([[[b cb'] R] C] & E & I) end.
  - exists []. split; [constructor|]. split; [reflexivity|]. split; [intros l []|]. split; [lia|]. split; [auto|]. split; [reflexivity|].
    rewrite repeat_length. split; [lia|]. split; [lia|]. intros [|k] l Hk; discriminate.
  - intros col [[[b cb'] R] C] Hcol (ls & ND & <- & Hls & Hdone & L' & At & LR & LC & Hblk). rewrite rd_at by lia. cbn [bind]. rewrite (At col).
    destruct (in_dec Z.eq_dec (at_ cb col) ls) as [I|I].
    { eexists. split; [reflexivity|]. exists ls. split; [auto|]. split; [auto|]. split; [auto|]. split; [|auto]. intros c Hc Hne. destruct (Nat.eq_dec c col) as [->|]; [auto|]. apply Hdone; [lia|auto]. }
    destruct (Z.eqb_spec (at_ cb col) empty) as [Ee|Ee].
    { eexists. split; [reflexivity|]. exists ls. split; [auto|]. split; [auto|]. split; [auto|]. split; [|auto]. intros c Hc Hne. destruct (Nat.eq_dec c col) as [->|]; [congruence|]. apply Hdone; [lia|auto]. }
    set (l := at_ cb col) in *.
    destruct (take_cols_ok cb' l L' Ee) as (cb'' & -> & L'' & At''). cbn [bind].
    assert (Ecols : colsof cb' l = colsof cb l).
    { unfold colsof. apply filter_ext. intros c. rewrite At. destruct (in_dec Z.eq_dec (at_ cb c) ls) as [I'|I']; [|reflexivity].
      destruct (Z.eqb_spec (at_ cb c) l); [congruence|]. destruct (Z.eqb_spec empty l); [congruence|reflexivity]. }
    rewrite Ecols. destruct (CR col Ee) as (i & Hi & Ei).
    assert (Nc : (length (colsof cb l) =? 0)%nat = false) by (destruct (colsof cb l) eqn:Ec; [|reflexivity]; exfalso; assert (In col (colsof cb l)) by (apply in_colsof; auto); rewrite Ec in *; contradiction).
    assert (Nr : (length (rowsof rb l) =? 0)%nat = false) by (destruct (rowsof rb l) eqn:Ec; [|reflexivity]; exfalso; assert (In i (rowsof rb l)) by (apply in_rowsof; auto); rewrite Ec in *; contradiction).
    rewrite Nc. cbn [negb assert_ bind].
    assert (Hlt : (length ls < length L)%nat).
    { assert (Hinc : incl (l :: ls) L).
      { intros x [<-|Hx]; apply HL2; [split; [auto|eauto]|]. destruct (Hls x Hx) as (Hne & c & Hc). split; [auto|]. rewrite <- Hc in Hne |- *. destruct (CR c Hne) as (i' & _ & Ei'). eauto. }
      pose proof (NoDup_incl_length (NoDup_cons l I ND) Hinc) as Hle. cbn [length] in Hle. lia. }
    rewrite wr_ok by lia. cbn [bind]. rewrite take_rows_ok by auto. cbn [bind]. rewrite Nr. cbn [negb assert_ bind]. rewrite wr_ok by lia. cbn [bind].
    eexists. split; [reflexivity|]. exists (ls ++ [l]). split; [|split; [rewrite app_length; cbn [length]; lia|split; [|split; [|split; [auto|split; [|split; [rewrite length_upd; auto|split; [rewrite length_upd; auto|]]]]]]]].
    + apply NoDup_app_one; auto.
    + intros x Hx. apply in_app_or in Hx as [Hx|[<-|[]]]; [auto|]. split; [auto|]. eexists. reflexivity.
    + intros c Hc Hne. apply in_or_app. destruct (Nat.eq_dec c col) as [->|]; [right; left; reflexivity|]. left. apply Hdone; [lia|auto].
    + intros c. rewrite At'', At. destruct (in_dec Z.eq_dec (at_ cb c) ls) as [I1|I1], (in_dec Z.eq_dec (at_ cb c) (ls ++ [l])) as [I2|I2].
      * destruct (empty =? l); reflexivity.
      * exfalso. apply I2. apply in_or_app. auto.
      * apply in_app_or in I2 as [I2|[I2|[]]]; [contradiction|]. rewrite <- I2, Z.eqb_refl. reflexivity.
      * destruct (Z.eqb_spec (at_ cb c) l); [|reflexivity]. exfalso. apply I2. apply in_or_app. right. left. auto.
    + intros k x Hk. rewrite !nth_error_upd. replace (length ls <? length R)%nat with true by lia. replace (length ls <? length C)%nat with true by lia. rewrite !andb_true_r.
      destruct (Nat.eqb_spec k (length ls)) as [->|Nk].
      * rewrite nth_error_app2, Nat.sub_diag in Hk by lia. injection Hk as <-. auto.
      * apply Hblk. rewrite nth_error_app1 in Hk; [auto|]. apply nth_error_lt_inv in Hk. rewrite app_length in Hk. cbn [length] in Hk. lia.
  - rewrite E. cbn [bind]. destruct I as (ls & ND & <- & Hls & Hdone & L' & At & LR & LC & Hblk).
    assert (Hall : forall c, at_ cb c <> empty -> In (at_ cb c) ls).
    { intros c Hc. apply Hdone; [|auto]. destruct (Nat.lt_ge_cases c M); [auto|]. rewrite nth_overflow in Hc by lia. contradiction. }
    assert (HLl : length ls = length L).
    { apply Nat.le_antisymm.
      - apply NoDup_incl_length; [auto|]. intros x Hx. destruct (Hls x Hx) as (Hne & c & Hc). apply HL2. split; [auto|]. rewrite <- Hc in Hne |- *. destruct (CR c Hne) as (i' & _ & Ei'). eauto.
      - apply NoDup_incl_length; [auto|]. intros x Hx. apply HL2 in Hx as (Hne & r & Hr). rewrite <- Hr in Hne |- *. destruct (RC r Hne) as (j & _ & Ej). rewrite <- Ej. apply Hall. congruence. }
    assert (Hget : forall k Rk, nth_error R k = Some Rk -> exists l, nth_error ls k = Some l /\ l <> empty /\ Rk = rowsof rb l).
    { intros k Rk Hk. destruct (nth_error_lt ls k) as (l & Hl); [apply nth_error_lt_inv in Hk; lia|]. exists l. split; [auto|]. split; [apply Hls; eapply nth_error_In; eauto|]. destruct (Hblk k l Hl). congruence. }
    assert (Hget' : forall k Ck, nth_error C k = Some Ck -> exists l, nth_error ls k = Some l /\ l <> empty /\ Ck = colsof cb l).
    { intros k Ck Hk. destruct (nth_error_lt ls k) as (l & Hl); [apply nth_error_lt_inv in Hk; lia|]. exists l. split; [auto|]. split; [apply Hls; eapply nth_error_In; eauto|]. destruct (Hblk k l Hl). congruence. }
    exists R, C. split; [|split; [lia|reflexivity]].
    split; [lia|]. split; [|split; [|split]].
    + intros k Rk Ck HR HC. destruct (Hget k Rk HR) as (l & Hl & Hne & ->). destruct (Hget' k Ck HC) as (l' & Hl' & _ & ->). assert (l' = l) by congruence. subst l'.
      destruct (Hls l ltac:(eapply nth_error_In; eauto)) as (_ & c & Hc).
      assert (Conn : forall i, In i (rowsof rb l) -> forall w, conn E0 (Row i) w <-> lab w = l).
      { intros i Hi w. apply in_rowsof in Hi; [|auto|auto]. rewrite <- (conn_ext (edges M 0)) by auto. rewrite (conn_iff _ _ _ _ G) by (rewrite Lr; congruence). rewrite Lr, Hi. reflexivity. }
      split; [|split; [apply sorted_filter, sorted_seq|split; [apply sorted_filter, sorted_seq|split]]].
      * destruct (CR c ltac:(congruence)) as (i & Hi & Ei). exists i, c. split; [apply in_rowsof; auto; congruence|]. split; [apply in_colsof; auto|auto].
      * intros i Hi i'. rewrite (Conn i Hi), in_rowsof by auto. reflexivity.
      * intros i Hi j. rewrite (Conn i Hi), in_colsof by auto. rewrite Lc. reflexivity.
    + intros i j Hij. destruct (edge_lab _ _ _ _ G (proj2 (HE i j) Hij)) as [E1 E2]. rewrite Lr, Lc in E1. rewrite Lc in E2.
      destruct (In_nth_error _ _ (Hall j E2)) as (k & Hk). destruct (Hblk k _ Hk) as [H1 H2]. exists k, (rowsof rb (at_ cb j)), (colsof cb (at_ cb j)).
      split; [auto|]. split; [auto|]. split; [apply in_rowsof; auto|apply in_colsof; auto].
    + intros k k' R1 R2 i H1 H2 I1 I2. destruct (Hget k R1 H1) as (l & Hl & Hne & ->). destruct (Hget k' R2 H2) as (l' & Hl' & Hne' & ->).
      apply in_rowsof in I1, I2; auto. apply (proj1 (NoDup_nth_error ls) ND); [eapply nth_error_lt_inv; eauto|congruence].
    + intros k k' R1 R2 i H1 H2 I1 I2. destruct (Hget' k R1 H1) as (l & Hl & Hne & ->). destruct (Hget' k' R2 H2) as (l' & Hl' & Hne' & ->).
      apply in_colsof in I1, I2; auto. apply (proj1 (NoDup_nth_error ls) ND); [eapply nth_error_lt_inv; eauto|congruence].
Qed.
End Loop.

(* ---- the whole function ---- *)
Definition flip (v : vertex) : vertex := match v with Row i => Col i | Col j => Row j end.
Lemma conn_flip E v w : conn E v w -> conn (fun i j => E j i) (flip v) (flip w).
Proof.
  intros C. induction C; cbn [flip]; [apply conn_refl|apply conn_sym, conn_edge; auto|apply conn_sym; auto|eapply conn_trans; eauto].
Qed.
Lemma conn_flip_iff E v w : conn (fun i j => E j i) v w <-> conn E (flip v) (flip w).
Proof.
  split; intros C; [exact (conn_flip _ _ _ C)|]. apply conn_flip in C. destruct v, w; exact C.
Qed.
Lemma components_flip E rows cols : components (fun i j => E j i) rows cols -> components E cols rows.
Proof.
  intros (HL & HB & HE & HR & HC). split; [auto|]. split; [|split; [|split; auto]].
  - intros b C R Hc Hr. destruct (HB b R C Hr Hc) as ((i & j & Ii & Ij & Hij) & SR & SC & H1 & H2). split; [eauto 6|]. split; [auto|]. split; [auto|].
    assert (X : forall y, In y C -> conn E (Row y) (Col i)) by (intros y Hy; apply (H2 i Ii), conn_flip_iff in Hy; cbn [flip] in Hy; apply conn_sym; exact Hy).
    split; intros c Ic x.
    + rewrite (H2 i Ii). rewrite conn_flip_iff. cbn [flip]. split; intros K; [eapply conn_trans; [apply X; auto|exact K]|eapply conn_trans; [apply conn_sym, X; exact Ic|exact K]].
    + rewrite (H1 i Ii). rewrite conn_flip_iff. cbn [flip]. split; intros K; [eapply conn_trans; [apply X; auto|exact K]|eapply conn_trans; [apply conn_sym, X; exact Ic|exact K]].
  - intros i j Hij. destruct (HE j i Hij) as (b & R & C & H1 & H2 & H3 & H4). exists b, C, R. auto.
Qed.
Lemma components_ext E E' rows cols : (forall i j, E i j <-> E' i j) -> components E rows cols -> components E' rows cols.
Proof.
  intros H (HL & HB & HE & HR & HC). split; [auto|]. split; [|split; [|split; auto]].
  - intros b R C Hr Hc. destruct (HB b R C Hr Hc) as ((i & j & Ii & Ij & Hij) & SR & SC & H1 & H2). split; [exists i, j; rewrite <- H; auto|]. split; [auto|]. split; [auto|].
    split; intros x Hx y; rewrite <- (conn_ext E E') by auto; auto.
  - intros i j Hij. apply HE, H, Hij.
Qed.

Section Whole.
Context {A T : Type} (significant : T -> A -> bool) (zero_tol : T).
Definition nonzero_at (t : tensor A) (tol : T) (i j : nat) : Prop := exists x, elt t [i; j] = Some x /\ significant tol x = true.

Lemma wide_ok junk (a : tensor A) tol N M : wf a -> dims a = [N; M] ->
  exists rows cols, components (nonzero_at a tol) rows cols /\
    find_blocks_wide significant junk a tol N M = Ok (Z.of_nat (length rows), if (length rows =? 1)%nat then None else Some (rows, cols)).
Proof.
  intros W D. assert (Hl : length (data a) = (N * M)%nat) by (rewrite W, D; cbn; lia).
  unfold find_blocks_wide. destruct (scan_ok significant tol (data a) N M ltac:(lia) junk) as (rb & cb & nb & E & O). rewrite E. cbn [bind].
  destruct (extract_ok significant tol (data a) N M ltac:(lia) rb cb nb O) as (rows & cols & C & Hnb & Ex).
  exists rows, cols. split.
  - eapply components_ext; [|exact C]. intros i j. unfold E0, nonzero_at, sig. split.
    + intros (Hi & Hj & x & Hx & Hs). exists x. rewrite (mat_elt a N M) by auto. auto.
    + intros (x & Hx & Hs). destruct (lt_dec i N), (lt_dec j M); try (rewrite (mat_elt_out a N M) in Hx; [discriminate|auto|lia]).
      split; [auto|]. split; [auto|]. exists x. rewrite (mat_elt a N M) in Hx by auto. auto.
  - rewrite Ex. subst nb. destruct (Nat.eqb_spec (length rows) 1) as [->|]; [reflexivity|]. replace (Z.of_nat (length rows) =? 1) with false by lia. reflexivity.
Qed.

Lemma blocks_ok junk jt (a : tensor A) tol N M : wf a -> dims a = [N; M] ->
  let tol' := if (M <? N)%nat then zero_tol else tol in
  exists rows cols, components (nonzero_at a tol') rows cols /\
    find_blocks significant zero_tol junk jt a tol = Ok (Z.of_nat (length rows), if (length rows =? 1)%nat then None else Some (rows, cols)).
Proof.
  intros W D tol'. subst tol'. unfold find_blocks, dimension. rewrite D. cbn [length]. change (0 <? Z.of_nat 2) with true. change (1 <? Z.of_nat 2) with true. cbn [assert_ bind].
  change (0 <=? 0) with true. change (0 <=? 1) with true. cbn [assert_ bind].
  change (rd [N; M] (Z.to_nat 0)) with (Ok N). change (rd [N; M] (Z.to_nat 1)) with (Ok M). cbn [bind].
  destruct (M <? N)%nat.
  - destruct (c15_transpose jt a N M W D) as (u & -> & Wu & Du & Eu). cbn [bind].
    destruct (wide_ok junk u zero_tol M N Wu Du) as (rows & cols & C & ->). cbn [bind].
    assert (EL := proj1 C). exists cols, rows. split.
    + apply components_flip. eapply components_ext; [|exact C]. intros i j. unfold nonzero_at. rewrite Eu. reflexivity.
    + rewrite <- EL. destruct (length rows =? 1)%nat; reflexivity.
  - apply wide_ok; auto.
Qed.
End Whole.

Lemma sorted_ext (l l' : list nat) : StronglySorted lt l -> StronglySorted lt l' -> (forall x, In x l <-> In x l') -> l = l'.
Proof.
  intros S. revert l'. induction S as [|x l S IH Hx]; intros l' S' H.
  - destruct l' as [|y l']; [reflexivity|]. exfalso. apply (H y). left. reflexivity.
  - destruct S' as [|y l' S' Hy]; [exfalso; apply (H x); left; reflexivity|]. rewrite Forall_forall in Hx, Hy.
    assert (x = y).
    { destruct (proj1 (H x) (or_introl eq_refl)) as [|Ix]; [auto|]. destruct (proj2 (H y) (or_introl eq_refl)) as [|Iy]; [auto|]. specialize (Hx _ Iy). specialize (Hy _ Ix). lia. }
    subst y. f_equal. apply IH; [auto|]. intros z. specialize (H z). cbn [In] in H. split; intros Hz.
    + destruct (proj1 H (or_intror Hz)) as [<-|]; [|auto]. specialize (Hx _ Hz). lia.
    + destruct (proj2 H (or_intror Hz)) as [<-|]; [|auto]. specialize (Hy _ Hz). lia.
Qed.
Lemma components_sub E rows cols rows' cols' : components E rows cols -> components E rows' cols' ->
  forall b R C, nth_error rows b = Some R -> nth_error cols b = Some C -> exists b', nth_error rows' b' = Some R /\ nth_error cols' b' = Some C.
Proof.
  intros (HL & HB & HE & HR & HC) (HL' & HB' & HE' & HR' & HC') b R C Hr Hc.
  destruct (HB b R C Hr Hc) as ((i & j & Ii & Ij & Hij) & SR & SC & H1 & H2).
  destruct (HE' i j Hij) as (b' & R' & C' & Hr' & Hc' & Ii' & Ij'). destruct (HB' b' R' C' Hr' Hc') as (_ & SR' & SC' & H1' & H2').
  exists b'. assert (R = R') as <- by (apply sorted_ext; auto; intros x; rewrite (H1 i Ii), (H1' i Ii'); reflexivity).
  assert (C = C') as <- by (apply sorted_ext; auto; intros x; rewrite (H2 i Ii), (H2' i Ii'); reflexivity). auto.
Qed.
Lemma components_nodup E rows cols : components E rows cols -> NoDup rows.
Proof.
  intros (HL & HB & HE & HR & HC). apply NoDup_nth_error. intros b b' Hb Eb. destruct (nth_error_lt rows b Hb) as (R & Hr). rewrite Hr in Eb.
  destruct (nth_error_lt cols b ltac:(lia)) as (C & Hc). destruct (HB b R C Hr Hc) as ((i & j & Ii & _) & _). eapply HR; eauto.
Qed.
Lemma components_le E rows cols rows' cols' : components E rows cols -> components E rows' cols' -> (length rows <= length rows')%nat.
Proof.
  intros H H'. apply NoDup_incl_length; [eapply components_nodup; eauto|]. intros R HR. apply In_nth_error in HR as (b & Hb).
  destruct (nth_error_lt cols b) as (C & Hc); [rewrite <- (proj1 H); eapply nth_error_lt_inv; eauto|]. destruct (components_sub _ _ _ _ _ H H' b R C Hb Hc) as (b' & Hb' & _). eapply nth_error_In; eauto.
Qed.
Lemma components_unique E rows cols rows' cols' : components E rows cols -> components E rows' cols' ->
  length rows = length rows' /\ forall b R C, nth_error rows b = Some R -> nth_error cols b = Some C -> exists b', nth_error rows' b' = Some R /\ nth_error cols' b' = Some C.
Proof.
  intros H H'. split; [apply Nat.le_antisymm; eapply components_le; eauto|]. exact (components_sub _ _ _ _ _ H H').
Qed.

(* Lemmas for P_RangeEnds: iterating over a range comes to an end. *)
From Verif Require Import Base Spec M_Tensor M_Range.
Local Open Scope Z_scope.

(* ranges that go upwards, or are empty *)
Fixpoint tame (r : rng) : Prop :=
  match r with
  | RFull l f c e => 0 < f /\ 0 <= c
  | RSingle _ _ _ _ => True
  | RStep l f n s e st => 0 < st /\ s <= n \/ e < s /\ e < n
  | RIndex _ _ _ _ => True
  | RProd r1 r2 _ => tame r1 /\ tame r2
  end.
(* the same for a range that will be reset *)
Fixpoint tame0 (r : rng) : Prop :=
  match r with
  | RFull l f c e => 0 < f
  | RStep l f n s e st => 0 < st \/ e < s
  | RProd r1 r2 _ => tame0 r1 /\ tame0 r2
  | _ => True
  end.
(* how many numbers are left at most *)
Fixpoint most (r : rng) : nat :=
  match r with
  | RFull l f c e => Z.to_nat e
  | RSingle _ _ _ _ => 1
  | RStep l f n s e st => Z.to_nat (e - s + 1)%Z
  | RIndex _ _ ix _ => length ix
  | RProd r1 r2 _ => 1 + most r1 + most r2 * S (most r1)
  end%nat.
Fixpoint left_in (r : rng) : nat :=
  match r with
  | RFull l f c e => Z.to_nat (e - c)%Z
  | RSingle _ _ _ c => if (c =? 0)%Z then 1 else 0
  | RStep l f n s e st => Z.to_nat (e - n + 1)%Z
  | RIndex _ _ ix c => length ix - c
  | RProd r1 r2 b => if (b =? nomore)%Z then 0 else 1 + left_in r1 + left_in r2 * S (most r1)
  end%nat.
(* fuel for one pop *)
Fixpoint need (r : rng) : nat :=
  match r with RProd r1 r2 _ => most r2 + 3 + need r1 + need r2 | _ => 1 end%nat.
Definition after (r r' : rng) : Prop := tame r' /\ most r' = most r /\ need r' = need r.
Lemma after_trans a b c : after a b -> after b c -> after a c.
Proof. unfold after. intuition congruence. Qed.
Lemma left_most r : tame r -> (left_in r <= most r)%nat.
Proof.
  induction r as [| | | |r1 IH1 r2 IH2 b]; cbn [tame left_in most]; intros H; try lia.
  - destruct (counter =? 0); lia.
  - destruct H as [H1 H2]. specialize (IH1 H1). specialize (IH2 H2). destruct (b =? nomore); [lia|]. nia.
Qed.

Lemma tame_tame0 r : tame r -> tame0 r.
Proof. induction r; cbn; intuition. Qed.

Definition pops (r : rng) : Prop := forall k, (need r <= k)%nat -> tame r ->
  exists j r', pop k r = Ok (j, r') /\ after r r' /\ (left_in r' <= left_in r)%nat /\ (j = nomore \/ (left_in r' < left_in r)%nat).
Definition resets (popf : rng -> outcome (Z * rng)) (r : rng) : Prop :=
  tame0 r -> exists r', reset_with popf r = Ok r' /\ after r r'.

Lemma reset_ok r : forall k, (need r <= k)%nat -> (forall x, (need x <= k)%nat -> (need x <= need r)%nat -> pops x) -> resets (pop k) r.
Proof.
  induction r as [l f c e|l f n c|l f n s e st|l f ix c|r1 IH1 r2 IH2 b]; intros k Hk Hp H; cbn [reset_with].
  - eexists. split; [reflexivity|]. cbn in *. unfold after. cbn. intuition lia.
  - eexists. split; [reflexivity|]. split; [exact I|split; reflexivity].
  - eexists. split; [reflexivity|]. cbn in H. unfold after. cbn. intuition lia.
  - eexists. split; [reflexivity|]. split; [exact I|split; reflexivity].
  - cbn [tame0 need] in *. destruct H as [H1 H2].
    destruct (IH1 k) as (r1' & E1 & A1); [lia|intros; apply Hp; lia|exact H1|]. destruct (IH2 k) as (r2' & E2 & A2); [lia|intros; apply Hp; lia|exact H2|].
    rewrite E1, E2. cbn [bind]. destruct A2 as (T2 & M2 & N2). destruct (Hp r2' ltac:(lia) ltac:(lia) k ltac:(lia) T2) as (j & r2'' & E3 & A3 & _ & _). rewrite E3. cbn [bind].
    eexists. split; [reflexivity|]. destruct A1 as (T1 & M1 & N1), A3 as (T3 & M3 & N3). split; [split; auto|]. cbn [most need]. rewrite M1, N1, M3, M2, N3, N2. auto.
Qed.


Lemma pop_all N : forall r, (need r <= N)%nat -> pops r.
Proof.
  induction N as [|N IH]; [intros r H; destruct r; cbn in H; lia|].
  intros r HN k Hk H. destruct r as [l f c e|l f n c|l f n s e st|l f ix c|r1 r2 b]; (destruct k as [|k]; [cbn in Hk; lia|]); [| | | |].
  - cbn [pop]. cbn in H. destruct (Z.leb_spec e c); eexists _, _; (split; [reflexivity|]); unfold after; cbn; intuition lia.
  - cbn [pop]. destruct (Z.eqb_spec c 0) as [->|C]; cbn [negb]; eexists _, _; (split; [reflexivity|]); (split; [split; [exact I|split; reflexivity]|]); cbn; auto.
  - cbn [pop]. cbn in H. destruct (Z.ltb_spec e n); eexists _, _; (split; [reflexivity|]); unfold after; cbn; intuition lia.
  - cbn [pop]. destruct (Nat.leb_spec (length ix) c) as [L|L]; [eexists _, _; split; [reflexivity|]; split; [split; [exact I|split; reflexivity]|]; cbn; auto|].
    unfold rd. destruct (nth_error ix c) as [j|] eqn:E; [|apply nth_error_None in E; lia]. cbn [bind]. eexists _, _. split; [reflexivity|]. split; [split; [exact I|split; reflexivity]|]. cbn. lia.
  - cbn [need tame] in *. destruct H as [H1 H2].
    assert (PX : forall m k r1 r2 b, (need r1 <= N)%nat -> (need r2 <= N)%nat -> tame r1 -> tame r2 -> (left_in r2 <= m)%nat -> (m + 2 + need r1 + need r2 <= k)%nat ->
      exists j r', pop k (RProd r1 r2 b) = Ok (j, r') /\ after (RProd r1 r2 b) r' /\ (left_in r' <= left_in (RProd r1 r2 b))%nat /\ (j = nomore \/ (left_in r' < left_in (RProd r1 r2 b))%nat)).
    { clear - IH. intros m. induction m as [m IHm] using lt_wf_ind. intros k r1 r2 b HN1 HN2 T1 T2 Hm Hk. destruct k as [|k]; [lia|]. cbn [pop].
      destruct (Z.eqb_spec b nomore) as [->|Nb].
      { eexists _, _. split; [reflexivity|]. split; [split; [split; auto|split; reflexivity]|]. auto. }
      destruct (IH r1 HN1 k ltac:(lia) T1) as (n & r1' & E1 & (T1' & M1 & N1) & L1 & D1). rewrite E1. cbn [bind].
      destruct (Z.eqb_spec n nomore) as [->|Nn]; cbn [negb].
      2:{ destruct D1 as [D1|D1]; [contradiction|]. eexists _, _. split; [reflexivity|]. cbn [left_in most need]. destruct (Z.eqb_spec b nomore); [contradiction|]. rewrite M1.
          split; [split; [split; auto|cbn [most need]; rewrite M1, N1; auto]|]. lia. }
      destruct (IH r2 HN2 k ltac:(lia) T2) as (b' & r2' & E2 & (T2' & M2 & N2) & L2 & D2). rewrite E2. cbn [bind].
      destruct (reset_ok r1' k ltac:(lia) ltac:(intros; apply IH; lia) (tame_tame0 _ T1')) as (r1'' & E3 & (T1'' & M1'' & N1'')). rewrite E3. cbn [bind].
      pose proof (left_most r1'' T1'') as B1.
      assert (S1 : after (RProd r1 r2 b) (RProd r1'' r2' b')) by (split; [split; auto|cbn [most need]; rewrite M1'', M1, M2, N1'', N1, N2; auto]).
      destruct (Z.eqb_spec b' nomore) as [->|Nb'].
      { destruct k as [|k]; [lia|]. cbn [pop]. rewrite Z.eqb_refl. eexists _, _. split; [reflexivity|]. split; [exact S1|]. cbn [left_in]. rewrite Z.eqb_refl. lia. }
      destruct D2 as [D2|D2]; [contradiction|].
      destruct (IHm (left_in r2') ltac:(lia) k r1'' r2' b' ltac:(lia) ltac:(lia) T1'' T2' ltac:(lia) ltac:(lia)) as (j & r' & E4 & A4 & L4 & _).
      exists j, r'. split; [exact E4|]. split; [eapply after_trans; eauto|].
      assert (LL : (left_in (RProd r1'' r2' b') < left_in (RProd r1 r2 b))%nat).
      { cbn [left_in]. destruct (Z.eqb_spec b nomore); [contradiction|]. destruct (Z.eqb_spec b' nomore); [contradiction|]. rewrite M1'', M1. rewrite M1'', M1 in B1. nia. }
      lia. }
    pose proof (left_most r2 H2). destruct (PX (left_in r2) (S k) r1 r2 b ltac:(lia) ltac:(lia) H1 H2 ltac:(lia) ltac:(lia)) as (j & r' & E). exists j, r'. exact E.
Qed.
Lemma pop_ends r : pops r.
Proof. apply (pop_all (need r)). lia. Qed.
Lemma reset_ends r k : (need r <= k)%nat -> tame0 r -> exists r', reset k r = Ok r' /\ after r r'.
Proof. intros Hk Ht. unfold reset. apply reset_ok; auto. intros; apply pop_ends. Qed.

(* within k pops comes the end or a negative position *)
Fixpoint stops (k fuel : nat) (r : rng) : Prop :=
  match k with
  | O => False
  | S k => exists j r', pop fuel r = Ok (j, r') /\ (j < 0 \/ stops k fuel r')
  end.
Lemma tame_stops fuel : forall k r, tame r -> (need r <= fuel)%nat -> (left_in r < k)%nat -> stops k fuel r.
Proof.
  induction k as [|k IH]; intros r Ht Hn Hl; [lia|]. destruct (pop_ends r fuel Hn Ht) as (j & r' & E & (T & M & N) & L & D). exists j, r'. split; [exact E|].
  destruct D as [->|D]; [left; unfold nomore; lia|]. right. apply IH; [auto|lia|lia].
Qed.
(* one range with a negative step *)
Lemma down_stops fuel l f s e st : (1 <= fuel)%nat -> st < 0 -> forall k n, n + 1 < Z.of_nat k -> (0 < k)%nat -> stops k fuel (RStep l f n s e st).
Proof.
  intros Hf Hs. induction k as [|k IH]; intros n Hn Hk; [lia|]. destruct fuel as [|fuel]; [lia|]. cbn [stops pop]. destruct (Z.ltb_spec e n); [eexists _, _; split; [reflexivity|]; left; unfold nomore; lia|].
  eexists _, _. split; [reflexivity|]. destruct (Z.lt_ge_cases n 0); [left; auto|]. right. apply IH; lia.
Qed.

Section Loops.
Context {A : Type}.
Lemma rdZ_neg (d : list A) j : j < 0 -> rdZ d j = UB.
Proof. intros. unfold rdZ. replace (j <? 0) with true by lia. reflexivity. Qed.
Lemma wrZ_neg (d : list A) j v : j < 0 -> wrZ d j v = UB.
Proof. intros. unfold wrZ. replace (j <? 0) with true by lia. reflexivity. Qed.
Lemma rdZ_nohang (d : list A) j : rdZ d j <> Hang.
Proof. unfold rdZ, rd. destruct (j <? 0); [discriminate|]. destruct nth_error; discriminate. Qed.
Lemma wrZ_nohang (d : list A) j v : wrZ d j v <> Hang.
Proof. unfold wrZ, wr. destruct (j <? 0); [discriminate|]. destruct (_ <? _)%nat; discriminate. Qed.
Lemma put_nohang (v : A) st : put v st <> Hang.
Proof. unfold put. destruct st as [l i]. unfold wr. destruct (_ <? _)%nat; cbn; discriminate. Qed.
Lemma bind_nohang {X Y} (e : outcome X) (f : X -> outcome Y) : e <> Hang -> (forall x, e = Ok x -> f x <> Hang) -> bind e f <> Hang.
Proof. destruct e; cbn; intros; auto; discriminate. Qed.

Lemma read_ends fuel d : forall k r st n, stops k fuel r -> (k <= n)%nat -> read_loop (A := A) fuel n d r st <> Hang.
Proof.
  induction k as [|k IH]; intros r st n H Hn; [destruct H|]. destruct H as (j & r' & E & H). destruct n as [|n]; [lia|]. cbn [read_loop]. rewrite E. cbn [bind].
  destruct (j =? nomore); [discriminate|]. destruct H as [H|H]; [rewrite rdZ_neg by auto; discriminate|]. apply bind_nohang; [apply rdZ_nohang|]. intros v _. apply bind_nohang; [apply put_nohang|]. intros st' _. apply IH; auto. lia.
Qed.
Lemma fill_ends fuel v : forall k r d n, stops k fuel r -> (k <= n)%nat -> fill_loop (A := A) fuel n v r d <> Hang.
Proof.
  induction k as [|k IH]; intros r d n H Hn; [destruct H|]. destruct H as (j & r' & E & H). destruct n as [|n]; [lia|]. cbn [fill_loop]. rewrite E. cbn [bind].
  destruct (j =? nomore); [discriminate|]. unfold store. destruct H as [H|H]; [rewrite wrZ_neg by auto; discriminate|]. apply bind_nohang; [apply wrZ_nohang|]. intros d' _. apply IH; auto. lia.
Qed.
Lemma rd_nohang (d : list A) i : rd d i <> Hang.
Proof. unfold rd. destruct nth_error; discriminate. Qed.
Lemma copy_ends fuel src : forall k r i d n, stops k fuel r -> (k <= n)%nat -> copy_loop (A := A) fuel n src r i d <> Hang.
Proof.
  induction k as [|k IH]; intros r i d n H Hn; [destruct H|]. destruct H as (j & r' & E & H). destruct n as [|n]; [lia|]. cbn [copy_loop]. rewrite E. cbn [bind].
  destruct (j =? nomore); [discriminate|]. apply bind_nohang; [apply rd_nohang|]. intros v _. unfold store. destruct H as [H|H]; [rewrite wrZ_neg by auto; discriminate|]. apply bind_nohang; [apply wrZ_nohang|]. intros d' _. apply IH; auto. lia.
Qed.
Lemma self_ends fuel : forall k r i d n, stops k fuel r -> (k <= n)%nat -> copy_loop_self (A := A) fuel n r i d <> Hang.
Proof.
  induction k as [|k IH]; intros r i d n H Hn; [destruct H|]. destruct H as (j & r' & E & H). destruct n as [|n]; [lia|]. cbn [copy_loop_self]. rewrite E. cbn [bind].
  destruct (j =? nomore); [discriminate|]. apply bind_nohang; [apply rd_nohang|]. intros v _. unfold store. destruct H as [H|H]; [rewrite wrZ_neg by auto; discriminate|]. apply bind_nohang; [apply wrZ_nohang|]. intros d' _. apply IH; auto. lia.
Qed.
Lemma view_ends fuel src k' : forall k r1 r2 d n, stops k fuel r1 -> stops k' fuel r2 -> (k <= n)%nat -> copy_view_loop (A := A) fuel n src r1 r2 d <> Hang.
Proof.
  revert k'. intros k' k. revert k'. induction k as [|k IH]; intros k' r1 r2 d n H H' Hn; [destruct H|]. destruct H as (i & r1' & E & H). destruct k' as [|k']; [destruct H'|]. destruct H' as (j & r2' & E' & H').
  destruct n as [|n]; [lia|]. cbn [copy_view_loop]. rewrite E. cbn [bind]. rewrite E'. cbn [bind].
  destruct (_ || _); [discriminate|]. destruct H' as [H'|H']; [rewrite rdZ_neg by auto; discriminate|]. apply bind_nohang; [apply rdZ_nohang|]. intros v _.
  unfold store. destruct H as [H|H]; [rewrite wrZ_neg by auto; discriminate|]. apply bind_nohang; [apply wrZ_nohang|]. intros d' _. apply (IH k'); auto. lia.
Qed.
End Loops.

(* ---- making the view ---- *)
(* a range of one dimension that is not empty, with strides of f *)
Definition leaf (f : Z) (r : rng) : Prop :=
  match r with
  | RFull l f' _ _ => f' = f /\ 0 < l
  | RSingle l f' _ _ => f' = f /\ 0 < l
  | RStep l f' _ s e st => f' = f /\ 0 < l /\ exists s0 e0 st0, s = s0 * f /\ e = e0 * f /\ st = st0 * f /\ (0 < st0 \/ e0 < s0)
  | RIndex l f' _ _ => f' = f /\ 0 < l
  | RProd _ _ _ => False
  end.
Fixpoint chain (f : Z) (r : rng) : Prop :=
  match r with RProd r1 r2 _ => leaf f r1 /\ chain (f * get_limit r1) r2 | _ => leaf f r end.
Lemma leaf_limit f r : leaf f r -> 0 < get_limit r /\ get_factor r = f.
Proof. destruct r; cbn; intuition. Qed.
Lemma leaf_chain f r : leaf f r -> chain f r.
Proof. destruct r; cbn; auto; tauto. Qed.
Lemma cdiv_exact a f : 0 < f -> cdiv (a * f) f = Ok a.
Proof. intros. unfold cdiv. destruct (Z.eqb_spec f 0); [lia|]. rewrite Z.quot_mul by lia. reflexivity. Qed.
Lemma mapM_cdiv f g l : 0 < f -> exists l', mapM (fun i => q <- cdiv i f ;; Ok (q * g)) l = Ok l'.
Proof.
  intros Hf. induction l as [|x l (l' & IH)]; [eexists; reflexivity|]. cbn [mapM]. unfold cdiv at 1. destruct (Z.eqb_spec f 0); [lia|]. cbn [bind]. rewrite IH. eexists. reflexivity.
Qed.
Lemma leaf_factor f g r : 0 < f -> leaf f r -> exists r', set_factor r g = Ok r' /\ leaf g r' /\ get_limit r' = get_limit r.
Proof.
  intros Hf. destruct r as [l f' c e|l f' n c|l f' n s e st|l f' ix c|r1 r2 b]; cbn [leaf]; intros H.
  - destruct H as [-> Hl]. eexists. split; [reflexivity|]. cbn. auto.
  - destruct H as [-> Hl]. cbn [set_factor]. unfold cdiv. destruct (Z.eqb_spec f 0); [lia|]. eexists. split; [reflexivity|]. cbn. auto.
  - destruct H as (-> & Hl & s0 & e0 & st0 & -> & -> & -> & H). cbn [set_factor]. rewrite !cdiv_exact by auto. cbn [bind]. eexists. split; [reflexivity|]. cbn. split; [|auto]. split; [auto|]. split; [auto|]. exists s0, e0, st0. auto.
  - destruct H as [-> Hl]. cbn [set_factor]. destruct (mapM_cdiv f g ix Hf) as (ix' & ->). cbn [bind]. eexists. split; [reflexivity|]. cbn. auto.
  - contradiction.
Qed.
Lemma chain_factor r : forall f g, 0 < f -> 0 < g -> chain f r -> exists r', set_factor r g = Ok r' /\ chain g r'.
Proof.
  induction r as [l f' c e|l f' n c|l f' n s e st|l f' ix c|r1 _ r2 IH b]; intros f g Hf Hg H.
  1-4: destruct (leaf_factor f g _ Hf H) as (r' & E & L & _); exists r'; split; [exact E|apply leaf_chain; exact L].
  cbn [chain] in H. destruct H as [H1 H2]. destruct (leaf_limit _ _ H1) as [L1 _]. destruct (leaf_factor f g r1 Hf H1) as (r1' & E1 & H1' & L1'). cbn [set_factor]. rewrite E1. cbn [bind].
  destruct (IH (f * get_limit r1) (g * get_limit r1')) as (r2' & E2 & H2'); [nia|rewrite L1'; nia|exact H2|]. rewrite E2. cbn [bind]. eexists. split; [reflexivity|]. split; auto.
Qed.
Lemma chain_product rs : rs <> [] -> Forall (leaf 1) rs -> exists r, product_all rs = Ok r /\ chain 1 r.
Proof.
  intros Hn H. induction H as [|r rs Hr H IH]; [contradiction|]. destruct rs as [|r' rs]; [exists r; split; [reflexivity|apply leaf_chain; auto]|].
  destruct (IH ltac:(discriminate)) as (p & E & C). change (product_all (r :: r' :: rs)) with (p <- product_all (r' :: rs) ;; product r p). rewrite E. cbn [bind]. unfold product.
  destruct (leaf_limit _ _ Hr) as [Ll Lf]. rewrite Lf, Z.mul_1_l. destruct (chain_factor p 1 (get_limit r) ltac:(lia) Ll C) as (p' & E' & C'). rewrite E'. cbn [bind]. eexists. split; [reflexivity|]. split; [auto|]. rewrite Z.mul_1_l. exact C'.
Qed.
Lemma chain_tame r : forall f, 0 < f -> chain f r -> tame0 r.
Proof.
  assert (L : forall f r, 0 < f -> leaf f r -> tame0 r).
  { intros f x Hf. destruct x; cbn; try tauto; [intuition lia|]. intros (-> & _ & s0 & e0 & st0 & -> & -> & -> & [H|H]); [left; nia|right; nia]. }
  induction r as [l f' c e|l f' n c|l f' n s e st|l f' ix c|r1 _ r2 IH b]; intros f Hf H; try (apply (L f); auto; fail).
  cbn [chain] in H. destruct H as [H1 H2]. destruct (leaf_limit _ _ H1) as [L1 _]. split; [apply (L f); auto|]. apply (IH (f * get_limit r1)); [nia|auto].
Qed.

(* ranges that go upwards, or are empty, or have step 0 *)
Definition not_down (s : rspec) : Prop := match s with SStep a b st => st < 0 -> b < a | _ => True end.
Lemma set_limit_leaf s d r : not_down s -> (0 < d)%nat -> set_limit (make_range s) (Z.of_nat d) = Ok r -> (exists n, rsize r = Ok n) -> leaf 1 r.
Proof.
  intros Hs Hd E (n & En). destruct s as [|i|a b st|ix]; cbn [make_range set_limit] in E.
  - destruct (assert_ _); try discriminate. injection E as <-. cbn. lia.
  - destruct (assert_ _); try discriminate. cbn [bind] in E. destruct (assert_ _); try discriminate. injection E as <-. cbn. lia.
  - destruct (assert_ _); try discriminate. cbn [bind] in E. destruct (assert_ _); try discriminate. injection E as <-. cbn in En. unfold cdiv in En. destruct (Z.eqb_spec st 0) as [->|N]; [discriminate|].
    cbn. split; [auto|]. split; [lia|]. exists a, b, st. rewrite !Z.mul_1_r. cbn in Hs. lia.
  - destruct (assert_ _); try discriminate. cbn [bind] in E. destruct (assert_ _); try discriminate. injection E as <-. cbn. lia.
Qed.
Lemma set_limits_leaf ss : forall ds rs ns, Forall not_down ss -> Forall (fun d => 0 < d)%nat ds -> set_limits (map make_range ss) ds = Ok rs -> mapM rsize rs = Ok ns -> Forall (leaf 1) rs.
Proof.
  induction ss as [|s ss IH]; intros ds rs ns Hs Hd E En; cbn [map set_limits] in E.
  - injection E as <-. constructor.
  - destruct ds as [|d ds]; [injection E as <-; constructor|]. inversion Hs; subst. inversion Hd; subst. destruct (set_limit _ _) as [r| | |] eqn:E1; try discriminate. cbn [bind] in E.
    destruct (set_limits _ _) as [rs'| | |] eqn:E2; try discriminate. cbn [bind] in E. injection E as <-. cbn [mapM] in En. destruct (rsize r) as [n| | |] eqn:Er; try discriminate. cbn [bind] in En.
    destruct (mapM rsize rs') as [ns'| | |] eqn:Em; try discriminate. constructor; [eapply set_limit_leaf; eauto|eapply IH; eauto].
Qed.

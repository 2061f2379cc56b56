(* C13: which slices come to an end. *)
From Verif Require Import Base Spec M_Tensor M_Range L_RangeEnds.
Local Open Scope Z_scope.

Lemma stops_mono fuel : forall k k' r, (k <= k')%nat -> stops k fuel r -> stops k' fuel r.
Proof. induction k as [|k IH]; intros k' r Hk H; [destruct H|]. destruct k' as [|k']; [lia|]. destruct H as (j & r' & E & H). exists j, r'. split; [exact E|]. destruct H as [H|H]; [left; auto|right; apply IH; auto; lia]. Qed.
Definition ending (r : rng) : Prop := exists F, forall fuel, (F <= fuel)%nat -> exists r', reset fuel r = Ok r' /\ stops F fuel r'.
Lemma tame_ending r : tame0 r -> ending r.
Proof.
  intros H. exists (S (need r + most r)). intros fuel Hf. destruct (reset_ends r fuel ltac:(lia) H) as (r' & E & (T & M & N)). exists r'. split; [exact E|].
  apply tame_stops; [exact T|lia|]. pose proof (left_most r' T). lia.
Qed.
Section Any.
Context {A : Type}.
Lemma view_ending (t : tensor A) ss ns r : length ss = 1%nat \/ Forall not_down ss /\ Forall (fun d => 0 < d)%nat (dims t) -> make_view t ss = Ok (ns, r) -> ending r.
Proof.
  intros H E. destruct ss as [|s [|s' ss]]; cbn [make_view] in E; [discriminate| |].
  - destruct (set_limit _ _) as [r0| | |] eqn:E1; try discriminate. cbn [bind] in E. destruct (rsize r0) as [n| | |] eqn:En; try discriminate. injection E as <- ->.
    destruct s as [|i|a b st|ix]; cbn [make_range set_limit] in E1.
    + destruct (assert_ _); try discriminate. injection E1 as <-. apply tame_ending. cbn. lia.
    + destruct (assert_ _); try discriminate. cbn [bind] in E1. destruct (assert_ _); try discriminate. injection E1 as <-. apply tame_ending. exact I.
    + destruct (assert_ _); try discriminate. cbn [bind] in E1. destruct (assert_ _); try discriminate. injection E1 as <-. destruct (Z.lt_trichotomy st 0) as [S|[->|S]]; [|cbn in En; discriminate|apply tame_ending; left; auto].
      exists (Z.to_nat (a + 2) + 1)%nat. intros fuel Hf. eexists. split; [reflexivity|]. apply down_stops; lia.
    + destruct (assert_ _); try discriminate. cbn [bind] in E1. destruct (assert_ _); try discriminate. injection E1 as <-. apply tame_ending. exact I.
  - destruct H as [H|[Hs Hd]]; [discriminate|]. destruct (assert_ _); try discriminate. cbn [bind] in E. destruct (set_limits _ _) as [rs| | |] eqn:E1; try discriminate. cbn [bind] in E.
    destruct (mapM rsize rs) as [ns'| | |] eqn:E2; try discriminate. cbn [bind] in E. pose proof (set_limits_leaf _ _ _ _ Hs Hd E1 E2) as L.
    destruct rs as [|r0 rs]; [discriminate|]. destruct (chain_product (r0 :: rs) ltac:(discriminate) L) as (p & Ep & C). rewrite Ep in E. injection E as <- <-. apply tame_ending. apply (chain_tame p 1); [lia|exact C].
Qed.
Lemma cdiv_nohang a b : cdiv a b <> Hang. Proof. unfold cdiv. destruct (b =? 0); discriminate. Qed.
Lemma assert_nohang b : assert_ b <> Hang. Proof. unfold assert_. destruct b; discriminate. Qed.
Lemma rsize_nohang r : rsize r <> Hang.
Proof. induction r; cbn [rsize]; try discriminate; [apply bind_nohang; [apply cdiv_nohang|discriminate]|]. apply bind_nohang; [auto|]. intros a _. apply bind_nohang; [auto|discriminate]. Qed.
Lemma mapM_nohang {X Y} (f : X -> outcome Y) l : (forall x, f x <> Hang) -> mapM f l <> Hang.
Proof. intros H. induction l as [|x l IH]; [discriminate|]. cbn [mapM]. apply bind_nohang; [auto|]. intros y _. apply bind_nohang; [auto|discriminate]. Qed.
Lemma set_limit_nohang r d : set_limit r d <> Hang.
Proof. destruct r; cbn [set_limit]; try discriminate; repeat (apply bind_nohang; [apply assert_nohang|]; intros); discriminate. Qed.
Lemma set_limits_nohang rs : forall ds, set_limits rs ds <> Hang.
Proof. induction rs as [|r rs IH]; intros [|d ds]; cbn [set_limits]; try discriminate. apply bind_nohang; [apply set_limit_nohang|]. intros x _. apply bind_nohang; [apply IH|discriminate]. Qed.
Lemma set_factor_nohang r : forall f, set_factor r f <> Hang.
Proof.
  induction r as [l f' c e|l f' n c|l f' n s e st|l f' ix c|r1 IH1 r2 IH2 b]; intros f; cbn [set_factor]; try discriminate.
  - apply bind_nohang; [apply cdiv_nohang|discriminate].
  - repeat (apply bind_nohang; [apply cdiv_nohang|]; intros); discriminate.
  - apply bind_nohang; [|discriminate]. apply mapM_nohang. intros x. apply bind_nohang; [apply cdiv_nohang|discriminate].
  - apply bind_nohang; [auto|]. intros x _. apply bind_nohang; [auto|discriminate].
Qed.
Lemma product_all_nohang rs : product_all rs <> Hang.
Proof. induction rs as [|r [|r' rs] IH]; try discriminate. change (product_all (r :: r' :: rs)) with (p <- product_all (r' :: rs) ;; product r p). apply bind_nohang; [exact IH|]. intros p _. unfold product. apply bind_nohang; [apply set_factor_nohang|discriminate]. Qed.
Lemma make_view_nohang (t : tensor A) ss : make_view t ss <> Hang.
Proof.
  destruct ss as [|s [|s' ss]]; cbn [make_view]; [discriminate| |].
  - apply bind_nohang; [apply set_limit_nohang|]. intros r _. apply bind_nohang; [apply rsize_nohang|discriminate].
  - apply bind_nohang; [apply assert_nohang|]. intros _ _. apply bind_nohang; [apply set_limits_nohang|]. intros rs _. apply bind_nohang; [apply mapM_nohang, rsize_nohang|]. intros ns _. apply bind_nohang; [apply product_all_nohang|discriminate].
Qed.

(* A slice comes to an end (with a result, a refusal or an undefined action) if it
   is made of one range, or if the tensor has no empty dimension and no range with
   a negative step starts at or before its end.  So do the assignments to it. *)
Definition ends {X} (run : nat -> outcome X) : Prop := exists F, forall fuel, (F <= fuel)%nat -> run fuel <> Hang.
Definition harmless (t : tensor A) (ss : list rspec) : Prop :=
  length ss = 1%nat \/
  Forall (fun d => 0 < d)%nat (dims t) /\ Forall (fun s => match s with SStep first last step => step < 0 -> last < first | _ => True end) ss.
Lemma harmless_view (t : tensor A) ss : harmless t ss -> exists F, forall fuel, (F <= fuel)%nat -> forall ns r, make_view t ss = Ok (ns, r) -> exists r', reset fuel r = Ok r' /\ stops F fuel r'.
Proof.
  intros H. destruct (make_view t ss) as [[ns r]| | |] eqn:E; [|exists 0%nat; intros; discriminate..].
  destruct (view_ending t ss ns r) as (F & HF); [destruct H as [H|[H1 H2]]; [left; auto|right; auto]|auto|]. exists F. intros fuel Hf ns' r' [= -> ->]. auto.
Qed.
End Any.
Theorem C13_terminates_partial : forall A (t : tensor A) ss, harmless t ss ->
  (forall junk, ends (fun fuel => slice fuel junk t ss)) /\
  (forall v, ends (fun fuel => assign_scalar fuel t ss v)) /\
  (forall u, ends (fun fuel => assign_tensor fuel t ss u)) /\
  ends (fun fuel => assign_self fuel t ss) /\
  (forall (u : tensor A) su, harmless u su -> ends (fun fuel => assign_view fuel t ss u su)).
Proof.
  intros A t ss H. destruct (harmless_view t ss H) as (F & HF).
  assert (G : forall X (run : nat -> list Z * rng -> outcome X),
    (forall fuel ns r r', (F <= fuel)%nat -> reset fuel r = Ok r' -> stops F fuel r' -> run fuel (ns, r) <> Hang) ->
    ends (fun fuel => v <- make_view t ss ;; run fuel v)).
  { intros X run Hr. exists F. intros fuel Hf. apply bind_nohang; [apply make_view_nohang|]. intros [ns r] E. destruct (HF fuel Hf ns r E) as (r' & E' & S). eapply Hr; eauto. }
  split; [|split; [|split; [|split]]].
  - intros junk. apply (G _ (fun fuel v => view_to_tensor fuel junk (data t) v)). intros fuel ns r r' Hf E S. unfold view_to_tensor. rewrite E. cbn [bind]. apply bind_nohang; [|discriminate]. apply (read_ends fuel (data t) F); auto.
  - intros v. apply (G _ (fun fuel '(_, r) => r' <- reset fuel r ;; d <- fill_loop fuel fuel v r' (data t) ;; Ok (mkT (dims t) d))). intros fuel ns r r' Hf E S. rewrite E. cbn [bind]. apply bind_nohang; [|discriminate]. apply (fill_ends fuel v F); auto.
  - intros u. apply (G _ (fun fuel '(ds, r) => _ <- assert_ (total_sizeZ ds =? Z.of_nat (total_size (dims u))) ;; r' <- reset fuel r ;; d <- copy_loop fuel fuel (data u) r' O (data t) ;; Ok (mkT (dims t) d))).
    intros fuel ns r r' Hf E S. apply bind_nohang; [apply assert_nohang|]. intros _ _. rewrite E. cbn [bind]. apply bind_nohang; [|discriminate]. apply (copy_ends fuel (data u) F); auto.
  - apply (G _ (fun fuel '(ds, r) => _ <- assert_ (total_sizeZ ds =? Z.of_nat (total_size (dims t))) ;; r' <- reset fuel r ;; d <- copy_loop_self fuel fuel r' O (data t) ;; Ok (mkT (dims t) d))).
    intros fuel ns r r' Hf E S. apply bind_nohang; [apply assert_nohang|]. intros _ _. rewrite E. cbn [bind]. apply bind_nohang; [|discriminate]. apply (self_ends fuel F); auto.
  - intros u su Hu. destruct (harmless_view u su Hu) as (F' & HF'). exists (F + F')%nat. intros fuel Hf. unfold assign_view. apply bind_nohang; [apply make_view_nohang|]. intros [ds1 r1] E1. apply bind_nohang; [apply make_view_nohang|]. intros [ds2 r2] E2.
    apply bind_nohang; [apply assert_nohang|]. intros _ _. destruct (HF fuel ltac:(lia) _ _ E1) as (r1' & R1 & S1). destruct (HF' fuel ltac:(lia) _ _ E2) as (r2' & R2 & S2). rewrite R1. cbn [bind]. rewrite R2. cbn [bind].
    apply bind_nohang; [|discriminate]. apply (view_ends fuel (data u) F' F); auto. lia.
Qed.
Print Assumptions C13_terminates_partial.

(* Otherwise it need not: here the first range is empty, and the second one goes
   down from 0 towards 1. *)
Theorem C13_negative_step_hangs_refuted : forall A (a b c d : A) junk fuel,
  slice fuel junk (mkT [2; 2]%nat [a; b; c; d]) [SStep 1 0 1; SStep 0 1 (-1)] = Hang.
Proof.
  intros A a b c d junk fuel.
  assert (P : forall k n base, n <= 0 -> base <= 0 -> pop k (RProd (RStep 2 1 1 1 0 1) (RStep 2 2 (2 * n) 0 2 (-2)) (2 * base)) = Hang).
  { induction k as [|k IH]; intros n base Hn Hb; [reflexivity|]. cbn [pop]. destruct (Z.eqb_spec (2 * base) nomore) as [E|_]; [unfold nomore in E; lia|].
    destruct k as [|k]; [reflexivity|]. cbn [pop]. change (0 <? 1) with true. cbn [bind]. cbv iota. change (negb (nomore =? nomore)) with false. cbv iota.
    destruct (Z.ltb_spec 2 (2 * n)); [lia|]. cbn [bind reset_with]. replace (2 * n + -2) with (2 * (n - 1)) by lia. apply IH; lia. }
  unfold slice, make_view. cbn [dims length Nat.eqb assert_ bind map make_range set_limits set_limit].
  change (0 <? Z.of_nat 2) with true. change (1 <? Z.of_nat 2) with true. change (0 <=? Z.of_nat 2) with true. cbn [assert_ bind mapM rsize].
  unfold cdiv. cbn [Z.eqb bind product_all]. unfold product. cbn [get_factor get_limit set_factor]. change (1 * Z.of_nat 2) with 2. unfold cdiv. cbn [Z.eqb bind].
  cbn [view_to_tensor]. unfold reset. cbn [reset_with bind]. destruct fuel as [|fuel]; [reflexivity|]. cbn [pop].
  change (Z.quot 0 1 * 2) with 0. change (Z.quot 1 1 * 2) with 2. change (Z.quot (-1) 1 * 2) with (-2). change (2 <? 0) with false. cbn [bind]. cbv iota.
  cbn [bind read_loop]. change (Z.of_nat 2) with 2. change (0 + -2) with (2 * (-1)). replace 0 with (2 * 0) at 4 by reflexivity. 
  pose proof (P (S fuel) (-1) 0 ltac:(lia) ltac:(lia)) as E. change (2 * 0) with 0 in E. cbn [Z.mul] in *. rewrite E. reflexivity.
Qed.
Print Assumptions C13_negative_step_hangs_refuted.

(* Non-vacuity: two ranges of a matrix; a single range with a negative step. *)
Example C13_terminates_meets :
  harmless (mkT [3; 4]%nat (seq 0 12)) [SStep 0 2 2; SIndex [3; 0]] /\ harmless (mkT [3; 4]%nat (seq 0 12)) [SStep 5 7 (-2)] /\
  harmless (mkT [3; 4]%nat (seq 0 12)) [SStep 2 1 (-1); SFull] /\
  slice 40 (fun _ => 0%nat) (mkT [3; 4]%nat (seq 0 12)) [SStep 0 2 2; SIndex [3; 0]] = Ok ([2; 2], [9; 11; 0; 2]%nat).
Proof.
  split; [right; split; repeat constructor; lia|]. split; [left; reflexivity|]. split; [right; split; repeat constructor; lia|]. vm_compute. reflexivity.
Qed.

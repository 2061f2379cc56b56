From Verif Require Import Base M_RefCount S_RefCount L_RefCount S_RefInt M_RefInt.

Lemma int_result_ok w z : (- 2 ^ 31 <= z < 2 ^ 31)%Z -> int_result w z = Ok z.
Proof.
  intros H. unfold int_result.
  replace ((- 2 ^ 31 <=? z) && (z <? 2 ^ 31))%Z with true; auto.
  symmetry. apply andb_true_intro. split; [apply Z.leb_le|apply Z.ltb_lt]; lia.
Qed.

Definition isalive (o : option nat) : Z := match o with Some _ => 1%Z | None => 0%Z end.

Fixpoint living (vs : list (option nat)) : Z :=
  match vs with [] => 0%Z | o :: r => (isalive o + living r)%Z end.

Lemma living_app vs o : living (vs ++ [o]) = (living vs + isalive o)%Z.
Proof. induction vs; simpl; lia. Qed.

Lemma living_upd vs h o o' : nth_error vs h = Some o ->
  living (upd vs h o') = (living vs - isalive o + isalive o')%Z.
Proof.
  revert h; induction vs as [|x vs IH]; intros [|h] E; simpl in *; try discriminate.
  - inversion E; subst. lia.
  - rewrite (IH h E). lia.
Qed.

Lemma ind_isalive x a : (ind x a <= isalive x)%Z.
Proof. unfold ind. destruct (odec x (Some a)); subst; simpl; [lia|destruct x; simpl; lia]. Qed.

Lemma nrefs_cons x vs a : nrefs (x :: vs) a = (ind x a + nrefs vs a)%Z.
Proof. unfold nrefs, ind. simpl. destruct (odec x (Some a)); lia. Qed.

Lemma nrefs_living vs a : (nrefs vs a <= living vs)%Z.
Proof.
  induction vs as [|x vs IH]; [unfold nrefs; simpl; lia|].
  rewrite nrefs_cons. simpl. assert (H := ind_isalive x a). lia.
Qed.

Section Sim.
Context {A : Type}.
Implicit Types s : state A.

Lemma dereference_int_eq w s a : (forall p, get s a = Ok p -> (1 <= prefs p <= 2 ^ 31 - 1)%Z) ->
  dereference_int w s a = dereference s a.
Proof.
  intros H. unfold dereference_int, dereference.
  destruct (get s a) as [p| | |]; simpl; auto. specialize (H p eq_refl).
  rewrite int_result_ok by lia. reflexivity.
Qed.

Lemma reference_int_eq w s a : (forall p, get s a = Ok p -> (1 <= prefs p < 2 ^ 31 - 1)%Z) ->
  reference_int w s a = reference s a.
Proof.
  intros H. unfold reference_int, reference.
  destruct (get s a) as [p| | |]; simpl; auto. specialize (H p eq_refl).
  rewrite int_result_ok by lia. reflexivity.
Qed.

Lemma Inv_get s a p : Inv s -> get s a = Ok p ->
  prefs p = nrefs (vars s) a /\ (1 <= prefs p <= living (vars s))%Z.
Proof.
  intros HI E. apply get_inv in E. destruct (inv_cnt _ _ HI a p E) as [H1 H2].
  assert (H3 := nrefs_living (vars s) a). lia.
Qed.

Lemma get_after_dereference s a b s1 p : b <> a -> dereference s a = Ok s1 ->
  get s1 b = Ok p -> get s b = Ok p.
Proof.
  intros Hne. unfold dereference. destruct (get s a) as [q| | |]; simpl; try discriminate.
  destruct (prefs q - 1 <=? 0)%Z; intros E; inversion E; subst; unfold get; simpl;
    rewrite nth_error_upd_ne by auto; auto.
Qed.

Lemma get_app s x a p : get (mkS (heap s ++ [x]) (ext s) (vars s)) a = Ok p -> a <> length (heap s) ->
  get s a = Ok p.
Proof.
  unfold get; simpl. intros E Hne. destruct (Nat.lt_ge_cases a (length (heap s))).
  - rewrite nth_error_app1 in E by auto. auto.
  - rewrite nth_error_app2 in E by auto.
    destruct (a - length (heap s)) as [|[|k]] eqn:Ek; simpl in E; try discriminate. lia.
Qed.

Lemma get_lt s a p : get s a = Ok p -> a < length (heap s).
Proof. intros E. apply get_inv in E. eapply nth_error_lt_inv; eauto. Qed.

(* one operation *)
Lemma step_int_eq w s o : Inv s -> (living (vars s) <= 2 ^ 31 - 1)%Z ->
  (living (vars s) + made o <= 2 ^ 31 - 1)%Z -> step_int w s o = step s o.
Proof.
  intros HI HL HM.
  assert (HD : forall a, dereference_int w s a = dereference s a).
  { intros a. apply dereference_int_eq. intros p E. destruct (Inv_get _ _ _ HI E). lia. }
  destruct o as [l| |f n|h|h g|h i v|h i|h|h l|h|f i v]; simpl in *; auto.
  - destruct (var s h) as [a| | |]; simpl; auto.
    rewrite reference_int_eq; auto. intros p E. destruct (Inv_get _ _ _ HI E). lia.
  - destruct (var s h) as [a| | |] eqn:Ea; simpl; auto.
    destruct (var s g) as [b| | |] eqn:Eb; simpl; auto.
    destruct (Nat.eqb_spec b a) as [->|Hne]; auto.
    rewrite HD. destruct (dereference s a) as [s1| | |] eqn:E1; simpl; auto.
    rewrite reference_int_eq; auto. intros p Ep.
    apply (get_after_dereference _ _ _ _ _ Hne E1) in Ep.
    destruct (Inv_get _ _ _ HI Ep) as [Hp Hl].
    apply var_inv in Ea. assert (Hu := living_upd (vars s) h (Some a) None Ea).
    assert (Hn := nrefs_upd (vars s) h (Some a) None b Ea).
    rewrite ind_diff, ind_none in Hn by auto.
    assert (Hb := nrefs_living (upd (vars s) h None) b). simpl in Hu. lia.
  - unfold appropriate_int, appropriate. destruct (var s h) as [a| | |]; simpl; auto.
    destruct (get s a) as [p| | |] eqn:Ep; simpl; auto.
    destruct (Inv_get _ _ _ HI Ep) as [Hp Hl]. unfold ref_count_int.
    rewrite Z.mod_small by lia. destruct (1 <? prefs p)%Z; auto.
    destruct (clone s a) as [[s1 a']| | |] eqn:Ec; simpl; auto.
    replace (dereference_int w s1 a) with (dereference s1 a); auto.
    symmetry. apply dereference_int_eq. intros q Eq. unfold clone in Ec. rewrite Ep in Ec. simpl in Ec.
    destruct (contents s (pbuf p)) as [l| | |]; try discriminate. simpl in Ec.
    inversion Ec; subst; clear Ec. apply get_app in Eq.
    + assert (q = p) by congruence. subst. lia.
    + apply get_lt in Ep. lia.
  - destruct (var s h) as [a| | |]; simpl; auto. rewrite HD. reflexivity.
  - destruct (var s h) as [a| | |]; simpl; auto. rewrite HD. reflexivity.
Qed.

Lemma dereference_vars s a s1 : dereference s a = Ok s1 -> vars s1 = vars s.
Proof.
  unfold dereference. destruct (get s a) as [q| | |]; simpl; try discriminate.
  destruct (prefs q - 1 <=? 0)%Z; intros E; inversion E; reflexivity.
Qed.

Lemma reference_vars s a s1 b : reference s a = Ok (s1, b) -> vars s1 = vars s.
Proof.
  unfold reference. destruct (get s a) as [q| | |]; simpl; try discriminate.
  intros E; inversion E; reflexivity.
Qed.

Lemma store_vars s a i v s1 : store s a i v = Ok s1 -> vars s1 = vars s.
Proof.
  unfold store. destruct (get s a) as [q| | |]; simpl; try discriminate.
  destruct (pbuf q) as [l|f n].
  - destruct (wr l i v); simpl; try discriminate. intros E; inversion E; reflexivity.
  - destruct (nth_error (ext s) f) as [[l|]|]; try discriminate.
    destruct (i <? n); try discriminate. destruct (wr l i v); simpl; try discriminate.
    intros E; inversion E; reflexivity.
Qed.

Lemma step_living s o s' x : step s o = Ok (s', x) -> living (vars s') = (living (vars s) + made o)%Z.
Proof.
  destruct o as [l| |f n|h|h g|h i v|h i|h|h l|h|f i v]; simpl.
  - intros E; inversion E; subst; simpl. rewrite living_app. reflexivity.
  - intros E; inversion E; subst; simpl. rewrite living_app. reflexivity.
  - destruct (nth_error (ext s) f) as [[l|]|]; try discriminate.
    destruct (n <=? length l); try discriminate.
    intros E; inversion E; subst; simpl. rewrite living_app. reflexivity.
  - destruct (var s h) as [a| | |]; simpl; try discriminate.
    destruct (reference s a) as [[s1 b]| | |] eqn:E1; simpl; try discriminate.
    intros E; inversion E; subst; simpl. rewrite living_app, (reference_vars _ _ _ _ E1). reflexivity.
  - destruct (var s h) as [a| | |] eqn:Ea; simpl; try discriminate.
    destruct (var s g) as [b| | |]; simpl; try discriminate.
    destruct (b =? a); [intros E; inversion E; subst; lia|].
    destruct (dereference s a) as [s1| | |] eqn:E1; simpl; try discriminate.
    destruct (reference s1 b) as [[s2 c]| | |] eqn:E2; simpl; try discriminate.
    intros E; inversion E; subst; simpl.
    rewrite (reference_vars _ _ _ _ E2), (dereference_vars _ _ _ E1).
    apply var_inv in Ea. rewrite (living_upd _ _ _ _ Ea). simpl. lia.
  - unfold appropriate. destruct (var s h) as [a| | |] eqn:Ea; simpl; try discriminate.
    destruct (get s a) as [p| | |]; simpl; try discriminate.
    destruct (1 <? prefs p)%Z.
    + destruct (clone s a) as [[s1 a']| | |] eqn:Ec; simpl; try discriminate.
      destruct (dereference s1 a) as [s2| | |] eqn:Ed; simpl; try discriminate.
      destruct (var (set_var s2 h (Some a')) h); simpl; try discriminate.
      match goal with |- context [store ?a ?b ?c ?d] => destruct (store a b c d) as [s3| | |] eqn:Es end;
        simpl; try discriminate.
      intros E; inversion E; subst. rewrite (store_vars _ _ _ _ _ Es). simpl.
      rewrite (dereference_vars _ _ _ Ed).
      assert (Hv : vars s1 = vars s).
      { unfold clone in Ec. destruct (get s a) as [p'| | |]; simpl in Ec; try discriminate.
        destruct (contents s (pbuf p')); simpl in Ec; try discriminate. inversion Ec; reflexivity. }
      rewrite Hv. apply var_inv in Ea. rewrite (living_upd _ _ _ _ Ea). simpl. lia.
    + simpl. rewrite Ea. simpl.
      match goal with |- context [store ?a ?b ?c ?d] => destruct (store a b c d) as [s3| | |] eqn:Es end;
        simpl; try discriminate.
      intros E; inversion E; subst. rewrite (store_vars _ _ _ _ _ Es). lia.
  - destruct (var s h) as [a| | |]; simpl; try discriminate.
    destruct (get s a) as [p| | |]; simpl; try discriminate.
    destruct (contents s (pbuf p)); simpl; try discriminate.
    match goal with |- context [rd ?a ?b] => destruct (rd a b) end; simpl; try discriminate.
    intros E; inversion E; subst; lia.
  - destruct (var s h) as [a| | |]; simpl; try discriminate.
    destruct (get s a) as [p| | |]; simpl; try discriminate.
    intros E; inversion E; subst; lia.
  - destruct (var s h) as [a| | |] eqn:Ea; simpl; try discriminate.
    destruct (dereference s a) as [s1| | |] eqn:E1; simpl; try discriminate.
    intros E; inversion E; subst; simpl. rewrite (dereference_vars _ _ _ E1).
    apply var_inv in Ea. rewrite (living_upd _ _ _ _ Ea). simpl. lia.
  - destruct (var s h) as [a| | |] eqn:Ea; simpl; try discriminate.
    destruct (dereference s a) as [s1| | |] eqn:E1; simpl; try discriminate.
    intros E; inversion E; subst; simpl. rewrite (dereference_vars _ _ _ E1).
    apply var_inv in Ea. rewrite (living_upd _ _ _ _ Ea). simpl. lia.
  - destruct (nth_error (ext s) f) as [[l|]|]; try discriminate.
    destruct (wr l i v); simpl; try discriminate. intros E; inversion E; subst; simpl; lia.
Qed.

Lemma handles_app (ops1 ops2 : list (op A)) : handles (ops1 ++ ops2) = (handles ops1 + handles ops2)%Z.
Proof. induction ops1; simpl; lia. Qed.

Lemma few_app (ops1 ops2 : list (op A)) : few (ops1 ++ ops2) -> few ops1.
Proof.
  intros H k. destruct (Nat.le_gt_cases k (length ops1)).
  - specialize (H k). rewrite firstn_app in H. replace (k - length ops1) with 0 in H by lia.
    simpl in H. rewrite app_nil_r in H. auto.
  - specialize (H (length ops1)). rewrite firstn_app, Nat.sub_diag in H. simpl in H.
    rewrite app_nil_r in H. rewrite firstn_all in H. rewrite firstn_all2 by lia. auto.
Qed.

Lemma few_all (ops : list (op A)) : few ops -> (handles ops <= 2 ^ 31 - 1)%Z.
Proof. intros H. specialize (H (length ops)). rewrite firstn_all in H. auto. Qed.

Lemma run_int_snoc w ops o : forall s s1 xs s2 x, run_int w s ops = Ok (s1, xs) ->
  step_int w s1 o = Ok (s2, x) -> run_int w s (ops ++ [o]) = Ok (s2, xs ++ [x]).
Proof.
  induction ops as [|o1 ops IH]; intros s s1 xs s2 x H1 H2; simpl in *.
  - inversion H1; subst. rewrite H2. reflexivity.
  - destruct (step_int w s o1) as [[s' y]| | |]; simpl in *; try discriminate.
    destruct (run_int w s' ops) as [[s'' ys]| | |] eqn:E; simpl in *; try discriminate.
    inversion H1; subst. rewrite (IH _ _ _ _ _ E H2). reflexivity.
Qed.

Lemma run_snoc ops o : forall s s1 xs s2 x, run s ops = Ok (s1, xs) ->
  step s1 o = Ok (s2, x) -> run s (ops ++ [o]) = Ok (s2, xs ++ [x]).
Proof.
  induction ops as [|o1 ops IH]; intros s s1 xs s2 x H1 H2; simpl in *.
  - inversion H1; subst. rewrite H2. reflexivity.
  - destruct (step s o1) as [[s' y]| | |]; simpl in *; try discriminate.
    destruct (run s' ops) as [[s'' ys]| | |] eqn:E; simpl in *; try discriminate.
    inversion H1; subst. rewrite (IH _ _ _ _ _ E H2). reflexivity.
Qed.

Lemma c98_reach w (bufs : list (list A)) ops s : reach (init bufs) ops s -> few ops ->
  living (vars s) = handles ops /\
  exists xs, run (init bufs) ops = Ok (s, xs) /\ run_int w (init bufs) ops = Ok (s, xs).
Proof.
  induction 1 as [|ops s o s' x HR IH HL HS]; intros HF.
  - split; [reflexivity|]. exists []. auto.
  - assert (HF' := few_app _ _ HF). destruct (IH HF') as (HV & xs & R1 & R2).
    assert (HA := few_all _ HF). assert (HB := few_all _ HF'). rewrite handles_app in HA. simpl in HA.
    split; [rewrite (step_living _ _ _ _ HS), handles_app; simpl; lia|].
    exists (xs ++ [x]). split; [eapply run_snoc; eauto|].
    eapply run_int_snoc; eauto. rewrite step_int_eq; auto; try lia.
    eapply reach_Inv; eauto.
Qed.

Lemma few_tail (o : op A) ops k : (handles (firstn (S k) (o :: ops)) = made o + handles (firstn k ops))%Z.
Proof. reflexivity. Qed.

Lemma c98_sim w ops : forall s t t' xs,
  Rel s t -> srun t ops = Some (t', xs) ->
  (forall k, living (vars s) + handles (firstn k ops) <= 2 ^ 31 - 1)%Z ->
  exists s', run_int w s ops = Ok (s', xs) /\ Rel s' t' /\ ext s' = ext s.
Proof.
  induction ops as [|o ops IH]; intros s t t' xs HR HS HF; simpl in *.
  - inversion HS; subst; eauto.
  - destruct (sstep t o) as [[t1 x]|] eqn:E1; [|discriminate].
    destruct (srun t1 ops) as [[t2 ys]|] eqn:E2; inversion HS; subst.
    destruct (sim_step _ _ _ _ _ HR E1) as (s1 & F1 & R1 & X1).
    assert (Hl := step_living _ _ _ _ F1).
    assert (H0 := HF 0). assert (H1 := HF 1). simpl in H0, H1.
    destruct (IH _ _ _ _ R1 E2) as (s2 & F2 & R2 & X2).
    { intros k. specialize (HF (S k)). rewrite few_tail in HF. rewrite Hl. lia. }
    rewrite step_int_eq; [|apply HR|lia|lia].
    rewrite F1. simpl. rewrite F2. simpl. eexists; split; [reflexivity|]. split; [auto|congruence].
Qed.

Lemma c98_values w (bufs : list (list A)) ops t xs : srun [] ops = Some (t, xs) -> few ops ->
  exists s, run_int w (init bufs) ops = Ok (s, xs) /\
    seen s = map (option_map Own) t /\ ext s = map Some bufs.
Proof.
  intros H HF. destruct (c98_sim w ops (init bufs) [] t xs) as (s & E & [_ R] & X); auto.
  - split; [apply Inv_init|reflexivity].
  - exists s. auto.
Qed.

(* too many copies of one vector *)
Definition shared (l : list A) (k : nat) (z : Z) : state A :=
  mkS [Some (mkP (Own l) z true)] [] (repeat (Some 0) k).

Lemma repeat_snoc {X} (x : X) k : repeat x k ++ [x] = repeat x (S k).
Proof. induction k; simpl in *; congruence. Qed.

Lemma copy_shared w l k z z' : int_result w (z + 1) = Ok z' ->
  step_int w (shared l (S k) z) (OCopy 0) = Ok (shared l (S (S k)) z', ONone).
Proof.
  intros H. simpl. unfold reference_int. simpl. rewrite H. simpl.
  unfold new_var, put_heap, shared. simpl. rewrite repeat_snoc. reflexivity.
Qed.

Lemma copies w l n : forall k z, (0 <= z)%Z -> (z + Z.of_nat n <= 2 ^ 31 - 1)%Z ->
  run_int w (shared l (S k) z) (repeat (OCopy 0) n)
  = Ok (shared l (S k + n) (z + Z.of_nat n), repeat ONone n).
Proof.
  induction n as [|n IH]; intros k z Hz Hn.
  - simpl. do 2 f_equal. f_equal; lia.
  - change (repeat (OCopy 0) (S n)) with (@OCopy A 0 :: repeat (OCopy 0) n).
    cbn [run_int]. rewrite (copy_shared w l k z (z + 1)) by (apply int_result_ok; lia).
    cbn [bind]. rewrite IH by lia. cbn [bind].
    do 2 f_equal. f_equal; lia.
Qed.

Lemma run_int_app w ops1 ops2 : forall s s1 xs, run_int w s ops1 = Ok (s1, xs) ->
  run_int w s (ops1 ++ ops2) = ('(s2, ys) <- run_int w s1 ops2 ;; Ok (s2, xs ++ ys)).
Proof.
  induction ops1 as [|o ops1 IH]; intros s s1 xs H; simpl in *.
  - inversion H; subst. destruct (run_int w s1 ops2) as [[? ?]| | |]; reflexivity.
  - destruct (step_int w s o) as [[s' y]| | |]; simpl in *; try discriminate.
    destruct (run_int w s' ops1) as [[s'' ys]| | |] eqn:E; simpl in *; try discriminate.
    inversion H; subst. rewrite (IH _ _ _ E).
    destruct (run_int w s1 ops2) as [[? ?]| | |]; reflexivity.
Qed.

Lemma srun_copies (l : list A) n : forall k,
  srun (repeat (Some l) (S k)) (repeat (OCopy 0) n) = Some (repeat (Some l) (S k + n), repeat ONone n).
Proof.
  induction n as [|n IH]; intros k; cbn [repeat srun].
  - rewrite Nat.add_0_r. reflexivity.
  - simpl sstep. rewrite app_comm_cons.
    change (Some l :: repeat (Some l) k) with (repeat (Some l) (S k)).
    rewrite repeat_snoc, IH. do 2 f_equal. f_equal. lia.
Qed.

Lemma srun_app (ops1 ops2 : list (op A)) : forall t t1 xs, srun t ops1 = Some (t1, xs) ->
  srun t (ops1 ++ ops2) =
  match srun t1 ops2 with Some (t2, ys) => Some (t2, xs ++ ys) | None => None end.
Proof.
  induction ops1 as [|o ops1 IH]; intros t t1 xs H; simpl in *.
  - inversion H; subst. destruct (srun t1 ops2) as [[? ?]|]; reflexivity.
  - destruct (sstep t o) as [[t' x]|]; try discriminate.
    destruct (srun t' ops1) as [[t'' ys]|] eqn:E; try discriminate.
    inversion H; subst. rewrite (IH _ _ _ E). destruct (srun t1 ops2) as [[? ?]|]; reflexivity.
Qed.

(* n further copies of the vector l, then the operations ops *)
Definition many (l : list A) (n : nat) (ops : list (op A)) : list (op A) :=
  ONew l :: repeat (OCopy 0) n ++ ops.

Lemma many_run w l n ops : (Z.of_nat n <= 2 ^ 31 - 2)%Z ->
  run_int w (init []) (many l n ops)
  = ('(s, xs) <- run_int w (shared l (S n) (1 + Z.of_nat n)) ops ;;
     Ok (s, (ONone :: repeat ONone n) ++ xs)).
Proof.
  intros H. unfold many. rewrite app_comm_cons. apply run_int_app.
  cbn [run_int step_int]. simpl step. cbn [bind].
  change (new_var _ _) with (shared l 1 1).
  rewrite (copies w l n 0 1) by lia. reflexivity.
Qed.

Lemma many_srun l n (ops : list (op A)) : srun [] (many l n ops) =
  match srun (repeat (Some l) (S n)) ops with
  | Some (t, xs) => Some (t, (ONone :: repeat ONone n) ++ xs)
  | None => None
  end.
Proof.
  unfold many. rewrite app_comm_cons. apply srun_app. cbn [srun]. simpl sstep.
  assert (H := srun_copies l n 0). simpl in H. simpl. rewrite H. reflexivity.
Qed.

Lemma c98_undefined (l : list A) n : Z.of_nat n = (2 ^ 31 - 2)%Z ->
  (exists t xs, srun [] (many l n [OCopy 0]) = Some (t, xs)) /\
  run_int false (init []) (many l n [OCopy 0]) = UB.
Proof.
  intros H. split; [rewrite many_srun; simpl; eauto|].
  rewrite many_run by lia. replace (1 + Z.of_nat n)%Z with (2 ^ 31 - 1)%Z by lia. reflexivity.
Qed.

Lemma c98_freed (v : A) n : Z.of_nat n = (2 ^ 31 - 2)%Z ->
  (exists t xs, srun [] (many [v] n [OCopy 0; OCopy 0; ODestroy 1; ORead 0 0]) = Some (t, xs)) /\
  run_int true (init []) (many [v] n [OCopy 0; OCopy 0; ODestroy 1; ORead 0 0]) = UB.
Proof.
  intros H. destruct n as [|n]; [simpl in H; lia|]. split; [rewrite many_srun; simpl; eauto|].
  rewrite many_run by lia. replace (1 + Z.of_nat (S n))%Z with (2 ^ 31 - 1)%Z by lia.
  cbn [run_int].
  rewrite (copy_shared true [v] (S n) (2 ^ 31 - 1) (- 2 ^ 31)) by reflexivity. cbn [bind].
  rewrite (copy_shared true [v] (S (S n)) (- 2 ^ 31) (- 2 ^ 31 + 1)) by reflexivity. cbn [bind].
  reflexivity.
Qed.
End Sim.

(* The loops of the sorting routines of ARPACK: they end, they rearrange, and the
   last pass, with a gap of one, leaves what is compared in order *)
From Coq Require Import String List Permutation Lia.
From Verif Require Import Base M_ArpackSort S_ArpackSort.
Import ListNotations.
Local Open Scope nat_scope.

Section SwapList.
Context {T : Type}.
(* the list with the elements j and k exchanged *)
Definition swapl (j k : nat) (l : list T) : list T :=
  match nth_error l j, nth_error l k with
  | Some u, Some v => upd (upd l j v) k u
  | _, _ => l
  end.
Lemma swapl_length j k l : length (swapl j k l) = length l.
Proof. unfold swapl. destruct (nth_error l j), (nth_error l k); rewrite ?length_upd; reflexivity. Qed.
Lemma swapl_nth j k l i : j < length l -> k < length l ->
  nth_error (swapl j k l) i = nth_error l (if i =? k then j else if i =? j then k else i).
Proof.
  intros Hj Hk. unfold swapl.
  destruct (nth_error_lt l j Hj) as [u Hu], (nth_error_lt l k Hk) as [v Hv]. rewrite Hu, Hv.
  rewrite nth_error_upd, length_upd. destruct (Nat.eqb_spec i k) as [->|Hne].
  - cbn [andb]. replace (k <? length l) with true by (symmetry; apply Nat.ltb_lt; exact Hk). symmetry. exact Hu.
  - cbn [andb]. rewrite nth_error_upd. destruct (Nat.eqb_spec i j) as [->|Hnj].
    + cbn [andb]. replace (j <? length l) with true by (symmetry; apply Nat.ltb_lt; exact Hj). symmetry. exact Hv.
    + reflexivity.
Qed.
Lemma swapl_perm j k l : j < k -> Permutation l (swapl j k l).
Proof.
  intros Hjk. unfold swapl.
  destruct (nth_error l j) as [u|] eqn:Hu; [|apply Permutation_refl].
  destruct (nth_error l k) as [v|] eqn:Hv; [|apply Permutation_refl].
  destruct (nth_error_split l j Hu) as (l1 & l2 & -> & Hl1).
  rewrite nth_error_app2 in Hv by lia. replace (k - length l1) with (S (k - length l1 - 1)) in Hv by lia. cbn [nth_error] in Hv.
  destruct (nth_error_split l2 (k - length l1 - 1) Hv) as (m1 & m2 & -> & Hm1).
  assert (E : upd (upd (l1 ++ u :: m1 ++ v :: m2) j v) k u = l1 ++ v :: m1 ++ u :: m2).
  { apply list_eq_nth. intros i. rewrite !nth_error_upd, length_upd, !app_length. cbn [length]. rewrite !app_length. cbn [length].
    destruct (Nat.eqb_spec i k) as [->|Hik].
    - cbn [andb]. replace (k <? _) with true by (symmetry; apply Nat.ltb_lt; lia).
      rewrite nth_error_app2 by lia. replace (k - length l1) with (S (length m1)) by lia. cbn [nth_error].
      rewrite nth_error_app2 by lia. rewrite Nat.sub_diag. reflexivity.
    - cbn [andb]. destruct (Nat.eqb_spec i j) as [->|Hij].
      + cbn [andb]. replace (j <? _) with true by (symmetry; apply Nat.ltb_lt; lia).
        rewrite nth_error_app2 by lia. replace (j - length l1) with 0 by lia. reflexivity.
      + cbn [andb]. destruct (Nat.lt_ge_cases i (length l1)) as [H|H].
        * rewrite !nth_error_app1 by lia. reflexivity.
        * rewrite !nth_error_app2 by lia. replace (i - length l1) with (S (i - length l1 - 1)) by lia. cbn [nth_error].
          destruct (Nat.lt_ge_cases (i - length l1 - 1) (length m1)) as [H2|H2].
          -- rewrite !nth_error_app1 by lia. reflexivity.
          -- rewrite !nth_error_app2 by lia.
             replace (i - length l1 - 1 - length m1) with (S (i - length l1 - 1 - length m1 - 1)) by lia. reflexivity. }
  rewrite E. apply Permutation_app_head.
  transitivity (u :: v :: m1 ++ m2); [apply perm_skip; symmetry; apply Permutation_middle|].
  transitivity (v :: u :: m1 ++ m2); [apply perm_swap|].
  apply perm_skip. apply Permutation_middle.
Qed.
End SwapList.

Section ShellFacts.
Context {St T : Type} (test : St -> Z -> Z -> outcome bool) (swap : St -> Z -> Z -> outcome St).
Context (gt : T -> T -> bool) (n : nat) (R : St -> list T -> Prop).
Context (R_length : forall s l, R s l -> length l = n).
Context (R_test : forall s l j k u v, R s l -> j < k < n -> nth_error l j = Some u -> nth_error l k = Some v ->
  test s (Z.of_nat j) (Z.of_nat k) = Ok (gt u v)).
Context (R_swap : forall s l j k, R s l -> j < k < n -> exists s', swap s (Z.of_nat j) (Z.of_nat k) = Ok s' /\ R s' (swapl j k l)).


(* one step *)
Lemma step_facts s l j g : R s l -> (0 <= j)%Z -> 0 < g -> (j + Z.of_nat g < Z.of_nat n)%Z ->
  exists u v s1, nth_error l (Z.to_nat j) = Some u /\ nth_error l (Z.to_nat j + g) = Some v /\
    test s j (j + Z.of_nat g) = Ok (gt u v) /\ swap s j (j + Z.of_nat g) = Ok s1 /\ R s1 (swapl (Z.to_nat j) (Z.to_nat j + g) l).
Proof.
  intros HR Hj Hg Hn. pose proof (R_length s l HR) as Hlen.
  destruct (nth_error_lt l (Z.to_nat j)) as [u Hu]; [lia|].
  destruct (nth_error_lt l (Z.to_nat j + g)) as [v Hv]; [lia|].
  pose proof (R_test s l (Z.to_nat j) (Z.to_nat j + g) u v HR ltac:(lia) Hu Hv) as Ht.
  destruct (R_swap s l (Z.to_nat j) (Z.to_nat j + g) HR ltac:(lia)) as (s1 & Hs1 & HR1).
  replace (Z.of_nat (Z.to_nat j)) with j in Ht, Hs1 by lia.
  replace (Z.of_nat (Z.to_nat j + g)) with (j + Z.of_nat g)%Z in Ht, Hs1 by lia.
  exists u, v, s1. auto.
Qed.

(* whatever the comparison says, the loops end and rearrange *)
Lemma sift_rearranges fuel g j s l : 0 < g -> 0 < fuel -> (j + 1 < Z.of_nat fuel)%Z -> (j + Z.of_nat g < Z.of_nat n)%Z -> R s l ->
  exists s' l', sift test swap fuel (Z.of_nat g) j s = Ok s' /\ R s' l' /\ Permutation l l'.
Proof.
  intros Hg. revert j s l. induction fuel as [|fuel IH]; intros j s l Hpos Hf Hn HR; [lia|].
  cbn [sift]. destruct (Z.ltb_spec j 0) as [Hj|Hj].
  - exists s, l. split; [reflexivity|]. split; [exact HR|apply Permutation_refl].
  - destruct (step_facts s l j g HR Hj Hg Hn) as (u & v & s1 & Hu & Hv & Ht & Hs & HR1).
    rewrite Ht. cbn [bind]. destruct (gt u v).
    + rewrite Hs. cbn [bind].
      destruct (IH (j - Z.of_nat g)%Z s1 _ ltac:(lia) ltac:(lia) ltac:(lia) HR1) as (s2 & l2 & H1 & H2 & H3).
      exists s2, l2. split; [exact H1|]. split; [exact H2|].
      eapply Permutation_trans; [apply (swapl_perm (Z.to_nat j) (Z.to_nat j + g)); lia|exact H3].
    + exists s, l. split; [reflexivity|]. split; [exact HR|apply Permutation_refl].
Qed.

Lemma pass_rearranges fuel g i s l : 0 < g -> (Z.of_nat g <= i <= Z.of_nat n)%Z -> (2 * Z.of_nat n + 2 <= Z.of_nat fuel + i)%Z -> R s l ->
  exists s' l', pass test swap fuel (Z.of_nat g) (Z.of_nat n) i s = Ok s' /\ R s' l' /\ Permutation l l'.
Proof.
  intros Hg. revert i s l. induction fuel as [|fuel IH]; intros i s l Hi Hf HR; [lia|].
  cbn [pass]. destruct (Z.leb_spec i (Z.of_nat n - 1)) as [H|H].
  - destruct (sift_rearranges (S fuel) g (i - Z.of_nat g)%Z s l Hg ltac:(lia) ltac:(lia) ltac:(lia) HR) as (s1 & l1 & H1 & H2 & H3).
    rewrite H1. cbn [bind].
    destruct (IH (i + 1)%Z s1 l1 ltac:(lia) ltac:(lia) H2) as (s2 & l2 & H4 & H5 & H6).
    exists s2, l2. split; [exact H4|]. split; [exact H5|eapply Permutation_trans; eauto].
  - exists s, l. split; [reflexivity|]. split; [exact HR|apply Permutation_refl].
Qed.

Lemma gaps_rearranges fuel g s l : (0 <= g)%Z -> (2 * g <= Z.of_nat n)%Z -> (2 * Z.of_nat n + 2 + g < Z.of_nat fuel)%Z -> R s l ->
  exists s' l', gaps test swap fuel g (Z.of_nat n) s = Ok s' /\ R s' l' /\ Permutation l l'.
Proof.
  revert g s l. induction fuel as [|fuel IH]; intros g s l Hg Hgn Hf HR; [lia|].
  cbn [gaps]. destruct (Z.eqb_spec g 0) as [E|E].
  - exists s, l. split; [reflexivity|]. split; [exact HR|apply Permutation_refl].
  - destruct (pass_rearranges (S fuel) (Z.to_nat g) g s l ltac:(lia) ltac:(lia) ltac:(lia) HR) as (s0 & l0 & Hs0 & HR0 & HP0).
    replace (Z.of_nat (Z.to_nat g)) with g in Hs0 by lia. rewrite Hs0. cbn [bind].
    rewrite Z.quot_div_nonneg by lia.
    pose proof (Z.div_mod g 2 ltac:(lia)). pose proof (Z.mod_pos_bound g 2 ltac:(lia)).
    destruct (IH (g / 2)%Z s0 l0 ltac:(lia) ltac:(lia) ltac:(lia) HR0) as (s1 & l1 & H1 & H2 & H3).
    exists s1, l1. split; [exact H1|]. split; [exact H2|eapply Permutation_trans; eauto].
Qed.

Lemma shell_rearranges fuel s l : 3 * n + 2 < fuel -> R s l ->
  exists s' l', shell test swap fuel (Z.of_nat n) s = Ok s' /\ R s' l' /\ Permutation l l'.
Proof.
  intros Hf HR. unfold shell. rewrite Z.quot_div_nonneg by lia.
  pose proof (Z.div_mod (Z.of_nat n) 2 ltac:(lia)). pose proof (Z.mod_pos_bound (Z.of_nat n) 2 ltac:(lia)).
  apply gaps_rearranges; [lia|lia|lia|exact HR].
Qed.

(* The order.  [le]: the first may come before the second. *)
Context (good : T -> Prop).
Context (gt_asym : forall x y, good x -> good y -> gt x y = true -> gt y x = false).
Context (le_trans : forall x y z, good x -> good y -> good z -> gt x y = false -> gt y z = false -> gt x z = false).

(* the first i elements are in order, all but the comparisons of the left ones with that at place p *)
Definition ordered_but (i p : nat) (l : list T) : Prop :=
  forall a b u v, a < b -> b < i -> b <> p -> nth_error l a = Some u -> nth_error l b = Some v -> gt u v = false.
Definition ordered (i : nat) (l : list T) : Prop :=
  forall a b u v, a < b -> b < i -> nth_error l a = Some u -> nth_error l b = Some v -> gt u v = false.

Lemma good_perm l l' : Permutation l l' -> Forall good l -> Forall good l'.
Proof. intros H G. rewrite Forall_forall in *. intros x Hx. apply G. eapply Permutation_in; [symmetry; exact H|exact Hx]. Qed.
Lemma good_nth l i x : Forall good l -> nth_error l i = Some x -> good x.
Proof. intros H E. rewrite Forall_forall in H. apply H. eapply nth_error_In; eauto. Qed.

Lemma sift_orders fuel i j s l : 0 < fuel -> (-1 <= j)%Z -> (j + 1 < Z.of_nat fuel)%Z -> (j + 1 <= Z.of_nat i)%Z -> i < n -> R s l ->
  Forall good l -> ordered_but (S i) (Z.to_nat (j + 1)) l ->
  exists s' l', sift test swap fuel 1 j s = Ok s' /\ R s' l' /\ Permutation l l' /\ ordered (S i) l' /\
    (forall b, i < b -> nth_error l' b = nth_error l b).
Proof.
  revert j s l. induction fuel as [|fuel IH]; intros j s l Hpos Hj1 Hf Hji Hn HR G O; [lia|].
  cbn [sift]. destruct (Z.ltb_spec j 0) as [Hj|Hj].
  - exists s, l. split; [reflexivity|]. split; [exact HR|]. split; [apply Permutation_refl|]. split; [|reflexivity].
    intros a b u v Hab Hb Hu Hv. apply (O a b u v Hab Hb); auto. lia.
  - destruct (step_facts s l j 1 HR Hj ltac:(lia) ltac:(lia)) as (u & v & s1 & Hu & Hv & Ht & Hs & HR1).
    change (Z.of_nat 1) with 1%Z in Ht, Hs.
    rewrite Ht. cbn [bind]. replace (Z.to_nat (j + 1)) with (Z.to_nat j + 1) in O by lia.
    pose proof (R_length s l HR) as Hlen.
    set (q := Z.to_nat j) in *.
    assert (Gu : good u) by (eapply good_nth; eauto). assert (Gv : good v) by (eapply good_nth; eauto).
    destruct (gt u v) eqn:Huv.
    + rewrite Hs. cbn [bind].
      assert (P : Permutation l (swapl q (q + 1) l)) by (apply swapl_perm; lia).
      assert (SW : forall k, nth_error (swapl q (q + 1) l) k = nth_error l (if k =? q + 1 then q else if k =? q then q + 1 else k))
        by (intros k; apply swapl_nth; lia).
      destruct (IH (j - 1)%Z s1 (swapl q (q + 1) l) ltac:(lia) ltac:(lia) ltac:(lia) ltac:(lia) Hn HR1 (good_perm _ _ P G)) as (s2 & l2 & H1 & H2 & H3 & H4 & H5).
      { replace (Z.to_nat (j - 1 + 1)) with q by lia.
        intros a b x y Hab Hb Hbq Hx Hy. rewrite SW in Hx, Hy.
        destruct (Nat.eqb_spec b (q + 1)) as [->|Hb1].
        - assert (y = u) by congruence. subst y.
          destruct (Nat.eqb_spec a (q + 1)) as [|_]; [lia|].
          destruct (Nat.eqb_spec a q) as [->|Ha].
          + assert (x = v) by congruence. subst x. apply gt_asym; auto.
          + apply (O a q x u); auto; lia.
        - destruct (Nat.eqb_spec b q) as [|_]; [lia|].
          destruct (Nat.eqb_spec a (q + 1)) as [->|Ha1]; [|destruct (Nat.eqb_spec a q) as [->|Ha]].
          + apply (O q b x y); auto; lia.
          + apply (O (q + 1) b x y); auto; lia.
          + apply (O a b x y); auto. }
      exists s2, l2. split; [exact H1|]. split; [exact H2|]. split; [eapply Permutation_trans; eauto|]. split; [exact H4|].
      intros b Hb. rewrite H5 by exact Hb. rewrite SW.
      destruct (Nat.eqb_spec b (q + 1)) as [|_]; [lia|]. destruct (Nat.eqb_spec b q) as [|_]; [lia|]. reflexivity.
    + exists s, l. split; [reflexivity|]. split; [exact HR|]. split; [apply Permutation_refl|]. split; [|reflexivity].
      intros a b x y Hab Hb Hx Hy.
      destruct (Nat.eq_dec b (q + 1)) as [->|Hbq]; [|apply (O a b x y); auto].
      assert (y = v) by congruence. subst y.
      destruct (Nat.eq_dec a q) as [->|Haq]; [congruence|].
      apply (le_trans x u v); auto; [eapply good_nth; eauto|]. apply (O a q x u); auto; lia.
Qed.

Lemma pass_orders fuel i s l : (1 <= i <= Z.of_nat n)%Z -> (2 * Z.of_nat n + 2 <= Z.of_nat fuel + i)%Z -> R s l ->
  Forall good l -> ordered (Z.to_nat i) l ->
  exists s' l', pass test swap fuel 1 (Z.of_nat n) i s = Ok s' /\ R s' l' /\ Permutation l l' /\ ordered n l'.
Proof.
  revert i s l. induction fuel as [|fuel IH]; intros i s l Hi Hf HR G O; [lia|].
  cbn [pass]. destruct (Z.leb_spec i (Z.of_nat n - 1)) as [H|H].
  - destruct (sift_orders (S fuel) (Z.to_nat i) (i - 1)%Z s l ltac:(lia) ltac:(lia) ltac:(lia) ltac:(lia) ltac:(lia) HR G) as (s1 & l1 & H1 & H2 & H3 & H4 & _).
    { replace (Z.to_nat (i - 1 + 1)) with (Z.to_nat i) by lia. intros a b u v Hab Hb Hne Hu Hv. apply (O a b u v); auto. lia. }
    rewrite H1. cbn [bind].
    destruct (IH (i + 1)%Z s1 l1 ltac:(lia) ltac:(lia) H2 (good_perm _ _ H3 G)) as (s2 & l2 & H5 & H6 & H7 & H8).
    { replace (Z.to_nat (i + 1)) with (S (Z.to_nat i)) by lia. exact H4. }
    exists s2, l2. split; [exact H5|]. split; [exact H6|]. split; [eapply Permutation_trans; eauto|exact H8].
  - exists s, l. split; [reflexivity|]. split; [exact HR|]. split; [apply Permutation_refl|].
    replace n with (Z.to_nat i) by lia. exact O.
Qed.

Lemma gaps_order fuel g s l : (0 <= g)%Z -> (2 * g <= Z.of_nat n)%Z -> (2 * Z.of_nat n + 2 + g < Z.of_nat fuel)%Z -> R s l ->
  Forall good l -> (0 < g)%Z ->
  exists s' l', gaps test swap fuel g (Z.of_nat n) s = Ok s' /\ R s' l' /\ Permutation l l' /\ ordered n l'.
Proof.
  revert g s l. induction fuel as [|fuel IH]; intros g s l Hg Hgn Hf HR G Hpos; [lia|].
  cbn [gaps]. destruct (Z.eqb_spec g 0) as [E|E]; [lia|].
  destruct (Z.eq_dec g 1) as [->|Hg1].
  - destruct (pass_orders (S fuel) 1%Z s l ltac:(lia) ltac:(lia) HR G) as (s1 & l1 & Hs1 & HR1 & HP1 & O1).
    { intros a b u v Hab Hb. lia. }
    rewrite Hs1. cbn [bind]. change (Z.quot 1 2) with 0%Z. destruct fuel as [|fuel]; [lia|]. cbn [gaps Z.eqb].
    exists s1, l1. auto.
  - destruct (pass_rearranges (S fuel) (Z.to_nat g) g s l ltac:(lia) ltac:(lia) ltac:(lia) HR) as (s0 & l0 & Hs0 & HR0 & HP0).
    replace (Z.of_nat (Z.to_nat g)) with g in Hs0 by lia. rewrite Hs0. cbn [bind].
    rewrite Z.quot_div_nonneg by lia.
    pose proof (Z.div_mod g 2 ltac:(lia)). pose proof (Z.mod_pos_bound g 2 ltac:(lia)).
    destruct (IH (g / 2)%Z s0 l0 ltac:(lia) ltac:(lia) ltac:(lia) HR0 (good_perm _ _ HP0 G) ltac:(lia)) as (s1 & l1 & H1 & H2 & H3 & H4).
    exists s1, l1. split; [exact H1|]. split; [exact H2|]. split; [eapply Permutation_trans; eauto|exact H4].
Qed.

Lemma shell_orders fuel s l : 3 * n + 2 < fuel -> R s l -> Forall good l ->
  exists s' l', shell test swap fuel (Z.of_nat n) s = Ok s' /\ R s' l' /\ Permutation l l' /\ ordered n l'.
Proof.
  intros Hf HR G. unfold shell. rewrite Z.quot_div_nonneg by lia.
  pose proof (Z.div_mod (Z.of_nat n) 2 ltac:(lia)). pose proof (Z.mod_pos_bound (Z.of_nat n) 2 ltac:(lia)).
  destruct (Z.eq_dec (Z.of_nat n / 2) 0) as [E|E].
  - rewrite E. destruct fuel as [|fuel]; [lia|]. cbn [gaps Z.eqb]. exists s, l.
    split; [reflexivity|]. split; [exact HR|]. split; [apply Permutation_refl|]. intros a b u v Hab Hb. lia.
  - apply gaps_order; try lia; assumption.
Qed.
End ShellFacts.

(* arrays that hold a list of pairs in their first places *)
Section Pairs.
Context {A B : Type}.
Lemma exchange_swapl (x : list A) j k : j < length x -> k < length x ->
  exchange x (Z.of_nat j) (Z.of_nat k) = Ok (swapl j k x).
Proof.
  intros Hj Hk. unfold exchange, rdZ, wrZ, swapl.
  replace (Z.of_nat j <? 0)%Z with false by (symmetry; apply Z.ltb_ge; lia).
  replace (Z.of_nat k <? 0)%Z with false by (symmetry; apply Z.ltb_ge; lia).
  rewrite !Nat2Z.id. destruct (nth_error_lt x j Hj) as [u Hu], (nth_error_lt x k Hk) as [v Hv].
  rewrite (rd_ok _ _ _ Hu), (rd_ok _ _ _ Hv), Hu, Hv. cbn [bind].
  rewrite wr_ok by exact Hj. cbn [bind]. rewrite wr_ok by (rewrite length_upd; exact Hk). reflexivity.
Qed.
Lemma swapl_map {C} (f : A -> C) j k l : swapl j k (map f l) = map f (swapl j k l).
Proof.
  unfold swapl. rewrite !nth_error_map.
  destruct (nth_error l j) as [u|] eqn:Hu; cbn [option_map]; [|reflexivity].
  destruct (nth_error l k) as [v|] eqn:Hv; cbn [option_map]; [|reflexivity].
  apply list_eq_nth. intros i. rewrite nth_error_map, !nth_error_upd, !length_upd, map_length, nth_error_map.
  destruct ((i =? k) && (k <? length l)); [reflexivity|]. destruct ((i =? j) && (j <? length l)); reflexivity.
Qed.
Lemma swapl_app j k (l r : list A) : j < length l -> k < length l -> swapl j k (l ++ r) = swapl j k l ++ r.
Proof.
  intros Hj Hk. apply list_eq_nth. intros i. rewrite swapl_nth by (rewrite app_length; lia).
  destruct (Nat.lt_ge_cases i (length l)) as [H|H].
  - rewrite (nth_error_app1 (swapl j k l)) by (rewrite swapl_length; exact H). rewrite swapl_nth by assumption.
    rewrite nth_error_app1; [reflexivity|]. destruct (i =? k), (i =? j); lia.
  - rewrite (nth_error_app2 (swapl j k l)) by (rewrite swapl_length; exact H). rewrite swapl_length.
    replace (i =? k) with false by (symmetry; apply Nat.eqb_neq; lia).
    replace (i =? j) with false by (symmetry; apply Nat.eqb_neq; lia).
    rewrite nth_error_app2 by exact H. reflexivity.
Qed.
End Pairs.

Lemma firstn_prefix {A} n (l r : list A) : length l = n -> firstn n (l ++ r) = l.
Proof. intros <-. rewrite firstn_app, Nat.sub_diag, firstn_all. cbn. apply app_nil_r. Qed.
Lemma skipn_prefix {A} n (l r : list A) : length l = n -> skipn n (l ++ r) = r.
Proof. intros <-. rewrite skipn_app, Nat.sub_diag, skipn_all. reflexivity. Qed.

Lemma read_key {A C} (f : C -> A) (l : list C) r j u : j < length l -> nth_error l j = Some u -> rdZ (map f l ++ r) (Z.of_nat j) = Ok (f u).
Proof.
  intros Hj Hu. unfold rdZ. replace (Z.of_nat j <? 0)%Z with false by (symmetry; apply Z.ltb_ge; lia). rewrite Nat2Z.id.
  apply rd_ok. rewrite nth_error_app1 by (rewrite map_length; exact Hj). rewrite nth_error_map, Hu. reflexivity.
Qed.
Lemma combine_fst {A B} (l : list A) (r : list B) : length l = length r -> map fst (combine l r) = l.
Proof. revert r. induction l as [|x l IH]; intros [|y r] H; cbn in *; try discriminate; [reflexivity|]. rewrite IH by lia. reflexivity. Qed.
Lemma combine_snd {A B} (l : list A) (r : list B) : length l = length r -> map snd (combine l r) = r.
Proof. revert r. induction l as [|x l IH]; intros [|y r] H; cbn in *; try discriminate; [reflexivity|]. rewrite IH by lia. reflexivity. Qed.
Lemma combine_split_map {A B} (l : list (A * B)) : combine (map fst l) (map snd l) = l.
Proof. induction l as [|[x y] l IH]; cbn; [reflexivity|]. rewrite IH. reflexivity. Qed.


Section Arrays.
Context {A B : Type} (wrong : A -> A -> bool) (n : nat).

(* the arrays hold the pairs of l in their first n places *)
Definition holds (r1 : list A) (r2 : list B) (s : list A * list B) (l : list (A * B)) : Prop :=
  length l = n /\ fst s = map fst l ++ r1 /\ snd s = map snd l ++ r2.

Lemma holds_test r1 r2 s l j k u v : holds r1 r2 s l -> j < k < n -> nth_error l j = Some u -> nth_error l k = Some v ->
  (u <- rdZ (fst s) (Z.of_nat j) ;; v <- rdZ (fst s) (Z.of_nat k) ;; Ok (wrong u v)) = Ok (wrong (fst u) (fst v)).
Proof.
  intros (H1 & H2 & H3) Hjk Hu Hv. rewrite H2, (read_key fst l r1 j u), (read_key fst l r1 k v); auto; lia.
Qed.
Lemma holds_swap r1 r2 s l j k : holds r1 r2 s l -> j < k < n ->
  exists s', (a <- exchange (fst s) (Z.of_nat j) (Z.of_nat k) ;; b <- exchange (snd s) (Z.of_nat j) (Z.of_nat k) ;; Ok (a, b)) = Ok s' /\
    holds r1 r2 s' (swapl j k l).
Proof.
  intros (H1 & H2 & H3) Hjk. rewrite H2, H3.
  rewrite !exchange_swapl by (rewrite app_length, map_length; lia). cbn [bind].
  eexists. split; [reflexivity|]. split; [rewrite swapl_length; exact H1|]. cbn [fst snd].
  rewrite !swapl_app by (rewrite map_length; lia). rewrite !swapl_map. auto.
Qed.

Lemma holds_start x1 x2 : n <= length x1 -> n <= length x2 ->
  holds (skipn n x1) (skipn n x2) (x1, x2) (combine (firstn n x1) (firstn n x2)).
Proof.
  intros H1 H2. assert (E : length (firstn n x1) = length (firstn n x2)) by (rewrite !firstn_length; lia).
  split; [rewrite combine_length, !firstn_length; lia|]. cbn [fst snd]. rewrite combine_fst, combine_snd by exact E.
  rewrite !firstn_skipn. auto.
Qed.
Lemma holds_end x1 x2 s l : n <= length x1 -> n <= length x2 -> holds (skipn n x1) (skipn n x2) s l ->
  Permutation (combine (firstn n x1) (firstn n x2)) l -> rearranged n x1 x2 (fst s) (snd s).
Proof.
  intros H1 H2 (H3 & H4 & H5) P. unfold rearranged. rewrite H4, H5.
  rewrite !(firstn_prefix n), !(skipn_prefix n) by (rewrite map_length; exact H3).
  rewrite combine_split_map. split; [exact P|]. rewrite !app_length, !map_length, !skipn_length. split; [lia|]. split; [lia|]. auto.
Qed.

(* the keys at places i < j *)
Lemma holds_keys r1 r2 s l i x : holds r1 r2 s l -> i < n -> nth_error (fst s) i = Some x -> exists y, nth_error l i = Some (x, y).
Proof.
  intros (H1 & H2 & _) Hi Hx. rewrite H2, nth_error_app1 in Hx by (rewrite map_length; lia).
  rewrite nth_error_map in Hx. destruct (nth_error l i) as [[a b]|] eqn:E; [|discriminate]. cbn in Hx. exists b. congruence.
Qed.

Lemma sort_arrays_rearranges fuel x1 (x2 : list B) : n <= length x1 -> n <= length x2 -> 3 * n + 2 < fuel ->
  exists y1 y2, sort_arrays wrong true fuel (Z.of_nat n) x1 x2 = Ok (y1, y2) /\ rearranged n x1 x2 y1 y2.
Proof.
  intros H1 H2 Hf.
  destruct (shell_rearranges (fun s j k => u <- rdZ (fst s) j ;; v <- rdZ (fst s) k ;; Ok (wrong u v))
    (fun s j k => a <- exchange (fst s) j k ;; b <- exchange (snd s) j k ;; Ok (a, b))
    (fun u v => wrong (fst u) (fst v)) n (holds (skipn n x1) (skipn n x2))
    (fun s l H => proj1 H) (holds_test _ _) (holds_swap _ _) fuel (x1, x2) _ Hf (holds_start x1 x2 H1 H2))
    as ([y1 y2] & l & E & Hl & P).
  exists y1, y2. split; [exact E|]. apply (holds_end x1 x2 (y1, y2) l H1 H2 Hl P).
Qed.

Context (good : A -> Prop).
Context (gt_asym : forall x y, good x -> good y -> wrong x y = true -> wrong y x = false).
Context (le_trans : forall x y z, good x -> good y -> good z -> wrong x y = false -> wrong y z = false -> wrong x z = false).

Definition in_order (y : list A) : Prop := forall i j u v, i < j < n -> nth_error y i = Some u -> nth_error y j = Some v -> wrong u v = false.

Lemma good_start x1 x2 : Forall good (firstn n x1) -> Forall (fun p : A * B => good (fst p)) (combine (firstn n x1) (firstn n x2)).
Proof.
  intros H. rewrite Forall_forall in *. intros [a b] Hin. apply in_combine_l in Hin. apply H. exact Hin.
Qed.

Lemma sort_arrays_orders fuel x1 (x2 : list B) : n <= length x1 -> n <= length x2 -> 3 * n + 2 < fuel -> Forall good (firstn n x1) ->
  exists y1 y2, sort_arrays wrong true fuel (Z.of_nat n) x1 x2 = Ok (y1, y2) /\ rearranged n x1 x2 y1 y2 /\ in_order y1.
Proof.
  intros H1 H2 Hf G.
  destruct (shell_orders (fun s j k => u <- rdZ (fst s) j ;; v <- rdZ (fst s) k ;; Ok (wrong u v))
    (fun s j k => a <- exchange (fst s) j k ;; b <- exchange (snd s) j k ;; Ok (a, b))
    (fun u v => wrong (fst u) (fst v)) n (holds (skipn n x1) (skipn n x2))
    (fun s l H => proj1 H) (holds_test _ _) (holds_swap _ _) (fun p => good (fst p))
    (fun x y => gt_asym (fst x) (fst y)) (fun x y z => le_trans (fst x) (fst y) (fst z))
    fuel (x1, x2) _ Hf (holds_start x1 x2 H1 H2) (good_start x1 x2 G))
    as ([y1 y2] & l & E & Hl & P & O).
  exists y1, y2. split; [exact E|]. split; [apply (holds_end x1 x2 (y1, y2) l H1 H2 Hl P)|].
  intros i j u v Hij Hu Hv.
  destruct (holds_keys _ _ _ _ i u Hl ltac:(lia) Hu) as [b1 E1]. destruct (holds_keys _ _ _ _ j v Hl ltac:(lia) Hv) as [b2 E2].
  apply (O i j (u, b1) (v, b2)); auto; lia.
Qed.
End Arrays.

(* without companions *)
Section OneArray.
Context {A B : Type} (wrong : A -> A -> bool) (n : nat) (x2 : list B).
Definition holds1 (r1 : list A) (s : list A * list B) (l : list A) : Prop := length l = n /\ fst s = l ++ r1 /\ snd s = x2.
Lemma holds1_test r1 s l j k u v : holds1 r1 s l -> j < k < n -> nth_error l j = Some u -> nth_error l k = Some v ->
  (u <- rdZ (fst s) (Z.of_nat j) ;; v <- rdZ (fst s) (Z.of_nat k) ;; Ok (wrong u v)) = Ok (wrong u v).
Proof.
  intros (H1 & H2 & H3) Hjk Hu Hv. rewrite H2, <- (map_id l), (read_key (fun x => x) l r1 j u), (read_key (fun x => x) l r1 k v); auto; lia.
Qed.
Lemma holds1_swap r1 s l j k : holds1 r1 s l -> j < k < n ->
  exists s', (a <- exchange (fst s) (Z.of_nat j) (Z.of_nat k) ;; Ok (a, snd s)) = Ok s' /\ holds1 r1 s' (swapl j k l).
Proof.
  intros (H1 & H2 & H3) Hjk. rewrite H2, H3.
  rewrite !exchange_swapl by (rewrite app_length; lia). cbn [bind].
  eexists. split; [reflexivity|]. split; [rewrite swapl_length; exact H1|]. cbn [fst snd].
  rewrite swapl_app by lia. auto.
Qed.
Context (good : A -> Prop).
Context (gt_asym : forall x y, good x -> good y -> wrong x y = true -> wrong y x = false).
Context (le_trans : forall x y z, good x -> good y -> good z -> wrong x y = false -> wrong y z = false -> wrong x z = false).
Lemma sort_one_orders fuel x1 : n <= length x1 -> 3 * n + 2 < fuel -> Forall good (firstn n x1) ->
  exists y1, sort_arrays wrong false fuel (Z.of_nat n) x1 x2 = Ok (y1, x2) /\
    Permutation (firstn n x1) (firstn n y1) /\ length y1 = length x1 /\ skipn n y1 = skipn n x1 /\ in_order wrong n y1.
Proof.
  intros H1 Hf G.
  destruct (shell_orders (fun s j k => u <- rdZ (fst s) j ;; v <- rdZ (fst s) k ;; Ok (wrong u v))
    (fun s j k => a <- exchange (fst s) j k ;; Ok (a, snd s))
    wrong n (holds1 (skipn n x1)) (fun s l H => proj1 H) (holds1_test _) (holds1_swap _) good gt_asym le_trans
    fuel (x1, x2) (firstn n x1) Hf) as ([y1 y2] & l & E & (L1 & L2 & L3) & P & O).
  { split; [rewrite firstn_length; lia|]. cbn [fst snd]. rewrite firstn_skipn. auto. }
  { exact G. }
  cbn [fst snd] in *. subst y1 y2. eexists. split; [exact E|].
  rewrite (firstn_prefix n), (skipn_prefix n) by exact L1.
  split; [exact P|]. split; [rewrite app_length, skipn_length; lia|]. split; [reflexivity|].
  intros i j u v Hij Hu Hv. rewrite nth_error_app1 in Hu, Hv by lia. apply (O i j u v); auto; lia.
Qed.
End OneArray.

(* columns *)
Section Columns.
Context {B : Type}.
Definition moved (na oj ok p : nat) : nat :=
  if (ok <=? p) && (p <? ok + na) then p - ok + oj else if (oj <=? p) && (p <? oj + na) then p - oj + ok else p.
Lemma dswap_nth na (a : list B) oj ok : oj + na <= ok -> ok + na <= length a ->
  exists a', dswap na a (Z.of_nat oj) (Z.of_nat ok) = Ok a' /\ length a' = length a /\
    forall p, nth_error a' p = nth_error a (moved na oj ok p).
Proof.
  intros H1 H2. unfold dswap. revert H1 H2. induction na as [|na IH]; intros H1 H2.
  - exists a. split; [reflexivity|]. split; [reflexivity|]. intros p. unfold moved. rewrite !Nat.add_0_r.
    destruct (Nat.leb_spec ok p), (Nat.ltb_spec p ok); cbn [andb]; try lia; destruct (Nat.leb_spec oj p), (Nat.ltb_spec p oj); cbn [andb]; try lia; reflexivity.
  - destruct IH as (a1 & E1 & L1 & N1); [lia|lia|].
    rewrite for_S, E1. cbn [bind].
    replace (Z.of_nat oj + Z.of_nat na)%Z with (Z.of_nat (oj + na)) by lia.
    replace (Z.of_nat ok + Z.of_nat na)%Z with (Z.of_nat (ok + na)) by lia.
    rewrite exchange_swapl by lia. eexists. split; [reflexivity|]. split; [rewrite swapl_length; exact L1|].
    intros p. rewrite swapl_nth by lia. rewrite N1. f_equal. unfold moved.
    destruct (Nat.eqb_spec p (ok + na)); [|destruct (Nat.eqb_spec p (oj + na))];
    repeat match goal with |- context [?x <=? ?y] => destruct (Nat.leb_spec x y) | |- context [?x <? ?y] => destruct (Nat.ltb_spec x y) end; cbn [andb]; try lia.
Qed.

Lemma nth_error_firstn {A} n (l : list A) i : nth_error (firstn n l) i = if i <? n then nth_error l i else None.
Proof.
  revert l i. induction n as [|n IH]; intros [|x l] [|i]; try reflexivity; cbn [firstn nth_error].
  - destruct (S i <? S n); reflexivity.
  - rewrite IH. reflexivity.
Qed.
Lemma nth_error_skipn {A} n (l : list A) i : nth_error (skipn n l) i = nth_error l (n + i).
Proof. revert l. induction n as [|n IH]; intros [|x l]; try reflexivity; cbn [skipn]; [destruct i; reflexivity|apply IH]. Qed.
Lemma nth_error_column lda na (a : list B) j i : nth_error (column lda na a j) i = if i <? na then nth_error a (j * lda + i) else None.
Proof. unfold column. rewrite nth_error_firstn, nth_error_skipn. reflexivity. Qed.

Context {A : Type} (wrong : A -> A -> bool) (n lda na : nat) (a0 : list B) (r1 : list A).
Context (room : na <= lda) (long : n * lda <= length a0).
(* x holds the keys, and a the columns, of the list of pairs l *)
Definition holdsc (s : list A * list B) (l : list (A * list B)) : Prop :=
  length l = n /\ fst s = map fst l ++ r1 /\ length (snd s) = length a0 /\
  (forall j p, nth_error l j = Some p -> column lda na (snd s) j = snd p) /\
  (forall p, (forall j, j < n -> p < j * lda \/ j * lda + na <= p) -> nth_error (snd s) p = nth_error a0 p).
Lemma holdsc_test s l j k u v : holdsc s l -> j < k < n -> nth_error l j = Some u -> nth_error l k = Some v ->
  (u <- rdZ (fst s) (Z.of_nat j) ;; v <- rdZ (fst s) (Z.of_nat k) ;; Ok (wrong u v)) = Ok (wrong (fst u) (fst v)).
Proof.
  intros (H1 & H2 & _) Hjk Hu Hv. rewrite H2, (read_key fst l r1 j u), (read_key fst l r1 k v); auto; lia.
Qed.
Lemma holdsc_swap s l j k : holdsc s l -> j < k < n ->
  exists s', (x <- exchange (fst s) (Z.of_nat j) (Z.of_nat k) ;;
              b <- dswap na (snd s) (Z.of_nat j * Z.of_nat lda) (Z.of_nat k * Z.of_nat lda) ;; Ok (x, b)) = Ok s' /\
    holdsc s' (swapl j k l).
Proof.
  intros (H1 & H2 & H3 & H4 & H5) Hjk. rewrite H2.
  rewrite exchange_swapl by (rewrite app_length, map_length; lia). cbn [bind].
  rewrite <- !Nat2Z.inj_mul.
  assert (D : forall i i', i < i' -> i * lda + na <= i' * lda) by (intros i i' Hi; nia).
  assert (N : k * lda + na <= length (snd s)) by (rewrite H3; specialize (D k n ltac:(lia)); lia).
  destruct (dswap_nth na (snd s) (j * lda) (k * lda) (D j k ltac:(lia)) N) as (a' & E & L & F).
  rewrite E. cbn [bind]. eexists. split; [reflexivity|].
  split; [rewrite swapl_length; exact H1|]. split; [cbn [fst]; rewrite swapl_app by (rewrite map_length; lia); rewrite swapl_map; reflexivity|].
  cbn [snd]. split; [lia|]. split.
  - intros i p Hp. rewrite swapl_nth in Hp by lia.
    assert (Hi : i < n).
    { assert (Hx : (if i =? k then j else if i =? j then k else i) < length l) by (apply nth_error_Some; congruence).
      destruct (Nat.eqb_spec i k), (Nat.eqb_spec i j); lia. }
    rewrite <- (H4 _ _ Hp). apply list_eq_nth. intros q. rewrite !nth_error_column.
    destruct (Nat.ltb_spec q na) as [Hq|Hq]; [|reflexivity]. rewrite F. f_equal. unfold moved.
    destruct (Nat.eqb_spec i k) as [->|Hik]; [|destruct (Nat.eqb_spec i j) as [->|Hij]].
    + replace (k * lda <=? k * lda + q) with true by (symmetry; apply Nat.leb_le; lia).
      replace (k * lda + q <? k * lda + na) with true by (symmetry; apply Nat.ltb_lt; lia). cbn [andb]. lia.
    + pose proof (D j k ltac:(lia)).
      replace (k * lda <=? j * lda + q) with false by (symmetry; apply Nat.leb_gt; lia). cbn [andb].
      replace (j * lda <=? j * lda + q) with true by (symmetry; apply Nat.leb_le; lia).
      replace (j * lda + q <? j * lda + na) with true by (symmetry; apply Nat.ltb_lt; lia). cbn [andb]. lia.
    + assert (Ek : (k * lda <=? i * lda + q) && (i * lda + q <? k * lda + na) = false).
      { destruct (Nat.lt_ge_cases i k); [pose proof (D i k ltac:(lia))|pose proof (D k i ltac:(lia))];
        destruct (Nat.leb_spec (k * lda) (i * lda + q)), (Nat.ltb_spec (i * lda + q) (k * lda + na)); cbn; auto; lia. }
      assert (Ej : (j * lda <=? i * lda + q) && (i * lda + q <? j * lda + na) = false).
      { destruct (Nat.lt_ge_cases i j); [pose proof (D i j ltac:(lia))|pose proof (D j i ltac:(lia))];
        destruct (Nat.leb_spec (j * lda) (i * lda + q)), (Nat.ltb_spec (i * lda + q) (j * lda + na)); cbn; auto; lia. }
      rewrite Ek, Ej. reflexivity.
  - intros p Hp. rewrite F, <- (H5 p Hp). f_equal. unfold moved.
    pose proof (Hp j ltac:(lia)). pose proof (Hp k ltac:(lia)).
    destruct (Nat.leb_spec (k * lda) p), (Nat.ltb_spec p (k * lda + na)), (Nat.leb_spec (j * lda) p), (Nat.ltb_spec p (j * lda + na)); cbn; auto; lia.
Qed.
End Columns.

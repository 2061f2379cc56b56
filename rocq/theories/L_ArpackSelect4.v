(* Lemmas on the selection of eigenvalues: the marks and the reordering of the
   vectors *)
From Coq Require Import String List Reals Permutation Lia Lra ZArith.
From Verif Require Import Base M_Double S_Double M_DoubleReduce S_DoubleReduce M_ArpackSort S_ArpackSort L_ArpackSort L_ArpackOrder S_ArpackSelect M_ArpackSelect L_ArpackSelect L_ArpackSelect2 L_ArpackSelect3.
Import ListNotations.
Local Open Scope nat_scope.

Lemma firstn_succ {A} (l : list A) i x : nth_error l i = Some x -> firstn (S i) l = firstn i l ++ [x].
Proof. revert i. induction l as [|v l IH]; intros [|i] H; cbn in *; try discriminate; [injection H as ->; reflexivity|]. f_equal. apply IH, H. Qed.
Lemma nth_error_rev {A} (l : list A) i : i < length l -> nth_error (rev l) i = nth_error l (length l - 1 - i).
Proof.
  intros H. destruct l as [|d l']; [cbn in H; lia|]. set (l := d :: l') in *.
  rewrite (nth_error_nth' _ d) by (rewrite rev_length; exact H). rewrite (nth_error_nth' l d) by lia.
  rewrite rev_nth by exact H. f_equal. f_equal. lia.
Qed.
Lemma picks_of_nat p n z : (forall i, In i p -> i < n) -> picks p (map Z.of_nat (seq 0 n)) z -> z = map Z.of_nat p.
Proof.
  intros B H. induction H as [|i x p z H1 H IH]; [reflexivity|]. cbn. f_equal; [|apply IH; intros; apply B; right; assumption].
  rewrite nth_error_map in H1. specialize (B i (or_introl eq_refl)). rewrite (nth_error_nth' _ 0), seq_nth in H1 by (rewrite ?seq_length; exact B).
  cbn in H1. congruence.
Qed.
Lemma filter_rev {A} (f : A -> bool) l : filter f (rev l) = rev (filter f l).
Proof. induction l as [|x l IH]; [reflexivity|]. cbn. rewrite filter_app, IH. cbn. destruct (f x); cbn; [reflexivity|apply app_nil_r]. Qed.

Section Mark.
Context (tol eps23 : double) (ritz bounds irz : list double) (n nconv : nat) (p : list nat).
Context (Lr : length ritz = n) (Lb : length bounds = n) (Pp : Permutation p (seq 0 n)) (Pi : picks p ritz irz).
Let rdy := ready tol eps23 ritz bounds.
Lemma mark_selects : exists sel, mark tol eps23 (Z.of_nat n) (Z.of_nat nconv) irz bounds (map Z.of_nat p) =
    Ok (sel, Z.of_nat (length (firstn nconv (filter rdy (rev p)))), existsb (fun i => nconv <=? i) (firstn nconv (filter rdy (rev p)))) /\
  length sel = n /\ (forall i, i < n -> nth_error sel i = Some (existsb (Nat.eqb i) (firstn nconv (filter rdy (rev p))))).
Proof.
  assert (Lp : length p = n) by (rewrite (Permutation_length Pp), seq_length; reflexivity).
  assert (Li : length irz = n) by (rewrite <- (picks_length _ _ _ Pi); exact Lp).
  unfold mark. rewrite Nat2Z.id.
  set (S k := firstn nconv (filter rdy (firstn k (rev p)))).
  match goal with |- context [for_ _ ?B ?s0] => assert (Q : exists s, for_ n B s0 = Ok s /\ exists sel, s = (sel, Z.of_nat (length (S n)), existsb (fun i => nconv <=? i) (S n)) /\
    length sel = n /\ (forall i, i < n -> nth_error sel i = Some (existsb (Nat.eqb i) (S n)))) end.
  { apply (for_inv (fun k s => exists sel, s = (sel, Z.of_nat (length (S k)), existsb (fun i => nconv <=? i) (S k)) /\
      length sel = n /\ (forall i, i < n -> nth_error sel i = Some (existsb (Nat.eqb i) (S k))))).
    - exists (repeat false n). unfold S. cbn [firstn filter]. rewrite firstn_nil. split; [reflexivity|]. split; [apply repeat_length|].
      intros i Hi. cbn. rewrite (nth_error_nth' _ false) by (rewrite repeat_length; exact Hi). rewrite nth_repeat. reflexivity.
    - intros k s Hk (sel & -> & Ls & Hs).
      replace (Z.of_nat n - 1 - Z.of_nat k)%Z with (Z.of_nat (n - 1 - k)) by lia.
      destruct (nth_error_lt irz (n - 1 - k)) as [r Hr]; [lia|]. destruct (nth_error_lt p (n - 1 - k)) as [j Hj]; [lia|].
      rewrite (rdZ_nat _ _ _ Hr). cbn [bind]. rewrite (rdZ_nat (map Z.of_nat p) (n - 1 - k) (Z.of_nat j)) by (rewrite nth_error_map, Hj; reflexivity). cbn [bind].
      assert (Hjn : j < n). { apply nth_error_In in Hj. rewrite Pp in Hj. apply in_seq in Hj. lia. }
      destruct (nth_error_lt bounds j) as [b Hb]; [lia|].
      assert (Ej : nth_error (rev p) k = Some j) by (rewrite nth_error_rev by lia; rewrite Lp; exact Hj).
      assert (Er : rdy j = small tol eps23 r b) by (unfold rdy, ready; rewrite (picks_nth _ _ _ _ _ _ Pi Hj Hr), Hb; reflexivity).
      assert (ES : S (k + 1) = firstn nconv (filter rdy (firstn k (rev p)) ++ if rdy j then [j] else [])).
      { unfold S. rewrite Nat.add_1_r, (firstn_succ _ _ _ Ej), filter_app. reflexivity. }
      rewrite Nat.add_1_r in ES. rewrite firstn_app in ES. fold (S k) in ES.
      destruct (Z.ltb_spec (Z.of_nat (length (S k))) (Z.of_nat nconv)) as [Hc|Hc].
      + assert (Lf : length (filter rdy (firstn k (rev p))) < nconv) by (unfold S in Hc; rewrite firstn_length in Hc; lia).
        rewrite (rdZ_nat _ _ _ Hb). cbn [bind]. rewrite <- Er. destruct (rdy j) eqn:Erj.
        * rewrite wrZ_nat by lia. cbn [bind].
          assert (E1 : firstn (nconv - length (filter rdy (firstn k (rev p)))) [j] = [j]) by (destruct (nconv - length (filter rdy (firstn k (rev p)))) eqn:E0; [lia|cbn; rewrite firstn_nil; reflexivity]).
          rewrite E1 in ES. eexists. split; [reflexivity|]. eexists. rewrite ES. split; [|split].
          -- rewrite app_length, existsb_app. cbn [List.length existsb]. rewrite Bool.orb_false_r. f_equal; [f_equal; lia|]. f_equal.
             destruct (Z.ltb_spec (Z.of_nat nconv) (Z.of_nat j + 1)), (Nat.leb_spec nconv j); auto; lia.
          -- rewrite length_upd. exact Ls.
          -- intros i Hi. rewrite nth_error_upd, Ls, existsb_app, (Hs i Hi). cbn [existsb].
             replace (j <? n) with true by lia. rewrite Bool.orb_false_r. replace (i <? n) with true by lia.
             destruct (Nat.eqb_spec i j); cbn [andb]; [rewrite Bool.orb_true_r|rewrite Bool.orb_false_r]; reflexivity.
        * rewrite firstn_nil, app_nil_r in ES. eexists. split; [reflexivity|]. exists sel. rewrite ES. auto.
      + assert (Lf : nconv <= length (filter rdy (firstn k (rev p)))) by (unfold S in Hc; rewrite firstn_length in Hc; lia).
        replace (nconv - length (filter rdy (firstn k (rev p)))) with 0 in ES by lia. cbn [firstn] in ES. rewrite app_nil_r in ES.
        eexists. split; [reflexivity|]. exists sel. rewrite ES. auto. }
  destruct Q as (s & E & sel & -> & Q). exists sel.
  assert (EN : S n = firstn nconv (filter rdy (rev p))) by (unfold S; rewrite (firstn_all2 (n := n)) by (rewrite rev_length; lia); reflexivity).
  rewrite <- EN. split; [exact E|exact Q].
Qed.
Lemma mark_wanted u w : p = u ++ w -> nconv = length (filter rdy w) -> firstn nconv (filter rdy (rev p)) = rev (filter rdy w).
Proof.
  intros -> ->. rewrite rev_app_distr, filter_app, (filter_rev _ w). apply firstn_prefix. apply rev_length.
Qed.
End Mark.

Section Partition.
Context {B : Type} (n : nat) (select : list bool) (q0 : list B) (l0 : list (double * list B)).
Context (L0 : length l0 = n) (Ls : length select = n) (Lq : length q0 = n * n).
Let sel i := match nth_error select i with Some b => b | None => false end.
Definition halfway (l r : nat) (s : list double * list B) (a : list nat) : Prop :=
  Permutation a (seq 0 n) /\ (exists c, picks a l0 c /\ holdsc n n n q0 [] s c) /\
  (forall i, l <= i -> i < r -> nth_error a i = Some i) /\
  (forall i j, i < l -> nth_error a i = Some j -> sel j = true) /\ (forall i j, r <= i -> nth_error a i = Some j -> sel j = false).

Lemma picks_swapl {A} j k p (l x : list A) : j < length p -> k < length p -> picks p l x -> picks (swapl j k p) l (swapl j k x).
Proof.
  intros Hj Hk H. pose proof (picks_length _ _ _ H) as L.
  assert (G : forall (p : list nat) (x : list A), length p = length x -> (forall c i v, nth_error p c = Some i -> nth_error x c = Some v -> nth_error l i = Some v) -> picks p l x).
  { clear. induction p as [|i p IH]; intros [|v x] L H; cbn in L; try discriminate; constructor; [apply (H 0); reflexivity|].
    apply IH; [lia|]. intros c. apply (H (S c)). }
  apply G; [rewrite !swapl_length; exact L|]. intros c i v Hi Hv. rewrite swapl_nth in Hi by lia. rewrite swapl_nth in Hv by lia. eapply picks_nth; eassumption.
Qed.

Lemma front_filter a m : (forall i j, i < m -> nth_error a i = Some j -> sel j = true) -> (forall i j, m <= i -> nth_error a i = Some j -> sel j = false) ->
  filter sel a = firstn m a.
Proof.
  revert m. induction a as [|x a IH]; intros m H1 H2; [destruct m; reflexivity|]. cbn [filter]. destruct m as [|m].
  - rewrite (H2 0 x ltac:(lia) eq_refl). rewrite (IH 0); [destruct a; reflexivity|lia|]. intros i j Hi. apply (H2 (S i)). lia.
  - rewrite (H1 0 x ltac:(lia) eq_refl). cbn [firstn]. f_equal. apply IH; [intros i j Hi; apply (H1 (S i)); lia|intros i j Hi; apply (H2 (S i)); lia].
Qed.

Lemma partition_splits fuel : forall l r s a, r < l + fuel -> l < r -> r < n -> halfway l (S r) s a ->
  exists s' a' m, partition fuel select (Z.of_nat n) (Z.of_nat l) (Z.of_nat r) (fst s) (snd s) = Ok s' /\ halfway m m s' a'.
Proof.
  induction fuel as [|fuel IH]; intros l r s a Hf Hlr Hrn Hh; [lia|]. cbn [partition].
  destruct Hh as (Pa & (c & Pc & Hc) & H1 & H2 & H3).
  assert (La : length a = n) by (rewrite (Permutation_length Pa), seq_length; reflexivity).
  destruct (nth_error_lt select l) as [sl Hsl]; [lia|]. destruct (nth_error_lt select r) as [sr Hsr]; [lia|].
  rewrite (rdZ_nat _ _ _ Hsl). cbn [bind].
  assert (El : sel l = sl) by (unfold sel; rewrite Hsl; reflexivity). assert (Er : sel r = sr) by (unfold sel; rewrite Hsr; reflexivity).
  (* the end of a step *)
  assert (Fin : forall l' r1 s' a', l' <= r1 -> r1 <= n -> (l' < r1 -> r1 - 1 < l' + fuel) -> halfway l' r1 s' a' ->
    exists s'' a'' m, (if (Z.of_nat l' <? Z.of_nat r1 - 1)%Z then partition fuel select (Z.of_nat n) (Z.of_nat l') (Z.of_nat r1 - 1) (fst s') (snd s') else Ok s') = Ok s'' /\ halfway m m s'' a'').
  { intros l' r1 s' a' Hle Hr1 Hff Hh'. destruct (Z.ltb_spec (Z.of_nat l') (Z.of_nat r1 - 1)) as [Hlt|Hge].
    - replace (Z.of_nat r1 - 1)%Z with (Z.of_nat (r1 - 1)) by lia. apply (IH l' (r1 - 1) s' a'); try lia. replace (S (r1 - 1)) with r1 by lia. exact Hh'.
    - assert (D : l' = r1 \/ S l' = r1) by lia. destruct D as [<-|<-]; [exists s', a', l'; auto|].
      destruct Hh' as (Pa' & Hc' & K1 & K2 & K3). destruct (sel l') eqn:E.
      + exists s', a', (S l'). split; [reflexivity|]. split; [exact Pa'|]. split; [exact Hc'|]. split; [intros; lia|]. split; [|exact K3].
        intros i j Hi Hj. destruct (Nat.eq_dec i l') as [->|]; [|apply (K2 i j); [lia|exact Hj]]. rewrite (K1 l') in Hj by lia. congruence.
      + exists s', a', l'. split; [reflexivity|]. split; [exact Pa'|]. split; [exact Hc'|]. split; [intros; lia|]. split; [exact K2|].
        intros i j Hi Hj. destruct (Nat.eq_dec i l') as [->|]; [|apply (K3 i j); [lia|exact Hj]]. rewrite (K1 l') in Hj by lia. congruence. }
  destruct sl.
  - cbn [bind fst snd]. replace (Z.of_nat l + 1)%Z with (Z.of_nat (S l)) by lia. replace (Z.of_nat r) with (Z.of_nat (S r) - 1)%Z by lia.
    rewrite <- surjective_pairing. apply (Fin (S l) (S r) s a); try lia. split; [exact Pa|]. split; [exists c; auto|]. split; [intros; apply H1; lia|]. split; [|exact H3].
    intros i j Hi Hj. destruct (Nat.eq_dec i l) as [->|]; [|apply (H2 i j); [lia|exact Hj]]. rewrite (H1 l) in Hj by lia. congruence.
  - rewrite (rdZ_nat _ _ _ Hsr). cbn [bind]. destruct sr; cbn [negb].
    + destruct (holdsc_swap n n n q0 [] ltac:(lia) ltac:(lia) s c l r Hc ltac:(lia)) as (s' & E & Hc').
      destruct (exchange (fst s) (Z.of_nat l) (Z.of_nat r)) as [x| | |]; cbn [bind] in E |- *; try discriminate.
      rewrite Nat2Z.id. rewrite (Z.mul_comm (Z.of_nat n) (Z.of_nat l)), (Z.mul_comm (Z.of_nat n) (Z.of_nat r)).
      destruct (dswap n (snd s) (Z.of_nat l * Z.of_nat n) (Z.of_nat r * Z.of_nat n)) as [y| | |]; cbn [bind] in E |- *; try discriminate.
      injection E as <-. cbn [fst snd]. replace (Z.of_nat l + 1)%Z with (Z.of_nat (S l)) by lia.
      apply (Fin (S l) r (x, y) (swapl l r a)); try lia.
      split; [rewrite <- (swapl_perm l r a) by lia; exact Pa|]. split; [exists (swapl l r c); split; [apply picks_swapl; try lia; exact Pc|exact Hc']|].
      split; [intros i Hi1 Hi2; rewrite swapl_nth by lia; replace (i =? r) with false by lia; replace (i =? l) with false by lia; apply H1; lia|].
      split; intros i j Hi Hj; rewrite swapl_nth in Hj by lia.
      * replace (i =? r) with false in Hj by lia. destruct (Nat.eqb_spec i l) as [->|]; [rewrite (H1 r) in Hj by lia; congruence|apply (H2 i j); [lia|exact Hj]].
      * destruct (Nat.eqb_spec i r) as [->|]; [rewrite (H1 l) in Hj by lia; congruence|]. replace (i =? l) with false in Hj by lia. apply (H3 i j); [lia|exact Hj].
    + cbn [bind fst snd]. rewrite <- (surjective_pairing s). apply (Fin l r s a); try lia. split; [exact Pa|]. split; [exists c; auto|]. split; [intros; apply H1; lia|]. split; [exact H2|].
      intros i j Hi Hj. destruct (Nat.eq_dec i r) as [->|]; [|apply (H3 i j); [lia|exact Hj]]. rewrite (H1 r) in Hj by lia. congruence.
Qed.
End Partition.

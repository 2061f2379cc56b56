(* Lemmas on the selection of eigenvalues: which places are chosen *)
From Coq Require Import String List Reals Permutation Lia Lra ZArith.
From Verif Require Import Base M_Double S_Double M_DoubleReduce S_DoubleReduce M_ArpackSort S_ArpackSort L_ArpackSort L_ArpackOrder S_ArpackSelect M_ArpackSelect L_ArpackSelect.
Import ListNotations.
Local Open Scope nat_scope.

Lemma NoDup_tail {A} (U W : list A) : NoDup (U ++ W) -> NoDup W.
Proof. induction U; cbn; intros H; [exact H|]. inversion H; auto. Qed.
Lemma quot_of_nat a b : 0 < b -> Z.quot (Z.of_nat a) (Z.of_nat b) = Z.of_nat (a / b).
Proof. intros H. rewrite Z.quot_div_nonneg by lia. rewrite <- Nat2Z.inj_div. reflexivity. Qed.
Lemma seq_choice n k p : Permutation p (seq 0 n) -> forall W U, Permutation p (U ++ W) -> length W = k -> choice n k W.
Proof.
  intros H W U HW L. assert (N : NoDup (U ++ W)). { eapply Permutation_NoDup; [exact HW|]. eapply Permutation_NoDup; [symmetry; exact H|apply seq_NoDup]. }
  split; [|split; [|exact L]].
  - apply NoDup_tail in N. exact N.
  - intros i Hi. assert (I : In i p) by (rewrite HW; apply in_or_app; right; exact Hi). rewrite H in I. apply in_seq in I. lia.
Qed.
(* a place of l is one of p; in which half *)
Lemma place_of n p k i : Permutation p (seq 0 n) -> i < n -> (In i (firstn k p) /\ ~ In i (skipn k p)) \/ (In i (skipn k p) /\ ~ In i (firstn k p)).
Proof.
  intros H Hi. assert (I : In i p) by (rewrite H; apply in_seq; lia).
  assert (N : NoDup (firstn k p ++ skipn k p)) by (rewrite firstn_skipn; eapply Permutation_NoDup; [symmetry; exact H|apply seq_NoDup]).
  rewrite <- (firstn_skipn k p) in I. apply in_app_or in I.
  assert (D : In i (firstn k p) -> In i (skipn k p) -> False).
  { revert N. generalize (firstn k p) (skipn k p). clear. intros a b. induction a as [|x a IH]; cbn; intros N Ha Hb; [exact Ha|].
    inversion N; subst. destruct Ha as [->|Ha]; [apply H1, in_or_app; right; exact Hb|auto]. }
  destruct I; [left|right]; split; auto.
Qed.
Lemma In_firstn {A} k (l : list A) x : In x (firstn k l) -> exists a, a < k /\ nth_error l a = Some x.
Proof. intros H. apply In_nth_error in H. destruct H as [a Ha]. rewrite nth_error_firstn in Ha. destruct (Nat.ltb_spec a k); [|discriminate]. eauto. Qed.
Lemma In_skipn {A} k (l : list A) x : In x (skipn k l) -> exists a, k <= a /\ nth_error l a = Some x.
Proof. intros H. apply In_nth_error in H. destruct H as [a Ha]. rewrite nth_error_skipn in Ha. exists (k + a). split; [lia|exact Ha]. Qed.
Lemma picks_at {A} p (l y : list A) a i x : picks p l y -> nth_error p a = Some i -> nth_error l i = Some x -> nth_error y a = Some x.
Proof. intros H. revert a. induction H; intros [|a] H1 H2; cbn in *; try discriminate; [congruence|eauto]. Qed.

Section Halves.
Context {A : Type} (f : A -> R) (l y : list A) (p : list nat).
Context (Pp : Permutation p (seq 0 (length l))) (Py : picks p l y) (O : increasing f (length l) y).
Lemma low_high k i j x z : In i (firstn k p) -> In j (skipn k p) -> nth_error l i = Some x -> nth_error l j = Some z -> (f x <= f z)%R.
Proof.
  intros Hi Hj Hx Hz. destruct (In_firstn _ _ _ Hi) as (a & La & Ha). destruct (In_skipn _ _ _ Hj) as (b & Lb & Hb).
  assert (Hb' : b < length l) by (rewrite <- (seq_length (length l) 0), <- (Permutation_length Pp); apply nth_error_Some; congruence).
  apply (O a b x z); [lia| |]; eapply picks_at; eassumption.
Qed.
Lemma last_wished k : k <= length l -> most_wished f (length l - k) l (skipn k p).
Proof.
  intros Hk. split.
  - apply (seq_choice _ _ p Pp _ (firstn k p)); [rewrite firstn_skipn; reflexivity|]. rewrite skipn_length, (Permutation_length Pp), seq_length. reflexivity.
  - intros i j x z Hi Hj Hx Hz. assert (L : i < length l) by (apply nth_error_Some; congruence).
    destruct (place_of _ p k i Pp L) as [[H _]|[H _]]; [|contradiction]. eapply low_high; eassumption.
Qed.
Lemma first_wished k : k <= length l -> most_wished (fun x => - f x)%R k l (firstn k p).
Proof.
  intros Hk. split.
  - apply (seq_choice _ _ p Pp _ (skipn k p)); [rewrite Permutation_app_comm, firstn_skipn; reflexivity|]. rewrite firstn_length, (Permutation_length Pp), seq_length. lia.
  - intros i j x z Hi Hj Hx Hz. assert (L : i < length l) by (apply nth_error_Some; congruence).
    destruct (place_of _ p k i Pp L) as [[H _]|[H _]]; [contradiction|]. apply Ropp_le_contravar. eapply low_high; eassumption.
Qed.
End Halves.

Lemma dsortr_places fuel w n (x1 : list double) : known_code w -> length x1 = n -> 3 * n + 2 < fuel -> Forall is_number x1 ->
  exists p, Permutation p (seq 0 n) /\ exists y1, picks p x1 y1 /\ increasing (wish w) n y1 /\
    forall B (x2 : list B), length x2 = n ->
      exists y2, picks p x2 y2 /\ dsortr fuel w true (Z.of_nat n) x1 x2 = Ok (y1, y2).
Proof.
  intros Hw L Hf G. destruct (wrong_wish w Hw) as (wrong & E & W). unfold dsortr. rewrite E.
  destruct (sort_places_order wrong (wish w) is_number W fuel n x1 ltac:(lia) Hf) as (p & Pp & y1 & P1 & O & H).
  { rewrite firstn_all2 by lia. exact G. }
  exists p. split; [exact Pp|]. exists y1. split; [exact P1|]. split; [exact O|].
  intros B x2 L2. destruct (H B x2 ltac:(lia)) as (y2 & P2 & E2). exists y2. split; [exact P2|]. rewrite E2.
  rewrite !skipn_all2, !app_nil_r by lia. reflexivity.
Qed.

Lemma skipn_skipn {A} a b (l : list A) : skipn a (skipn b l) = skipn (a + b) l.
Proof. apply list_eq_nth. intros i. rewrite !nth_error_skipn. f_equal. lia. Qed.
Lemma blocks4 {A} (l : list A) a b c : a + b + c <= length l ->
  l = firstn a l ++ firstn b (skipn a l) ++ firstn c (skipn (a + b) l) ++ skipn (a + b + c) l /\
  length (firstn a l) = a /\ length (firstn b (skipn a l)) = b /\ length (firstn c (skipn (a + b) l)) = c.
Proof.
  intros H. split.
  - rewrite <- (firstn_skipn a l) at 1. f_equal. rewrite <- (firstn_skipn b (skipn a l)) at 1. f_equal.
    rewrite skipn_skipn. rewrite (Nat.add_comm b a). rewrite <- (firstn_skipn c (skipn (a + b) l)) at 1. f_equal.
    rewrite skipn_skipn. f_equal. lia.
  - rewrite !firstn_length, !skipn_length. lia.
Qed.

Lemma arrange_places fuel which kev np (ritz : list double) : real_code which -> length ritz = kev + np -> 3 * (kev + np) + 2 < fuel -> Forall is_number ritz ->
  exists p y, Permutation p (seq 0 (kev + np)) /\ picks p ritz y /\ wanted which kev ritz (skipn np p) /\
    forall B (x : list B), length x = kev + np ->
      exists z, picks p x z /\ arrange fuel which (Z.of_nat kev) (Z.of_nat np) ritz x = Ok (y, z).
Proof.
  intros Hw L Hf G. unfold arrange, wanted. rewrite <- Nat2Z.inj_add. destruct (String.eqb_spec which "BE") as [->|Hne].
  - destruct (dsortr_places fuel "LA" (kev + np) ritz ltac:(cbn; auto) L Hf G) as (p & Pp & y & Py & O & H).
    assert (Os : increasing spot (length ritz) y) by (rewrite L; exact O).
    assert (Pl : Permutation p (seq 0 (length ritz))) by (rewrite L; exact Pp).
    assert (Lp : length p = kev + np) by (rewrite (Permutation_length Pp), seq_length; reflexivity).
    set (h := kev / 2). assert (Hh : 2 * h <= kev) by (unfold h; pose proof (Nat.div_mod_eq kev 2); lia).
    set (a := Nat.min h np). set (b := Nat.max h np - a).
    destruct (blocks4 p a b a) as (Ep & La & Lb & Lc); [lia|].
    set (pa := firstn a p) in *. set (pb := firstn b (skipn a p)) in *. set (pc := firstn a (skipn (a + b) p)) in *. set (pd := skipn (a + b + a) p) in *.
    destruct (blocks4 y a b a) as (Ey & Lya & Lyb & Lyc); [rewrite <- (picks_length _ _ _ Py); lia|].
    set (ya := firstn a y) in *. set (yb := firstn b (skipn a y)) in *. set (yc := firstn a (skipn (a + b) y)) in *. set (yd := skipn (a + b + a) y) in *.
    assert (Qy : picks (pc ++ pb ++ pa ++ pd) ritz (yc ++ yb ++ ya ++ yd)).
    { repeat apply picks_app; [apply picks_firstn, picks_skipn; exact Py|apply picks_firstn, picks_skipn; exact Py|apply picks_firstn; exact Py|apply picks_skipn; exact Py]. }
    assert (Pe : Permutation (pc ++ pb ++ pa ++ pd) p).
    { rewrite Ep at 1. rewrite !app_assoc. apply Permutation_app_tail. rewrite (Permutation_app_comm (pc ++ pb) pa), <- !app_assoc. apply Permutation_app_head, Permutation_app_comm. }
    exists (pc ++ pb ++ pa ++ pd), (yc ++ yb ++ ya ++ yd).
    split; [rewrite Pe; exact Pp|]. split; [exact Qy|].
    assert (Low : firstn h p = firstn h (pa ++ pb) /\ skipn (h + np) p = pd).
    { split.
      - rewrite Ep. rewrite app_assoc. rewrite firstn_app. replace (h - length (pa ++ pb)) with 0 by (rewrite app_length; lia). rewrite firstn_O, app_nil_r. reflexivity.
      - unfold pd. f_equal. lia. }
    destruct Low as [Low High].
    split.
    + assert (Sk : Permutation (skipn np (pc ++ pb ++ pa ++ pd)) (firstn h p ++ skipn (h + np) p)).
      { rewrite Low, High. destruct (Nat.le_gt_cases h np) as [Hc|Hc].
        - rewrite app_assoc, skipn_prefix by (rewrite app_length; lia).
          rewrite firstn_app. replace (h - length pa) with 0 by lia. rewrite firstn_O, app_nil_r, firstn_all2 by lia. reflexivity.
        - rewrite skipn_prefix by lia. rewrite firstn_all2 by (rewrite app_length; lia). rewrite !app_assoc. apply Permutation_app_tail, Permutation_app_comm. }
      split.
      * rewrite L. apply (seq_choice _ _ p Pp _ (firstn np (pc ++ pb ++ pa ++ pd))); [rewrite firstn_skipn; symmetry; exact Pe|].
        rewrite skipn_length, (Permutation_length Pe), Lp. lia.
      * exists (firstn h p), (skipn (h + np) p). split; [exact Sk|]. split; [rewrite firstn_length; lia|]. split.
        -- intros i j x z Hi Hj Hx Hz. assert (Lj : j < length ritz) by (apply nth_error_Some; congruence).
           destruct (place_of _ p h j Pl Lj) as [[Q _]|[Q _]]; [contradiction|].
           exact (low_high spot ritz y p Pl Py Os h i j x z Hi Q Hx Hz).
        -- intros i j x z Hi Hj Hx Hz. assert (Li : i < length ritz) by (apply nth_error_Some; congruence).
           destruct (place_of _ p (h + np) i Pl Li) as [[Q _]|[Q _]]; [|contradiction].
           exact (low_high spot ritz y p Pl Py Os (h + np) i j x z Q Hj Hx Hz).
    + intros B x Lx. destruct (H B x Lx) as (z & Pz & E). rewrite E. cbn [bind].
      destruct (blocks4 z a b a) as (Ez & Lza & Lzb & Lzc); [rewrite <- (picks_length _ _ _ Pz); lia|].
      exists (firstn a (skipn (a + b) z) ++ firstn b (skipn a z) ++ firstn a z ++ skipn (a + b + a) z).
      split. { repeat apply picks_app; [apply picks_firstn, picks_skipn; exact Pz|apply picks_firstn, picks_skipn; exact Pz|apply picks_firstn; exact Pz|apply picks_skipn; exact Pz]. }
      change 2%Z with (Z.of_nat 2). rewrite (quot_of_nat kev 2) by lia. fold h.
      destruct (Z.ltb_spec 1 (Z.of_nat kev)) as [Hk|Hk].
      * rewrite <- Nat2Z.inj_min, <- Nat2Z.inj_max, Nat2Z.id. fold a.
        replace (Nat.max h np) with (0 + a + b) by lia.
        pose proof (dswap_blocks [] ya yb yc yd ltac:(lia)) as D1. cbn [List.app List.length] in D1. rewrite Lya, Lyb in D1. rewrite <- Ey in D1. change 0%Z with (Z.of_nat 0). rewrite D1. cbn [bind].
        pose proof (dswap_blocks [] (firstn a z) (firstn b (skipn a z)) (firstn a (skipn (a + b) z)) (skipn (a + b + a) z) ltac:(lia)) as D2.
        cbn [List.app List.length] in D2. rewrite Lza, Lzb in D2. rewrite <- Ez in D2. rewrite D2. reflexivity.
      * assert (Ha : a = 0) by (unfold a, h; destruct kev as [|[|]]; cbn; lia).
        assert (T : forall T (t : list T), firstn a (skipn (a + b) t) ++ firstn b (skipn a t) ++ firstn a t ++ skipn (a + b + a) t = t).
        { intros T t. rewrite Ha. cbn [firstn List.app Nat.add skipn]. rewrite Nat.add_0_r. apply firstn_skipn. }
        unfold yc, yb, ya, yd. rewrite !T. reflexivity.
  - destruct Hw as [Hw|Hw]; [|contradiction].
    destruct (dsortr_places fuel which (kev + np) ritz Hw L Hf G) as (p & Pp & y & Py & O & H).
    exists p, y. split; [exact Pp|]. split; [exact Py|]. split; [|exact H].
    replace kev with (length ritz - np) by lia. apply (last_wished (wish which) ritz y p); [rewrite L; exact Pp|exact Py|rewrite L; exact O|lia].
Qed.

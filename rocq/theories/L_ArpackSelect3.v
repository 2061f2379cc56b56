(* Lemmas on the selection of eigenvalues: the end of an iteration *)
From Coq Require Import String List Reals Permutation Lia Lra ZArith.
From Verif Require Import Base M_Double S_Double M_DoubleReduce S_DoubleReduce M_ArpackSort S_ArpackSort L_ArpackSort L_ArpackOrder S_ArpackSelect M_ArpackSelect L_ArpackSelect L_ArpackSelect2.
Import ListNotations.
Local Open Scope nat_scope.

Lemma rdZ_nat {A} (l : list A) i x : nth_error l i = Some x -> rdZ l (Z.of_nat i) = Ok x.
Proof. intros H. unfold rdZ. replace (Z.of_nat i <? 0)%Z with false by lia. rewrite Nat2Z.id. apply rd_ok. exact H. Qed.
Lemma wrZ_nat {A} (l : list A) i x : i < length l -> wrZ l (Z.of_nat i) x = Ok (upd l i x).
Proof. intros H. unfold wrZ, wr. replace (Z.of_nat i <? 0)%Z with false by lia. rewrite Nat2Z.id. replace (i <? length l) with true by lia. reflexivity. Qed.
Lemma dcopy_ok {A} n (x y : list A) : n <= length x -> n <= length y -> dcopy (Z.of_nat n) x y = Ok (firstn n x ++ skipn n y).
Proof.
  intros Hx Hy. unfold dcopy. rewrite Nat2Z.id.
  assert (Q : exists z, for_ n (fun i y => v <- rdZ x (Z.of_nat i) ;; wrZ y (Z.of_nat i) v) y = Ok z /\ z = firstn n x ++ skipn n y).
  { apply (for_inv (fun k z => z = firstn k x ++ skipn k y)); [reflexivity|]. intros i z Hi ->.
    destruct (nth_error_lt x i) as [v Hv]; [lia|]. rewrite (rdZ_nat x i v Hv). cbn [bind].
    rewrite wrZ_nat by (rewrite app_length, firstn_length, skipn_length; lia). eexists. split; [reflexivity|].
    apply list_eq_nth. intros k. rewrite nth_error_upd, app_length, firstn_length, skipn_length.
    destruct (Nat.eqb_spec k i) as [->|Hne]; cbn [andb].
    - replace (i <? Nat.min i (length x) + (length y - i)) with true by lia.
      rewrite nth_error_app1 by (rewrite firstn_length; lia). rewrite nth_error_firstn. replace (i <? S i) with true by lia. symmetry. exact Hv.
    - destruct (Nat.lt_ge_cases k i) as [Hk|Hk].
      + rewrite !nth_error_app1 by (rewrite firstn_length; lia). rewrite !nth_error_firstn. replace (k <? i) with true by lia. replace (k <? S i) with true by lia. reflexivity.
      + rewrite !nth_error_app2 by (rewrite firstn_length; lia). rewrite !nth_error_skipn, !firstn_length. f_equal. lia. }
  destruct Q as (z & E & ->). exact E.
Qed.

(* the choice of dsgets: the first places in another order *)
Lemma dsgets_places fuel ishift which kev np (ritz bounds shifts : list double) p y z :
  length ritz = kev + np -> length bounds = kev + np -> np <= length shifts -> 3 * (kev + np) + 2 < fuel ->
  Forall is_number bounds -> Permutation p (seq 0 (kev + np)) -> picks p ritz y -> picks p bounds z ->
  arrange fuel which (Z.of_nat kev) (Z.of_nat np) ritz bounds = Ok (y, z) ->
  exists u y' z' s', Permutation u (firstn np p) /\ picks (u ++ skipn np p) ritz y' /\ picks (u ++ skipn np p) bounds z' /\
    dsgets fuel ishift which (Z.of_nat kev) (Z.of_nat np) ritz bounds shifts = Ok (y', z', s') /\
    (ishift = 1%Z -> increasing (wish "SM") np z' /\ s' = firstn np y' ++ skipn np shifts) /\ (ishift <> 1%Z -> s' = shifts /\ u = firstn np p).
Proof.
  intros Lr Lb Ls Hf Gb Pp Py Pz E. unfold dsgets. rewrite E. cbn [bind].
  assert (Lp : length p = kev + np) by (rewrite (Permutation_length Pp), seq_length; reflexivity).
  assert (Ly : length y = kev + np) by (rewrite <- (picks_length _ _ _ Py); exact Lp).
  assert (Lz : length z = kev + np) by (rewrite <- (picks_length _ _ _ Pz); exact Lp).
  destruct (Z.eqb_spec ishift 1) as [Hi|Hi]; [destruct (Z.ltb_spec 0 (Z.of_nat np)) as [Hn|Hn]|]; cbn [andb].
  2:{ exists (firstn np p), y, z, shifts. rewrite firstn_skipn. do 4 (split; [auto|]). split; [|split; auto].
    intros _. assert (np = 0) by lia. subst np. cbn. split; [intros i j ? ? Hij; lia|reflexivity]. }
  2:{ exists (firstn np p), y, z, shifts. rewrite firstn_skipn. do 4 (split; [auto|]). split; [intros; contradiction|auto]. }
  assert (Gz : Forall is_number (firstn np z)).
  { rewrite Forall_forall in *. intros x Hx. apply Gb. apply In_firstn in Hx. destruct Hx as (a & _ & Ha). apply nth_error_In in Ha.
    destruct (picks_in _ _ _ _ Pz Ha) as (i & _ & Hq). apply nth_error_In in Hq. exact Hq. }
  destruct (wrong_wish "SM" ltac:(cbn; auto)) as (wrong & Ew & W).
  destruct (sort_places_order wrong (wish "SM") is_number W fuel np z ltac:(lia) ltac:(lia) Gz) as (q & Pq & z1 & Q1 & O & H).
  destruct (H _ y ltac:(lia)) as (y1 & Q2 & E2). unfold dsortr. rewrite Ew, E2. cbn [bind].
  assert (Lq : length q = np) by (rewrite (Permutation_length Pq), seq_length; reflexivity).
  assert (Ly1 : length y1 = np) by (rewrite <- (picks_length _ _ _ Q2); exact Lq).
  assert (Lz1 : length z1 = np) by (rewrite <- (picks_length _ _ _ Q1); exact Lq).
  rewrite dcopy_ok by (rewrite ?app_length, ?skipn_length; lia). cbn [bind].
  assert (Hq : forall i, In i q -> i < np) by (intros i Hin; rewrite Pq in Hin; apply in_seq in Hin; lia).
  destruct (picks_exists q (firstn np p)) as (u & Qu); [intros i Hin; rewrite firstn_length; specialize (Hq i Hin); lia|].
  assert (Qu' : picks q p u).
  { clear -Qu. induction Qu as [|i x q u H H' IH]; constructor; auto. rewrite nth_error_firstn in H. destruct (i <? np); [exact H|discriminate]. }
  exists u, (y1 ++ skipn np y), (z1 ++ skipn np z), (firstn np (y1 ++ skipn np y) ++ skipn np shifts).
  split; [apply (picks_perm q); [rewrite firstn_length, Lp; replace (Nat.min np (kev + np)) with np by lia; exact Pq|exact Qu]|].
  split; [apply picks_app; [eapply picks_trans; eassumption|apply picks_skipn; exact Py]|].
  split; [apply picks_app; [eapply picks_trans; eassumption|apply picks_skipn; exact Pz]|].
  split; [reflexivity|]. split; [|contradiction]. intros _. split; [|reflexivity].
  intros i j a b Hij Ha Hb. rewrite nth_error_app1 in Ha, Hb by lia. eapply O; eassumption.
Qed.

Section Test.
Context (tol eps23 : double) (ritz bounds : list double).
(* the value at a place passes the test *)
Definition ready (j : nat) : bool :=
  match nth_error ritz j, nth_error bounds j with Some r, Some b => small tol eps23 r b | _, _ => false end.
Lemma dsconv_counts u w y z : picks (u ++ w) ritz y -> picks (u ++ w) bounds z ->
  dsconv tol eps23 (Z.of_nat (length u)) (Z.of_nat (length w)) y z = Ok (Z.of_nat (length (filter ready w))).
Proof.
  intros Py Pz. unfold dsconv. rewrite Nat2Z.id.
  assert (Ly : length y = length u + length w) by (rewrite <- (picks_length _ _ _ Py), app_length; reflexivity).
  assert (Lz : length z = length u + length w) by (rewrite <- (picks_length _ _ _ Pz), app_length; reflexivity).
  match goal with |- for_ _ ?B _ = _ => assert (Q : exists c, for_ (length w) B 0%Z = Ok c /\ c = Z.of_nat (length (filter ready (firstn (length w) w)))) end.
  { apply (for_inv (fun k c => c = Z.of_nat (length (filter ready (firstn k w))))); [reflexivity|]. intros i c Hi ->.
    destruct (nth_error_lt y (length u + i)) as [r Hr]; [lia|]. destruct (nth_error_lt z (length u + i)) as [b Hb]; [lia|].
    destruct (nth_error_lt w i) as [j Hj]; [lia|].
    rewrite <- Nat2Z.inj_add, (rdZ_nat y _ r Hr), (rdZ_nat z _ b Hb). cbn [bind].
    assert (Hp : nth_error (u ++ w) (length u + i) = Some j) by (rewrite nth_error_app2 by lia; replace (length u + i - length u) with i by lia; exact Hj).
    assert (Er : ready j = small tol eps23 r b) by (unfold ready; rewrite (picks_nth _ _ _ _ _ _ Py Hp Hr), (picks_nth _ _ _ _ _ _ Pz Hp Hb); reflexivity).
    eexists. split; [reflexivity|].
    assert (Es : firstn (S i) w = firstn i w ++ [j]).
    { clear -Hj. revert i Hj. induction w as [|v w IH]; intros [|i] H; cbn in *; try discriminate; [injection H as ->; reflexivity|]. f_equal. apply IH, H. }
    rewrite Es, filter_app, app_length. cbn [filter]. rewrite Er. destruct (small tol eps23 r b); cbn [List.length]; lia. }
  destruct Q as (c & -> & ->). rewrite firstn_all. reflexivity.
Qed.
End Test.

Lemma zero_counts np nev bounds : np <= length bounds ->
  exists c, c <= np /\ zero_estimates (Z.of_nat np) nev bounds = Ok (Z.of_nat np - Z.of_nat c, nev + Z.of_nat c)%Z /\
    c = length (filter (fun b => deq b (dofZ 0)) (firstn np bounds)).
Proof.
  intros L. unfold zero_estimates. rewrite Nat2Z.id.
  match goal with |- context [for_ _ ?B ?s0] => assert (Q : exists s, for_ np B s0 = Ok s /\ let c := length (filter (fun b => deq b (dofZ 0)) (firstn np bounds)) in c <= np /\ s = (Z.of_nat np - Z.of_nat c, nev + Z.of_nat c)%Z) end.
  { apply (for_inv (fun k s => let c := length (filter (fun b => deq b (dofZ 0)) (firstn k bounds)) in c <= k /\ s = (Z.of_nat np - Z.of_nat c, nev + Z.of_nat c)%Z)).
    - cbn. split; [lia|f_equal; lia].
    - intros i s Hi (Hc & ->). destruct (nth_error_lt bounds i) as [b Hb]; [lia|]. rewrite (rdZ_nat _ _ _ Hb). cbn [bind].
      eexists. split; [reflexivity|].
      assert (Es : firstn (S i) bounds = firstn i bounds ++ [b]).
      { clear -Hb. revert i Hb. induction bounds as [|v w IH]; intros [|i] H; cbn in *; try discriminate; [injection H as ->; reflexivity|]. f_equal. apply IH, H. }
      cbn zeta. rewrite Es, filter_app, app_length. cbn [filter fst snd]. destruct (deq b (dofZ 0)); cbn [List.length]; split; try lia; f_equal; lia. }
  destruct Q as (s & E & Hc & ->). eexists. split; [exact Hc|]. split; [exact E|reflexivity].
Qed.

Lemma rescale_ok op eps23 n ritz bounds : n <= length ritz -> n <= length bounds ->
  exists b, rescale op eps23 (Z.of_nat n) ritz bounds = Ok b /\ length b = length bounds.
Proof.
  intros H1 H2. unfold rescale. rewrite Nat2Z.id. apply (for_inv (fun _ b => length b = length bounds)); [reflexivity|].
  intros i b Hi L. destruct (nth_error_lt ritz i) as [r Hr]; [lia|]. destruct (nth_error_lt b i) as [v Hv]; [lia|].
  rewrite (rdZ_nat _ _ _ Hr), (rdZ_nat _ _ _ Hv). cbn [bind]. rewrite wrZ_nat by lia. eexists. split; [reflexivity|]. rewrite length_upd. exact L.
Qed.

(* the same when it is not known whether the elements are numbers *)
Lemma sort_places_order_if {A} wrong (f : A -> R) (good : A -> Prop) (W : forall x y, good x -> good y -> wrong x y = Flocq.Core.Raux.Rlt_bool (f y) (f x))
  fuel n (x1 : list A) : n <= length x1 -> 3 * n + 2 < fuel ->
  exists p, Permutation p (seq 0 n) /\ exists y1, picks p x1 y1 /\ (Forall good (firstn n x1) -> increasing f n y1) /\
    forall B (x2 : list B), length x2 = length x1 ->
      exists y2, picks p x2 y2 /\ sort_arrays wrong true fuel (Z.of_nat n) x1 x2 = Ok (y1 ++ skipn n x1, y2 ++ skipn n x2).
Proof.
  intros Hn Hf. destruct (sort_places wrong fuel n x1 Hn Hf) as (p & Pp & y1 & P1 & H).
  exists p. split; [exact Pp|]. exists y1. split; [exact P1|]. split; [|exact H]. intros G.
  destruct (sort_places_order wrong f good W fuel n x1 Hn Hf G) as (p' & Pp' & y1' & P1' & O & H').
  destruct (H _ x1 eq_refl) as (y2 & _ & E). destruct (H' _ x1 eq_refl) as (y2' & _ & E'). rewrite E in E'. injection E' as E1 _.
  apply app_inv_tail in E1. rewrite E1. exact O.
Qed.

(* the least ones come first *)
Lemma front_least {A} (f : A -> R) (g : nat -> A) n c (K : list A) (W V : list nat) : length W = n -> c <= n ->
  (forall k i, nth_error W k = Some i -> nth_error K k = Some (g i)) -> increasing f n K -> Permutation V (firstn c W) ->
  forall i j, In i V -> In j W -> ~ In j V -> (f (g i) <= f (g j))%R.
Proof.
  intros L Hc HK O PV i j Hi Hj Hn. rewrite PV in Hi, Hn. apply In_firstn in Hi. destruct Hi as (a & Ha & Ea).
  apply In_nth_error in Hj. destruct Hj as [b Eb]. assert (Hb : b < n) by (rewrite <- L; apply nth_error_Some; congruence).
  assert (c <= b). { destruct (Nat.lt_ge_cases b c) as [Hlt|]; [|assumption]. exfalso. apply Hn. apply (nth_error_In _ b). rewrite nth_error_firstn.
    replace (b <? c) with true by lia. exact Eb. }
  apply (O a b); [lia|apply HK; exact Ea|apply HK; exact Eb].
Qed.

Lemma rescale_spec op eps23 n ritz bounds : n <= length ritz -> n <= length bounds ->
  exists b, rescale op eps23 (Z.of_nat n) ritz bounds = Ok b /\ length b = length bounds /\
    forall i r v, i < n -> nth_error ritz i = Some r -> nth_error bounds i = Some v -> nth_error b i = Some (op v (dmax eps23 (dabs r))).
Proof.
  intros H1 H2. unfold rescale. rewrite Nat2Z.id.
  match goal with |- context [for_ _ ?B ?s0] => assert (Q : exists b, for_ n B s0 = Ok b /\ length b = length bounds /\
    forall i r v, nth_error ritz i = Some r -> nth_error bounds i = Some v -> nth_error b i = Some (if i <? n then op v (dmax eps23 (dabs r)) else v)) end.
  { apply (for_inv (fun k b => length b = length bounds /\
      forall i r v, nth_error ritz i = Some r -> nth_error bounds i = Some v -> nth_error b i = Some (if i <? k then op v (dmax eps23 (dabs r)) else v))).
    - split; [reflexivity|]. intros i r v _ Hv. exact Hv.
    - intros i b Hi (L & N). destruct (nth_error_lt ritz i) as [r Hr]; [lia|]. destruct (nth_error_lt bounds i) as [v Hv]; [lia|].
      pose proof (N i r v Hr Hv) as Hb. replace (i <? i) with false in Hb by lia.
      rewrite (rdZ_nat _ _ _ Hr), (rdZ_nat _ _ _ Hb). cbn [bind]. rewrite wrZ_nat by lia. eexists. split; [reflexivity|]. split; [rewrite length_upd; exact L|].
      intros j r' v' Hr' Hv'. destruct (Nat.eq_dec j i) as [->|Hne].
      + rewrite nth_error_upd_eq by lia. replace (i <? S i) with true by lia. congruence.
      + rewrite nth_error_upd_ne by exact Hne. rewrite (N j r' v' Hr' Hv'). replace (j <? S i) with (j <? i) by lia. reflexivity. }
  destruct Q as (b & E & L & N). exists b. split; [exact E|]. split; [exact L|]. intros i r v Hi Hr Hv. rewrite (N i r v Hr Hv). replace (i <? n) with true by lia. reflexivity.
Qed.

Lemma opposite_known w : known_code w -> known_code (opposite w) /\ (forall x, wish (opposite w) x = - wish w x)%R /\ String.eqb w "BE" = false.
Proof.
  intros H. destruct (code_cases w H) as [-> | [-> | [-> | ->]]]; cbn; (split; [auto 6|]); (split; [|reflexivity]); intros x; unfold wish; cbn; lra.
Qed.

(* The values that are left in front: they are the wanted ones *)
Lemma exit_places fuel which eps23 nev0 np0 nev np nconv (l bl ritz bounds : list double) p : known_code which ->
  length l = nev0 + np0 -> Permutation p (seq 0 (nev0 + np0)) -> picks p l ritz -> picks p bl bounds ->
  3 * (nev0 + np0) + 2 < fuel -> nconv <= nev0 -> Forall is_number l ->
  exists W V r b, most_wished (wish which) nev0 l W /\ choice (length l) nconv V /\ incl V W /\ ((forall i x e, nth_error l i = Some x -> nth_error bl i = Some e -> is_number (relative eps23 (dabs x) e)) ->
     forall i j x e x' e', In i V -> In j W -> ~ In j V -> nth_error l i = Some x -> nth_error bl i = Some e -> nth_error l j = Some x' -> nth_error bl j = Some e' ->
       (spot (relative eps23 (dabs x) e) <= spot (relative eps23 (dabs x') e'))%R) /\ picks V l (firstn nconv r) /\ increasing (wish which) nconv r /\
    saup2_exit fuel which eps23 (Z.of_nat nev0) nev np (Z.of_nat nev0 + Z.of_nat np0) (Z.of_nat nconv) ritz bounds = Ok (r, b) /\ length r = nev0 + np0.
Proof.
  intros Hw Ll Pp Pr Pb Hf Hc G. unfold saup2_exit.
  assert (Lb : length bounds = nev0 + np0) by (rewrite <- (picks_length _ _ _ Pb), (Permutation_length Pp), seq_length; reflexivity). destruct (opposite_known which Hw) as (Ho & Hn & ->).
  rewrite <- Nat2Z.inj_add.
  assert (Lr : length ritz = nev0 + np0) by (rewrite <- (picks_length _ _ _ Pr), (Permutation_length Pp), seq_length; reflexivity).
  assert (Gr : Forall is_number ritz).
  { rewrite Forall_forall in *. intros x Hx. destruct (picks_in _ _ _ _ Pr Hx) as (i & _ & Hi). apply G. apply nth_error_In in Hi. exact Hi. }
  destruct (dsortr_places fuel (opposite which) (nev0 + np0) ritz Ho Lr Hf Gr) as (q & Pq & y & Py & O & H).
  destruct (H _ bounds Lb) as (z & Pz & E). rewrite E. cbn [bind].
  assert (Lq : length q = nev0 + np0) by (rewrite (Permutation_length Pq), seq_length; reflexivity).
  assert (Ly : length y = nev0 + np0) by (rewrite <- (picks_length _ _ _ Py); exact Lq).
  assert (Lz : length z = nev0 + np0) by (rewrite <- (picks_length _ _ _ Pz); exact Lq).
  assert (Lp : length p = nev0 + np0) by (rewrite (Permutation_length Pp), seq_length; reflexivity).
  (* the places in l *)
  destruct (picks_exists q p) as (p1 & Q1); [intros i Hi; rewrite Pq in Hi; apply in_seq in Hi; lia|].
  assert (P1 : Permutation p1 (seq 0 (nev0 + np0))). { rewrite <- Pp. apply (picks_perm q); [rewrite Lp; exact Pq|exact Q1]. }
  assert (Y1 : picks p1 l y) by (eapply picks_trans; eassumption).
  assert (Z1 : picks p1 bl z) by (eapply picks_trans; eassumption).
  destruct (rescale_spec ddiv eps23 nev0 y z ltac:(lia) ltac:(lia)) as (z1 & E1 & L1 & S1). rewrite E1. cbn [bind].
  destruct (wrong_wish "LA" ltac:(cbn; auto)) as (wrong & Ew & WLA).
  destruct (sort_places_order_if wrong _ _ WLA fuel nev0 z1 ltac:(lia) ltac:(lia)) as (q2 & Pq2 & z2 & R2 & O2 & H2).
  destruct (H2 _ y ltac:(lia)) as (y2 & Q2 & E2). unfold dsortr at 1. rewrite Ew, E2. cbn [bind].
  assert (Lq2 : length q2 = nev0) by (rewrite (Permutation_length Pq2), seq_length; reflexivity).
  assert (Ly2 : length y2 = nev0) by (rewrite <- (picks_length _ _ _ Q2); exact Lq2).
  destruct (picks_exists q2 (firstn nev0 p1)) as (W & QW).
  { intros i Hi. rewrite Pq2 in Hi. apply in_seq in Hi. rewrite firstn_length, (Permutation_length P1), seq_length. lia. }
  assert (QW' : picks q2 p1 W).
  { clear -QW. induction QW as [|i x a b H H' IH]; constructor; auto. rewrite nth_error_firstn in H. destruct (i <? nev0); [exact H|discriminate]. }
  assert (PW : Permutation W (firstn nev0 p1)). { apply (picks_perm q2); [|exact QW]. rewrite firstn_length, (Permutation_length P1), seq_length. replace (Nat.min nev0 (nev0 + np0)) with nev0 by lia. exact Pq2. }
  assert (YW : picks W l y2) by (eapply picks_trans; eassumption).
  assert (MW0 : most_wished (wish which) nev0 l (firstn nev0 p1)).
  { pose proof (first_wished (wish (opposite which)) l y p1 ltac:(rewrite Ll; exact P1) Y1 ltac:(rewrite Ll; exact O) nev0 ltac:(lia)) as [M1 M2].
    split; [exact M1|]. intros i j x v Hi Hj Hx Hv. specialize (M2 i j x v Hi Hj Hx Hv). cbv beta in M2. rewrite !Hn, !Ropp_involutive in M2. exact M2. }
  assert (MW : most_wished (wish which) nev0 l W).
  { destruct MW0 as [(N & B & L) M]. split; [split; [|split]|].
    - eapply Permutation_NoDup; [symmetry; exact PW|exact N].
    - intros i Hi. rewrite PW in Hi. apply B, Hi.
    - rewrite (Permutation_length PW). exact L.
    - intros i j x v Hi Hj. rewrite PW in Hi, Hj. apply M; assumption. }
  assert (L2 : length (z2 ++ skipn nev0 z1) = nev0 + np0).
  { destruct (H2 _ z1 eq_refl) as (z3 & _ & E3). destruct (sort_arrays_rearranges wrong nev0 fuel z1 z1 ltac:(lia) ltac:(lia) ltac:(lia)) as (a1 & a2 & E4 & _ & L4 & _).
    rewrite E3 in E4. injection E4 as <- <-. lia. }
  destruct (rescale_ok dmul eps23 nev0 (y2 ++ skipn nev0 y) (z2 ++ skipn nev0 z1) ltac:(rewrite app_length; lia) ltac:(lia)) as (z4 & E4 & L4). rewrite E4. cbn [bind].
  destruct (wrong_wish which Hw) as (wr & Ewr & Wr). unfold dsortr. rewrite Ewr.
  assert (Lr2 : length (y2 ++ skipn nev0 y) = nev0 + np0) by (rewrite app_length, skipn_length; lia).
  assert (Gr2 : Forall is_number (firstn nconv (y2 ++ skipn nev0 y))).
  { rewrite Forall_forall in *. intros x Hx. rewrite firstn_app, Ly2 in Hx. replace (nconv - nev0) with 0 in Hx by lia. rewrite firstn_O, app_nil_r in Hx.
    apply In_firstn in Hx. destruct Hx as (a & _ & Ha). apply nth_error_In in Ha. destruct (picks_in _ _ _ _ YW Ha) as (i & _ & Hi). apply G. apply nth_error_In in Hi. exact Hi. }
  destruct (sort_places_order wr (wish which) is_number Wr fuel nconv (y2 ++ skipn nev0 y) ltac:(lia) ltac:(lia) Gr2) as (q3 & Pq3 & y3 & Q3 & O3 & H3).
  destruct (H3 _ z4 ltac:(lia)) as (z5 & _ & E5). rewrite E5.
  assert (Lq3 : length q3 = nconv) by (rewrite (Permutation_length Pq3), seq_length; reflexivity).
  assert (Ly3 : length y3 = nconv) by (rewrite <- (picks_length _ _ _ Q3); exact Lq3).
  assert (LW : length W = nev0) by (rewrite (Permutation_length PW), firstn_length, (Permutation_length P1), seq_length; lia).
  destruct (picks_exists q3 W) as (V & QV); [intros i Hi; rewrite Pq3 in Hi; apply in_seq in Hi; lia|].
  assert (Q3' : picks q3 y2 y3).
  { assert (B3 : forall i, In i q3 -> i < nconv) by (intros i Hi; rewrite Pq3 in Hi; apply in_seq in Hi; lia).
    clear -Q3 B3 Ly2 Hc. induction Q3 as [|i x a b H H' IH]; constructor; [|apply IH; intros; apply B3; right; assumption].
    rewrite nth_error_app1 in H by (specialize (B3 i (or_introl eq_refl)); lia). exact H. }
  assert (QVl : picks V l y3) by (eapply picks_trans; eassumption).
  (* V is the first nconv places of W, in another order *)
  assert (QVf : picks q3 (firstn nconv W) V).
  { assert (B3 : forall i, In i q3 -> i < nconv) by (intros i Hi; rewrite Pq3 in Hi; apply in_seq in Hi; lia).
    clear -QV B3. induction QV as [|i x a b H H' IH]; constructor; [|apply IH; intros; apply B3; right; assumption].
    rewrite nth_error_firstn. specialize (B3 i (or_introl eq_refl)). replace (i <? nconv) with true by lia. exact H. }
  assert (PV : Permutation V (firstn nconv W)). { apply (picks_perm q3); [|exact QVf]. rewrite firstn_length, LW. replace (Nat.min nconv nev0) with nconv by lia. exact Pq3. }
  assert (IV : incl V W). { intros i Hi. rewrite PV in Hi. apply In_firstn in Hi. destruct Hi as (a & _ & Ha). apply nth_error_In in Ha. exact Ha. }
  assert (Least : (forall i x e, nth_error l i = Some x -> nth_error bl i = Some e -> is_number (relative eps23 (dabs x) e)) ->
    forall i j x e x' e', In i V -> In j W -> ~ In j V -> nth_error l i = Some x -> nth_error bl i = Some e -> nth_error l j = Some x' -> nth_error bl j = Some e' ->
      (spot (relative eps23 (dabs x) e) <= spot (relative eps23 (dabs x') e'))%R).
  { intros Gd i j x e x' e' Hi Hj Hn' Hx He Hx' He'.
    set (g := fun i => relative eps23 (dabs (nth i l x)) (nth i bl e)).
    assert (Zg : forall k a, nth_error p1 k = Some a -> k < nev0 -> nth_error z1 k = Some (g a) /\ is_number (g a)).
    { intros k a Hk Hlt. assert (Ha : a < nev0 + np0) by (apply nth_error_In in Hk; rewrite P1 in Hk; apply in_seq in Hk; lia).
      destruct (nth_error_lt y k) as [u Hu]; [lia|]. destruct (nth_error_lt z k) as [v Hv]; [lia|].
      pose proof (picks_nth _ _ _ _ _ _ Y1 Hk Hu) as Lu. pose proof (picks_nth _ _ _ _ _ _ Z1 Hk Hv) as Lv.
      rewrite (S1 k u v Hlt Hu Hv). unfold g. rewrite (nth_error_nth _ _ _ Lu), (nth_error_nth _ _ _ Lv). split; [reflexivity|]. exact (Gd a u v Lu Lv). }
    assert (Gz : Forall is_number (firstn nev0 z1)).
    { rewrite Forall_forall. intros w Hw'. apply In_firstn in Hw'. destruct Hw' as (k & Hk & Ek). destruct (nth_error_lt p1 k) as [a Ha]; [rewrite (Permutation_length P1), seq_length; lia|].
      destruct (Zg k a Ha Hk) as (Z2 & Z3). rewrite Ek in Z2. injection Z2 as ->. exact Z3. }
    specialize (O2 Gz).
    pose proof (front_least spot g nev0 nconv z2 W V LW Hc) as FL.
    pose proof (FL ltac:(intros k a Hk; pose proof (picks_length _ _ _ QW') as Ll'; destruct (nth_error_lt q2 k) as [c Ec]; [rewrite Ll'; apply nth_error_Some; congruence|];
      pose proof (picks_nth _ _ _ _ _ _ QW' Ec Hk) as Pc; destruct (nth_error_lt z2 k) as [w Ew']; [rewrite <- (picks_length _ _ _ R2); apply nth_error_Some; congruence|];
      pose proof (picks_nth _ _ _ _ _ _ R2 Ec Ew') as Pw; rewrite Ew'; destruct (Zg c a Pc) as [Z2 _];
      [apply nth_error_In in Ec; rewrite Pq2 in Ec; apply in_seq in Ec; lia|congruence]) O2 PV i j Hi Hj Hn') as R.
    unfold g in R.
    rewrite (nth_error_nth _ _ _ Hx), (nth_error_nth _ _ _ He), (nth_error_nth _ _ _ Hx'), (nth_error_nth _ _ _ He') in R. exact R. }
  assert (F3 : firstn nconv (y3 ++ skipn nconv (y2 ++ skipn nev0 y)) = y3) by (apply firstn_prefix; exact Ly3).
  exists W, V, (y3 ++ skipn nconv (y2 ++ skipn nev0 y)), (z5 ++ skipn nconv z4).
  split; [exact MW|]. split; [|split; [exact IV|]].
  - destruct MW as [(N & B & _) _]. split; [|split].
    + eapply Permutation_NoDup; [symmetry; exact PV|]. clear -N. revert nconv. induction N; intros [|k]; cbn; constructor; auto.
      intros Hin. apply H. apply In_firstn in Hin. destruct Hin as (a & _ & Ha). apply nth_error_In in Ha. exact Ha.
    + intros i Hi. apply B, IV, Hi.
    + rewrite (Permutation_length PV), firstn_length, LW. lia.
  - rewrite F3. split; [exact Least|]. split; [exact QVl|]. split; [|split; [reflexivity|rewrite app_length, skipn_length; lia]].
    intros i j a b Hij Ha Hb. rewrite nth_error_app1 in Ha, Hb by lia. eapply O3; eassumption.
Qed.

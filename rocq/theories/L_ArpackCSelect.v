(* Lemmas on the selection of complex eigenvalues: sorting and counting *)
From Coq Require Import String List Reals Permutation Lia Lra ZArith.
From Verif Require Import Base M_Double S_Double M_DoubleReduce S_DoubleReduce M_ArpackSort S_ArpackSort L_ArpackSort L_ArpackOrder S_ArpackSelect M_ArpackSelect
  L_ArpackSelect L_ArpackSelect2 L_ArpackSelect3 L_ArpackSelect4 L_ArpackSelect5 L_ArpackSelect6 S_ArpackCSelect M_ArpackCSelect.
Import ListNotations.
Local Open Scope nat_scope.

Section Lapy2.
Context (lapy2 : double -> double -> double).
Notation good := (cnumbers lapy2).

Lemma csmall_passes tol eps23 r b : csmall lapy2 tol eps23 r b = true <-> passes tol eps23 (lapy2 (fst r) (snd r)) (lapy2 (fst b) (snd b)).
Proof. unfold csmall, modulus, passes, dmax, dle. destruct (@Flocq.IEEE754.BinarySingleNaN.Bleb 53 1024 (lapy2 (fst r) (snd r)) eps23); reflexivity. Qed.

Lemma picks_all {A} (P : A -> Prop) p (l y : list A) : picks p l y -> Forall P l -> Forall P y.
Proof.
  intros H G. rewrite Forall_forall in *. intros x Hx. destruct (picks_in _ _ _ _ H Hx) as (i & _ & Hi). apply nth_error_In in Hi. auto.
Qed.
Lemma Forall_front {A} (P : A -> Prop) n l : Forall P l -> Forall P (firstn n l).
Proof. intros G. rewrite Forall_forall in *. intros x Hx. apply In_firstn in Hx. destruct Hx as (a & _ & Ha). apply nth_error_In in Ha. auto. Qed.

Lemma zsortc_places fuel w n (x1 : list (double * double)) : known_ccode w -> length x1 = n -> 3 * n + 2 < fuel -> Forall good x1 ->
  exists p, Permutation p (seq 0 n) /\ exists y1, picks p x1 y1 /\ increasing (cwish lapy2 w) n y1 /\
    forall B (x2 : list B), length x2 = n ->
      exists y2, picks p x2 y2 /\ zsortc lapy2 fuel w true (Z.of_nat n) x1 x2 = Ok (y1, y2).
Proof.
  intros Hw L Hf G. destruct (wrong_cwish lapy2 w Hw) as (wrong & E & W). unfold zsortc. rewrite E.
  destruct (sort_places_order wrong (cwish lapy2 w) good W fuel n x1 ltac:(lia) Hf) as (p & Pp & y1 & P1 & O & H).
  { rewrite firstn_all2 by lia. exact G. }
  exists p. split; [exact Pp|]. exists y1. split; [exact P1|]. split; [exact O|].
  intros B x2 L2. destruct (H B x2 ltac:(lia)) as (y2 & P2 & E2). exists y2. split; [exact P2|]. rewrite E2.
  rewrite !skipn_all2, !app_nil_r by lia. reflexivity.
Qed.

(* everything there is to know of zngets *)
Lemma zngets_spec fuel ishift which kev np (ritz bounds : list (double * double)) :
  known_ccode which -> length ritz = kev + np -> length bounds = kev + np -> 3 * (kev + np) + 2 < fuel ->
  Forall good ritz -> Forall good bounds ->
  exists p0 p y z, zngets lapy2 fuel ishift which (Z.of_nat kev) (Z.of_nat np) ritz bounds = Ok (y, z) /\
    Permutation p (seq 0 (kev + np)) /\ picks p ritz y /\ picks p bounds z /\ most_wished (cwish lapy2 which) kev ritz (skipn np p) /\
    (ishift = 1%Z -> increasing (cwish lapy2 "SM") np z) /\
    skipn np p0 = skipn np p /\ Permutation p0 (seq 0 (kev + np)) /\
    (exists y0, picks p0 ritz y0 /\ forall C (x : list C), length x = kev + np -> exists z, picks p0 x z /\ zsortc lapy2 fuel which true (Z.of_nat kev + Z.of_nat np) ritz x = Ok (y0, z)) /\
    (forall k, k <= kev -> most_wished (cwish lapy2 which) k ritz (skipn (kev + np - k) p0)).
Proof.
  intros Hw Lr Lb Hf Gr Gb. unfold zngets. rewrite <- Nat2Z.inj_add.
  destruct (zsortc_places fuel which (kev + np) ritz Hw Lr Hf Gr) as (p0 & P0 & y0 & Py0 & O & H).
  assert (M : forall k, k <= kev -> most_wished (cwish lapy2 which) k ritz (skipn (kev + np - k) p0)).
  { intros k Hkk. pose proof (last_wished (cwish lapy2 which) ritz y0 p0 ltac:(rewrite Lr; exact P0) Py0 ltac:(rewrite Lr; exact O) (kev + np - k) ltac:(lia)) as M.
    rewrite Lr in M. replace (kev + np - (kev + np - k)) with k in M by lia. exact M. }
  assert (M0 : most_wished (cwish lapy2 which) kev ritz (skipn np p0)) by (specialize (M kev ltac:(lia)); replace (kev + np - kev) with np in M by lia; exact M).
  destruct (H _ bounds Lb) as (z0 & Pz0 & E0). rewrite E0. cbn [bind].
  assert (Lp : length p0 = kev + np) by (rewrite (Permutation_length P0), seq_length; reflexivity).
  assert (Ly : length y0 = kev + np) by (rewrite <- (picks_length _ _ _ Py0); exact Lp).
  assert (Lz : length z0 = kev + np) by (rewrite <- (picks_length _ _ _ Pz0); exact Lp).
  destruct (Z.eqb_spec ishift 1) as [Hi|Hi].
  2:{ exists p0, p0, y0, z0. split; [reflexivity|]. do 4 (split; [assumption|]). split; [contradiction|]. split; [reflexivity|]. split; [exact P0|]. split; [exists y0; auto|exact M]. }
  destruct (wrong_cwish lapy2 "SM" ltac:(cbn; auto)) as (wrong & Ew & W).
  destruct (sort_places_order wrong (cwish lapy2 "SM") good W fuel np z0 ltac:(lia) ltac:(lia) (Forall_front _ _ _ (picks_all _ _ _ _ Pz0 Gb))) as (q & Pq & z1 & Q1 & O1 & H1).
  destruct (H1 _ y0 ltac:(lia)) as (y1 & Q2 & E2). unfold zsortc at 1. rewrite Ew, E2. cbn [bind].
  assert (Lq : length q = np) by (rewrite (Permutation_length Pq), seq_length; reflexivity).
  assert (Ly1 : length y1 = np) by (rewrite <- (picks_length _ _ _ Q2); exact Lq).
  assert (Lz1 : length z1 = np) by (rewrite <- (picks_length _ _ _ Q1); exact Lq).
  assert (Hq : forall i, In i q -> i < np) by (intros i Hin; rewrite Pq in Hin; apply in_seq in Hin; lia).
  destruct (picks_exists q (firstn np p0)) as (u & Qu); [intros i Hin; rewrite firstn_length; specialize (Hq i Hin); lia|].
  assert (Qu' : picks q p0 u).
  { clear -Qu. induction Qu as [|i x q u H H' IH]; constructor; auto. rewrite nth_error_firstn in H. destruct (i <? np); [exact H|discriminate]. }
  assert (Pu : Permutation u (firstn np p0)) by (apply (picks_perm q); [rewrite firstn_length, Lp; replace (Nat.min np (kev + np)) with np by lia; exact Pq|exact Qu]).
  assert (Lu : length u = np) by (rewrite (Permutation_length Pu), firstn_length; lia).
  assert (Es : skipn np (u ++ skipn np p0) = skipn np p0) by (apply skipn_prefix; exact Lu).
  exists p0, (u ++ skipn np p0), (y1 ++ skipn np y0), (z1 ++ skipn np z0). split; [reflexivity|].
  split; [rewrite Pu, firstn_skipn; exact P0|].
  split; [apply picks_app; [eapply picks_trans; eassumption|apply picks_skipn; exact Py0]|].
  split; [apply picks_app; [eapply picks_trans; eassumption|apply picks_skipn; exact Pz0]|].
  rewrite Es. split; [exact M0|]. split.
  { intros _ i j a b Hij Ha Hb. rewrite nth_error_app1 in Ha, Hb by lia. eapply O1; eassumption. }
  split; [reflexivity|]. split; [exact P0|]. split; [exists y0; auto|exact M].
Qed.

Section Test.
Context (tol eps23 : double) (ritz bounds : list (double * double)).
(* the value at a place passes the test *)
Definition cready (j : nat) : bool :=
  match nth_error ritz j, nth_error bounds j with Some r, Some b => csmall lapy2 tol eps23 r b | _, _ => false end.
Lemma cready_converged i : cready i = true <-> cconverged lapy2 tol eps23 ritz bounds i.
Proof.
  unfold cready, cconverged. destruct (nth_error ritz i) as [x|]; [|split; [discriminate|intros (? & ? & H & _); discriminate]].
  destruct (nth_error bounds i) as [b|]; [|split; [discriminate|intros (? & ? & _ & H & _); discriminate]].
  rewrite csmall_passes. split; [intros H; exists x, b; auto|]. intros (x' & b' & E1 & E2 & H). injection E1 as <-. injection E2 as <-. exact H.
Qed.
Lemma nconverged_counts u w y z : picks (u ++ w) ritz y -> picks (u ++ w) bounds z ->
  nconverged lapy2 tol eps23 (Z.of_nat (length u)) (Z.of_nat (length w)) y z = Ok (Z.of_nat (length (filter cready w))).
Proof.
  intros Py Pz. unfold nconverged. rewrite Nat2Z.id.
  assert (Ly : length y = length u + length w) by (rewrite <- (picks_length _ _ _ Py), app_length; reflexivity).
  assert (Lz : length z = length u + length w) by (rewrite <- (picks_length _ _ _ Pz), app_length; reflexivity).
  match goal with |- for_ _ ?B _ = _ => assert (Q : exists c, for_ (length w) B 0%Z = Ok c /\ c = Z.of_nat (length (filter cready (firstn (length w) w)))) end.
  { apply (for_inv (fun k c => c = Z.of_nat (length (filter cready (firstn k w))))); [reflexivity|]. intros i c Hi ->.
    destruct (nth_error_lt y (length u + i)) as [r Hr]; [lia|]. destruct (nth_error_lt z (length u + i)) as [b Hb]; [lia|].
    destruct (nth_error_lt w i) as [j Hj]; [lia|].
    rewrite <- Nat2Z.inj_add, (rdZ_nat y _ r Hr), (rdZ_nat z _ b Hb). cbn [bind].
    assert (Hp : nth_error (u ++ w) (length u + i) = Some j) by (rewrite nth_error_app2 by lia; replace (length u + i - length u) with i by lia; exact Hj).
    assert (Er : cready j = csmall lapy2 tol eps23 r b) by (unfold cready; rewrite (picks_nth _ _ _ _ _ _ Py Hp Hr), (picks_nth _ _ _ _ _ _ Pz Hp Hb); reflexivity).
    eexists. split; [reflexivity|].
    rewrite (firstn_succ _ _ _ Hj), filter_app, app_length. cbn [filter]. rewrite Er. destruct (csmall lapy2 tol eps23 r b); cbn [List.length]; lia. }
  destruct Q as (c & -> & ->). rewrite firstn_all. reflexivity.
Qed.
End Test.

Lemma czero_counts np nev bounds : np <= length bounds ->
  exists c, c <= np /\ czero_estimates (Z.of_nat np) nev bounds = Ok (Z.of_nat np - Z.of_nat c, nev + Z.of_nat c)%Z /\
    c = length (filter czero (firstn np bounds)).
Proof.
  intros L. unfold czero_estimates. rewrite Nat2Z.id.
  match goal with |- context [for_ _ ?B ?s0] => assert (Q : exists s, for_ np B s0 = Ok s /\ let c := length (filter czero (firstn np bounds)) in c <= np /\ s = (Z.of_nat np - Z.of_nat c, nev + Z.of_nat c)%Z) end.
  { apply (for_inv (fun k s => let c := length (filter czero (firstn k bounds)) in c <= k /\ s = (Z.of_nat np - Z.of_nat c, nev + Z.of_nat c)%Z)).
    - cbn. split; [lia|f_equal; lia].
    - intros i s Hi (Hc & ->). destruct (nth_error_lt bounds i) as [b Hb]; [lia|]. rewrite (rdZ_nat _ _ _ Hb). cbn [bind].
      eexists. split; [reflexivity|].
      cbn zeta. rewrite (firstn_succ _ _ _ Hb), filter_app, app_length. cbn [filter fst snd]. destruct (czero b); cbn [List.length]; split; try lia; f_equal; lia. }
  destruct Q as (s & E & Hc & ->). eexists. split; [exact Hc|]. split; [exact E|reflexivity].
Qed.

Lemma crescale_ok op eps23 n ritz bounds : n <= length ritz -> n <= length bounds ->
  exists b, crescale lapy2 op eps23 (Z.of_nat n) ritz bounds = Ok b /\ length b = length bounds.
Proof.
  intros H1 H2. unfold crescale. rewrite Nat2Z.id. apply (for_inv (fun _ b => length b = length bounds)); [reflexivity|].
  intros i b Hi L. destruct (nth_error_lt ritz i) as [r Hr]; [lia|]. destruct (nth_error_lt b i) as [v Hv]; [lia|].
  rewrite (rdZ_nat _ _ _ Hr), (rdZ_nat _ _ _ Hv). cbn [bind]. rewrite wrZ_nat by lia. eexists. split; [reflexivity|]. rewrite length_upd. exact L.
Qed.

Lemma crescale_spec op eps23 n ritz bounds : n <= length ritz -> n <= length bounds ->
  exists b, crescale lapy2 op eps23 (Z.of_nat n) ritz bounds = Ok b /\ length b = length bounds /\
    forall i r v, i < n -> nth_error ritz i = Some r -> nth_error bounds i = Some v -> nth_error b i = Some (op (dmax eps23 (lapy2 (fst r) (snd r))) (fst v), op (dmax eps23 (lapy2 (fst r) (snd r))) (snd v)).
Proof.
  intros H1 H2. unfold crescale. rewrite Nat2Z.id.
  match goal with |- context [for_ _ ?B ?s0] => assert (Q : exists b, for_ n B s0 = Ok b /\ length b = length bounds /\
    forall i r v, nth_error ritz i = Some r -> nth_error bounds i = Some v -> nth_error b i = Some (if i <? n then (op (dmax eps23 (lapy2 (fst r) (snd r))) (fst v), op (dmax eps23 (lapy2 (fst r) (snd r))) (snd v)) else v)) end.
  { apply (for_inv (fun k b => length b = length bounds /\
      forall i r v, nth_error ritz i = Some r -> nth_error bounds i = Some v -> nth_error b i = Some (if i <? k then (op (dmax eps23 (lapy2 (fst r) (snd r))) (fst v), op (dmax eps23 (lapy2 (fst r) (snd r))) (snd v)) else v))).
    - split; [reflexivity|]. intros i r v _ Hv. exact Hv.
    - intros i b Hi (L & N). destruct (nth_error_lt ritz i) as [r Hr]; [lia|]. destruct (nth_error_lt bounds i) as [v Hv]; [lia|].
      pose proof (N i r v Hr Hv) as Hb. replace (i <? i) with false in Hb by lia.
      rewrite (rdZ_nat _ _ _ Hr), (rdZ_nat _ _ _ Hb). cbn [bind]. rewrite wrZ_nat by lia. eexists. split; [reflexivity|]. split; [rewrite length_upd; exact L|].
      intros j r' v' Hr' Hv'. destruct (Nat.eq_dec j i) as [->|Hne].
      + rewrite nth_error_upd_eq by lia. replace (i <? S i) with true by lia. rewrite Hr in Hr'. rewrite Hv in Hv'. injection Hr' as <-. injection Hv' as <-. reflexivity.
      + rewrite nth_error_upd_ne by exact Hne. rewrite (N j r' v' Hr' Hv'). replace (j <? S i) with (j <? i) by lia. reflexivity. }
  destruct Q as (b & E & L & N). exists b. split; [exact E|]. split; [exact L|]. intros i r v Hi Hr Hv. rewrite (N i r v Hr Hv). replace (i <? n) with true by lia. reflexivity.
Qed.

Lemma copposite_known w : known_ccode w -> known_ccode (copposite w) /\ (forall x, cwish lapy2 (copposite w) x = - cwish lapy2 w x)%R.
Proof.
  intros H. destruct (code_cases_c w H) as [-> | [-> | [-> | [-> | [-> | ->]]]]]; cbn; (split; [auto 10|]); intros x; unfold cwish; cbn; lra.
Qed.

(* The values that are left in front: they are the wanted ones *)
Lemma cexit_places fuel which eps23 nev0 np0 nconv (l bl ritz bounds : list (double * double)) p : known_ccode which ->
  length l = nev0 + np0 -> Permutation p (seq 0 (nev0 + np0)) -> picks p l ritz -> picks p bl bounds ->
  3 * (nev0 + np0) + 2 < fuel -> nconv <= nev0 -> Forall good l ->
  exists W V r b, most_wished (cwish lapy2 which) nev0 l W /\ choice (length l) nconv V /\ incl V W /\ ((forall i x e, nth_error l i = Some x -> nth_error bl i = Some e -> good (crelative lapy2 eps23 x e)) ->
     forall i j x e x' e', In i V -> In j W -> ~ In j V -> nth_error l i = Some x -> nth_error bl i = Some e -> nth_error l j = Some x' -> nth_error bl j = Some e' ->
       (cwish lapy2 "LM" (crelative lapy2 eps23 x e) <= cwish lapy2 "LM" (crelative lapy2 eps23 x' e'))%R) /\ picks V l (firstn nconv r) /\ increasing (cwish lapy2 which) nconv r /\
    naup2_exit lapy2 fuel which eps23 (Z.of_nat nev0) (Z.of_nat nev0 + Z.of_nat np0) (Z.of_nat nconv) ritz bounds = Ok (r, b) /\ length r = nev0 + np0.
Proof.
  intros Hw Ll Pp Pr Pb Hf Hc G. unfold naup2_exit.
  assert (Lb : length bounds = nev0 + np0) by (rewrite <- (picks_length _ _ _ Pb), (Permutation_length Pp), seq_length; reflexivity). destruct (copposite_known which Hw) as (Ho & Hn).
  rewrite <- Nat2Z.inj_add.
  assert (Lr : length ritz = nev0 + np0) by (rewrite <- (picks_length _ _ _ Pr), (Permutation_length Pp), seq_length; reflexivity).
  assert (Gr : Forall good ritz) by exact (picks_all _ _ _ _ Pr G).
  destruct (zsortc_places fuel (copposite which) (nev0 + np0) ritz Ho Lr Hf Gr) as (q & Pq & y & Py & O & H).
  destruct (H _ bounds Lb) as (z & Pz & E). rewrite E. cbn [bind].
  assert (Lq : length q = nev0 + np0) by (rewrite (Permutation_length Pq), seq_length; reflexivity).
  assert (Ly : length y = nev0 + np0) by (rewrite <- (picks_length _ _ _ Py); exact Lq).
  assert (Lz : length z = nev0 + np0) by (rewrite <- (picks_length _ _ _ Pz); exact Lq).
  assert (Lp : length p = nev0 + np0) by (rewrite (Permutation_length Pp), seq_length; reflexivity).
  (* the places in l *)
  destruct (picks_exists q p) as (p1 & Q1); [intros i Hi; rewrite Pq in Hi; apply in_seq in Hi; lia|].
  assert (P1 : Permutation p1 (seq 0 (nev0 + np0))). { rewrite <- Pp. apply (picks_perm q); [rewrite Lp; exact Pq|exact Q1]. }
  assert (Y1 : picks p1 l y) by (eapply picks_trans; eassumption).
  assert (Z1 : picks p1 bl z) by (eapply picks_trans; eassumption).
  destruct (crescale_spec (fun rtemp b => ddiv b rtemp) eps23 nev0 y z ltac:(lia) ltac:(lia)) as (z1 & E1 & L1 & S1). rewrite E1. cbn [bind].
  destruct (wrong_cwish lapy2 "LM" ltac:(cbn; auto)) as (wrong & Ew & WLA).
  destruct (sort_places_order_if wrong _ _ WLA fuel nev0 z1 ltac:(lia) ltac:(lia)) as (q2 & Pq2 & z2 & R2 & O2 & H2).
  destruct (H2 _ y ltac:(lia)) as (y2 & Q2 & E2). unfold zsortc at 1. rewrite Ew, E2. cbn [bind].
  assert (Lq2 : length q2 = nev0) by (rewrite (Permutation_length Pq2), seq_length; reflexivity).
  assert (Ly2 : length y2 = nev0) by (rewrite <- (picks_length _ _ _ Q2); exact Lq2).
  destruct (picks_exists q2 (firstn nev0 p1)) as (W & QW).
  { intros i Hi. rewrite Pq2 in Hi. apply in_seq in Hi. rewrite firstn_length, (Permutation_length P1), seq_length. lia. }
  assert (QW' : picks q2 p1 W).
  { clear -QW. induction QW as [|i x a b H H' IH]; constructor; auto. rewrite nth_error_firstn in H. destruct (i <? nev0); [exact H|discriminate]. }
  assert (PW : Permutation W (firstn nev0 p1)). { apply (picks_perm q2); [|exact QW]. rewrite firstn_length, (Permutation_length P1), seq_length. replace (Nat.min nev0 (nev0 + np0)) with nev0 by lia. exact Pq2. }
  assert (YW : picks W l y2) by (eapply picks_trans; eassumption).
  assert (MW0 : most_wished (cwish lapy2 which) nev0 l (firstn nev0 p1)).
  { pose proof (first_wished (cwish lapy2 (copposite which)) l y p1 ltac:(rewrite Ll; exact P1) Y1 ltac:(rewrite Ll; exact O) nev0 ltac:(lia)) as [M1 M2].
    split; [exact M1|]. intros i j x v Hi Hj Hx Hv. specialize (M2 i j x v Hi Hj Hx Hv). cbv beta in M2. rewrite !Hn, !Ropp_involutive in M2. exact M2. }
  assert (MW : most_wished (cwish lapy2 which) nev0 l W).
  { destruct MW0 as [(N & B & L) M]. split; [split; [|split]|].
    - eapply Permutation_NoDup; [symmetry; exact PW|exact N].
    - intros i Hi. rewrite PW in Hi. apply B, Hi.
    - rewrite (Permutation_length PW). exact L.
    - intros i j x v Hi Hj. rewrite PW in Hi, Hj. apply M; assumption. }
  assert (L2 : length (z2 ++ skipn nev0 z1) = nev0 + np0).
  { destruct (H2 _ z1 eq_refl) as (z3 & _ & E3). destruct (sort_arrays_rearranges wrong nev0 fuel z1 z1 ltac:(lia) ltac:(lia) ltac:(lia)) as (a1 & a2 & E4 & _ & L4 & _).
    rewrite E3 in E4. injection E4 as <- <-. lia. }
  destruct (crescale_ok dmul eps23 nev0 (y2 ++ skipn nev0 y) (z2 ++ skipn nev0 z1) ltac:(rewrite app_length; lia) ltac:(lia)) as (z4 & E4 & L4). rewrite E4. cbn [bind].
  destruct (wrong_cwish lapy2 which Hw) as (wr & Ewr & Wr). unfold zsortc. rewrite Ewr.
  assert (Lr2 : length (y2 ++ skipn nev0 y) = nev0 + np0) by (rewrite app_length, skipn_length; lia).
  assert (Gr2 : Forall good (firstn nconv (y2 ++ skipn nev0 y))).
  { rewrite firstn_app, Ly2. replace (nconv - nev0) with 0 by lia. rewrite firstn_O, app_nil_r. apply Forall_front. exact (picks_all _ _ _ _ YW G). }
  destruct (sort_places_order wr (cwish lapy2 which) good Wr fuel nconv (y2 ++ skipn nev0 y) ltac:(lia) ltac:(lia) Gr2) as (q3 & Pq3 & y3 & Q3 & O3 & H3).
  destruct (H3 _ z4 ltac:(lia)) as (z5 & _ & E5). rewrite E5.
  assert (Lq3 : length q3 = nconv) by (rewrite (Permutation_length Pq3), seq_length; reflexivity).
  assert (Ly3 : length y3 = nconv) by (rewrite <- (picks_length _ _ _ Q3); exact Lq3).
  assert (LW : length W = nev0) by (rewrite (Permutation_length PW), firstn_length, (Permutation_length P1), seq_length; lia).
  destruct (picks_exists q3 W) as (V & QV); [intros i Hi; rewrite Pq3 in Hi; apply in_seq in Hi; lia|].
  assert (B3 : forall i, In i q3 -> i < nconv) by (intros i Hi; rewrite Pq3 in Hi; apply in_seq in Hi; lia).
  assert (Q3' : picks q3 y2 y3).
  { clear -Q3 B3 Ly2 Hc. induction Q3 as [|i x a b H H' IH]; constructor; [|apply IH; intros; apply B3; right; assumption].
    rewrite nth_error_app1 in H by (specialize (B3 i (or_introl eq_refl)); lia). exact H. }
  assert (QVl : picks V l y3) by (eapply picks_trans; eassumption).
  (* V is the first nconv places of W, in another order *)
  assert (QVf : picks q3 (firstn nconv W) V).
  { clear -QV B3. induction QV as [|i x a b H H' IH]; constructor; [|apply IH; intros; apply B3; right; assumption].
    rewrite nth_error_firstn. specialize (B3 i (or_introl eq_refl)). replace (i <? nconv) with true by lia. exact H. }
  assert (PV : Permutation V (firstn nconv W)). { apply (picks_perm q3); [|exact QVf]. rewrite firstn_length, LW. replace (Nat.min nconv nev0) with nconv by lia. exact Pq3. }
  assert (IV : incl V W). { intros i Hi. rewrite PV in Hi. apply In_firstn in Hi. destruct Hi as (a & _ & Ha). apply nth_error_In in Ha. exact Ha. }
  assert (Least : (forall i x e, nth_error l i = Some x -> nth_error bl i = Some e -> good (crelative lapy2 eps23 x e)) ->
    forall i j x e x' e', In i V -> In j W -> ~ In j V -> nth_error l i = Some x -> nth_error bl i = Some e -> nth_error l j = Some x' -> nth_error bl j = Some e' ->
      (cwish lapy2 "LM" (crelative lapy2 eps23 x e) <= cwish lapy2 "LM" (crelative lapy2 eps23 x' e'))%R).
  { intros Gd i j x e x' e' Hi Hj Hn' Hx He Hx' He'.
    set (g := fun i => crelative lapy2 eps23 (nth i l x) (nth i bl e)).
    assert (Zg : forall k a, nth_error p1 k = Some a -> k < nev0 -> nth_error z1 k = Some (g a) /\ good (g a)).
    { intros k a Hk Hlt. assert (Ha : a < nev0 + np0) by (apply nth_error_In in Hk; rewrite P1 in Hk; apply in_seq in Hk; lia).
      destruct (nth_error_lt y k) as [u Hu]; [lia|]. destruct (nth_error_lt z k) as [v Hv]; [lia|].
      pose proof (picks_nth _ _ _ _ _ _ Y1 Hk Hu) as Lu. pose proof (picks_nth _ _ _ _ _ _ Z1 Hk Hv) as Lv.
      rewrite (S1 k u v Hlt Hu Hv). unfold g. rewrite (nth_error_nth _ _ _ Lu), (nth_error_nth _ _ _ Lv). split; [reflexivity|]. exact (Gd a u v Lu Lv). }
    assert (Gz : Forall good (firstn nev0 z1)).
    { rewrite Forall_forall. intros w Hw'. apply In_firstn in Hw'. destruct Hw' as (k & Hk & Ek). destruct (nth_error_lt p1 k) as [a Ha]; [rewrite (Permutation_length P1), seq_length; lia|].
      destruct (Zg k a Ha Hk) as (Z2 & Z3). rewrite Ek in Z2. injection Z2 as ->. exact Z3. }
    specialize (O2 Gz).
    pose proof (front_least (cwish lapy2 "LM") g nev0 nconv z2 W V LW Hc) as FL.
    pose proof (FL ltac:(intros k a Hk; pose proof (picks_length _ _ _ QW') as Ll'; destruct (nth_error_lt q2 k) as [c Ec]; [rewrite Ll'; apply nth_error_Some; congruence|];
      pose proof (picks_nth _ _ _ _ _ _ QW' Ec Hk) as Pc; destruct (nth_error_lt z2 k) as [w Ew']; [rewrite <- (picks_length _ _ _ R2); apply nth_error_Some; congruence|];
      pose proof (picks_nth _ _ _ _ _ _ R2 Ec Ew') as Pw; rewrite Ew'; destruct (Zg c a Pc) as [Z2 _];
      [apply nth_error_In in Ec; rewrite Pq2 in Ec; apply in_seq in Ec; lia|congruence]) O2 PV i j Hi Hj Hn') as R.
    unfold g in R.
    rewrite (nth_error_nth _ _ _ Hx), (nth_error_nth _ _ _ He), (nth_error_nth _ _ _ Hx'), (nth_error_nth _ _ _ He') in R. exact R. }
  assert (F3 : firstn nconv (y3 ++ skipn nconv (y2 ++ skipn nev0 y)) = y3) by (apply firstn_prefix; exact Ly3).
  exists W, V, (y3 ++ skipn nconv (y2 ++ skipn nev0 y)), (z5 ++ skipn nconv z4).
  split; [exact MW|]. split; [|split; [exact IV|]].
  - destruct MW as [(N & B & _) _]. split; [|split].
    + eapply Permutation_NoDup; [symmetry; exact PV|]. clear -N. revert nconv. induction N; intros [|k]; cbn; constructor; auto.
      intros Hin. apply H. apply In_firstn in Hin. destruct Hin as (a & _ & Ha). apply nth_error_In in Ha. exact Ha.
    + intros i Hi. apply B, IV, Hi.
    + rewrite (Permutation_length PV), firstn_length, LW. lia.
  - rewrite F3. split; [exact Least|]. split; [exact QVl|]. split; [|split; [reflexivity|rewrite app_length, skipn_length; lia]].
    intros i j a b Hij Ha Hb. rewrite nth_error_app1 in Ha, Hb by lia. eapply O3; eassumption.
Qed.
End Lapy2.

(* C101: which eigenvalues the bundled ARPACK selects for complex problems *)
From Coq Require Import String List Reals Permutation Lia Lra ZArith.
From Verif Require Import Base M_Double S_Double M_DoubleReduce S_DoubleReduce L_DoubleReduce M_ArpackSort S_ArpackSort L_ArpackSort L_ArpackOrder S_ArpackSelect M_ArpackSelect
  L_ArpackSelect L_ArpackSelect2 L_ArpackSelect3 L_ArpackSelect4 L_ArpackSelect5 L_ArpackSelect6 S_ArpackCSelect M_ArpackCSelect L_ArpackCSelect L_ArpackCSelect2 L_Double.
Import ListNotations.
Local Open Scope nat_scope.

(* zngets: for every number of values and every code the values and their
   estimates are moved together, the wanted ones come last, and with exact shifts
   the others come first with decreasing estimates. *)
Theorem C101_zngets : forall lapy2 fuel ishift which kev np (ritz bounds : list (double * double)),
  known_ccode which -> length ritz = kev + np -> length bounds = kev + np -> 3 * (kev + np) + 2 < fuel ->
  Forall (cnumbers lapy2) ritz -> Forall (cnumbers lapy2) bounds ->
  exists p y z, zngets lapy2 fuel ishift which (Z.of_nat kev) (Z.of_nat np) ritz bounds = Ok (y, z) /\
    Permutation p (seq 0 (kev + np)) /\ picks p ritz y /\ picks p bounds z /\ most_wished (cwish lapy2 which) kev ritz (skipn np p) /\
    (ishift = 1%Z -> increasing (cwish lapy2 "SM") np z).
Proof.
  intros lapy2 fuel ishift which kev np ritz bounds Hw Lr Lb Hf Gr Gb.
  destruct (zngets_spec lapy2 fuel ishift which kev np ritz bounds Hw Lr Lb Hf Gr Gb) as (p0 & p & y & z & H). exists p, y, z. tauto.
Qed.

(* The end of an iteration, from any values and estimates that are numbers.  V are
   the wanted values that pass the test.  Either the iterations end: then nconv is
   the number of V, the code is 0 exactly if all wanted values have converged, and
   the values left in front are wanted ones, those with the smallest estimates
   relative to their magnitudes, ordered; or they go on, with more
   values kept, at least one shift, and none of the wanted values is a shift; nor
   is a value with an estimate equal to zero, if no wanted value has converged. *)
Theorem C101_iteration_partial : forall lapy2 fuel which ishift nev0 np0 tol eps23 iter mxiter (ritz bounds : list (double * double)),
  known_ccode which -> length ritz = nev0 + np0 -> length bounds = nev0 + np0 -> 3 * (nev0 + np0) + 2 < fuel ->
  Forall (cnumbers lapy2) ritz -> Forall (cnumbers lapy2) bounds ->
  exists W V d, most_wished (cwish lapy2 which) nev0 ritz W /\ NoDup V /\ (forall i, In i V <-> In i W /\ cconverged lapy2 tol eps23 ritz bounds i) /\
    naup2_decide lapy2 fuel which ishift (Z.of_nat nev0) (Z.of_nat np0) tol eps23 iter mxiter ritz bounds = Ok d /\
    match d with
    | CExit info nconv r b irz ibd =>
      nconv = Z.of_nat (length V) /\ irz = ritz /\ ibd = bounds /\ length r = nev0 + np0 /\
      (info = 0%Z <-> length V = nev0) /\
      (info = 0%Z \/ info = 1%Z /\ (mxiter < iter)%Z \/
       info = 2%Z /\ forall i e, ~ In i W -> nth_error bounds i = Some e -> spot (fst e) = 0%R /\ spot (snd e) = 0%R) /\
      exists W' V', most_wished (cwish lapy2 which) nev0 ritz W' /\ choice (nev0 + np0) (length V) V' /\ incl V' W' /\
        ((forall i x e, nth_error ritz i = Some x -> nth_error bounds i = Some e -> cnumbers lapy2 (crelative lapy2 eps23 x e)) ->
         forall i j x e x' e', In i V' -> In j W' -> ~ In j V' -> nth_error ritz i = Some x -> nth_error bounds i = Some e -> nth_error ritz j = Some x' -> nth_error bounds j = Some e' ->
           (cwish lapy2 "LM" (crelative lapy2 eps23 x e) <= cwish lapy2 "LM" (crelative lapy2 eps23 x' e'))%R) /\
        picks V' ritz (firstn (length V) r) /\ increasing (cwish lapy2 which) (length V) r
    | CGo nev np r b =>
      length V < nev0 /\ (iter <= mxiter)%Z /\
      exists kev knp p, nev = Z.of_nat kev /\ np = Z.of_nat knp /\ kev + knp = nev0 + np0 /\ nev0 <= kev /\ 1 <= knp /\
        Permutation p (seq 0 (nev0 + np0)) /\ picks p ritz r /\ picks p bounds b /\
        (exists W', most_wished (cwish lapy2 which) nev0 ritz W' /\ incl W' (skipn knp p)) /\
        (ishift = 1%Z -> Forall (faithful lapy2) bounds -> V = [] -> 2 <= nev0 ->
         forall e, In e (firstn knp b) -> ~ (spot (fst e) = 0%R /\ spot (snd e) = 0%R))
    end.
Proof.
  intros lapy2 fuel which ishift nev0 np0 tol eps23 iter mxiter ritz bounds Hw Lr Lb Hf Gr Gb.
  destruct (cdecide_starts lapy2 fuel which ishift nev0 np0 tol eps23 iter mxiter ritz bounds Hw Lr Lb Hf Gr Gb)
    as (p0 & p & y & z & c & Pp & Py & Pz & W & S1 & _ & _ & _ & Hc & Ec & E).
  cbv zeta in E. set (V := filter (cready lapy2 tol eps23 ritz bounds) (skipn np0 p)) in *.
  assert (Lp : length p = nev0 + np0) by (rewrite (Permutation_length Pp), seq_length; reflexivity).
  assert (Ly : length y = nev0 + np0) by (rewrite <- (picks_length _ _ _ Py); exact Lp).
  assert (Lz : length z = nev0 + np0) by (rewrite <- (picks_length _ _ _ Pz); exact Lp).
  assert (NV : NoDup V) by (apply NoDup_filter; apply W).
  assert (LV : length V <= nev0).
  { destruct W as [(_ & _ & L) _]. rewrite <- L. apply NoDup_incl_length; [exact NV|]. intros i Hi. apply filter_In in Hi. apply Hi. }
  assert (HV : forall i, In i V <-> In i (skipn np0 p) /\ cconverged lapy2 tol eps23 ritz bounds i).
  { intros i. unfold V. rewrite filter_In, cready_converged. reflexivity. }
  assert (Gz : Forall (cnumbers lapy2) z) by exact (picks_all _ _ _ _ Pz Gb).
  exists (skipn np0 p), V.
  destruct ((Z.of_nat nev0 <=? Z.of_nat (length V))%Z || (mxiter <? iter)%Z || (Z.of_nat np0 - Z.of_nat c =? 0)%Z) eqn:Ex.
  - destruct (cexit_places lapy2 fuel which eps23 nev0 np0 (length V) ritz bounds y z p Hw Lr Pp Py Pz Hf LV Gr)
      as (W' & V' & r & b & MW & CV & IV & LS & PV & O & Ee & Le).
    rewrite Ee in E. cbn [bind] in E. eexists. split; [exact W|]. split; [exact NV|]. split; [exact HV|]. split; [exact E|]. cbv beta iota.
    split; [reflexivity|]. split; [reflexivity|]. split; [reflexivity|]. split; [exact Le|].
    split; [|split].
    + destruct (Z.eqb_spec (Z.of_nat np0 - Z.of_nat c) 0), (Z.ltb_spec (Z.of_nat (length V)) (Z.of_nat nev0)), (Z.ltb_spec mxiter iter),
        (Z.leb_spec (Z.of_nat nev0) (Z.of_nat (length V))); cbn in Ex |- *; split; intros Hi; try discriminate; try reflexivity; lia.
    + destruct (Z.eqb_spec (Z.of_nat np0 - Z.of_nat c) 0) as [Hz|Hz]; cbn [andb].
      * destruct (Z.ltb_spec (Z.of_nat (length V)) (Z.of_nat nev0)); [|rewrite Bool.andb_false_r; left; reflexivity].
        right. right. split; [reflexivity|]. intros i e Hi He.
        assert (Hin : i < nev0 + np0) by (rewrite <- Lb; apply nth_error_Some; rewrite He; discriminate).
        destruct (place_of _ p np0 i Pp Hin) as [[Hi' _]|[Hi' _]]; [|contradiction].
        assert (A : forall x, In x (firstn np0 z) -> czero x = true).
        { apply filter_all. rewrite <- Ec, firstn_length. lia. }
        destruct (picks_in_l _ _ _ _ (picks_firstn np0 _ _ _ Pz) Hi') as (x & Hx & Ex'). rewrite He in Ex'. injection Ex' as <-.
        rewrite Forall_forall in Gb. destruct (Gb e (nth_error_In _ _ He)) as (G1 & G2 & _). apply (czero_spot e G1 G2). apply A. exact Hx.
      * destruct (Z.ltb_spec mxiter iter); [|left; reflexivity]. destruct (Z.ltb_spec (Z.of_nat (length V)) (Z.of_nat nev0)); cbn [andb]; auto.
    + exists W', V'. rewrite Lr in CV. split; [exact MW|]. split; [exact CV|]. split; [exact IV|]. split; [exact LS|]. split; [exact PV|exact O].
  - apply Bool.orb_false_elim in Ex. destruct Ex as [Ex E3]. apply Bool.orb_false_elim in Ex. destruct Ex as [E1 E2].
    assert (Hlt : length V < nev0) by lia. assert (Hnp : c < np0) by lia. clear E1 E3.
    assert (NZ : ishift = 1%Z -> Forall (faithful lapy2) bounds -> forall e, In e (firstn (np0 - c) z) -> ~ (spot (fst e) = 0%R /\ spot (snd e) = 0%R)).
    { intros Hi F e He Hs. pose proof (zeros_last lapy2 np0 z ltac:(lia) Gz (picks_all _ _ _ _ Pz F) (S1 Hi)) as Z. rewrite <- Ec in Z.
      rewrite Forall_forall in Z. specialize (Z e He). apply In_firstn in He. destruct He as (k & _ & Hk). apply nth_error_In in Hk.
      rewrite Forall_forall in Gz. destruct (Gz e Hk) as (G1 & G2 & _). apply (czero_spot e G1 G2) in Hs. congruence. }
    assert (Keep : forall kev knp, kev = nev0 + c -> knp = np0 - c -> 
      exists kev' knp' p', Z.of_nat kev = Z.of_nat kev' /\ Z.of_nat knp = Z.of_nat knp' /\ kev' + knp' = nev0 + np0 /\ nev0 <= kev' /\ 1 <= knp' /\
        Permutation p' (seq 0 (nev0 + np0)) /\ picks p' ritz y /\ picks p' bounds z /\
        (exists W', most_wished (cwish lapy2 which) nev0 ritz W' /\ incl W' (skipn knp' p')) /\
        (ishift = 1%Z -> Forall (faithful lapy2) bounds -> V = [] -> 2 <= nev0 ->
         forall e, In e (firstn knp' z) -> ~ (spot (fst e) = 0%R /\ spot (snd e) = 0%R))).
    { intros kev knp -> ->. exists (nev0 + c), (np0 - c), p. do 2 (split; [reflexivity|]). do 3 (split; [lia|]). split; [exact Pp|]. split; [exact Py|]. split; [exact Pz|].
      split; [exists (skipn np0 p); split; [exact W|apply incl_skipn; lia]|]. intros Hi F _ _. exact (NZ Hi F). }
    replace (Z.of_nat (length V) <? Z.of_nat nev0)%Z with true in E by lia. cbn [andb] in E.
    destruct (Z.eqb_spec ishift 1) as [Hi|Hi].
    2:{ eexists. split; [exact W|]. split; [exact NV|]. split; [exact HV|]. split; [exact E|]. split; [exact Hlt|]. split; [lia|].
      replace (Z.of_nat nev0 + Z.of_nat c)%Z with (Z.of_nat (nev0 + c)) by lia. replace (Z.of_nat np0 - Z.of_nat c)%Z with (Z.of_nat (np0 - c)) by lia. apply Keep; reflexivity. }
    (* the new number of kept values *)
    assert (New : exists kev knp, kev + knp = nev0 + np0 /\ nev0 + c <= kev /\ 1 <= knp /\ (V = [] -> 2 <= nev0 -> kev = nev0 + c) /\
      (let nev' := (Z.of_nat nev0 + Z.of_nat c + Z.min (Z.of_nat (length V)) (Z.quot (Z.of_nat np0 - Z.of_nat c) 2))%Z in
       if (nev' =? 1)%Z && (6 <=? Z.of_nat nev0 + Z.of_nat np0)%Z then Z.quot (Z.of_nat nev0 + Z.of_nat np0) 2 else if (nev' =? 1)%Z && (3 <? Z.of_nat nev0 + Z.of_nat np0)%Z then 2%Z else nev') = Z.of_nat kev).
    { rewrite <- Nat2Z.inj_add. replace (Z.of_nat np0 - Z.of_nat c)%Z with (Z.of_nat (np0 - c)) by lia. rewrite <- Nat2Z.inj_add.
      change 2%Z with (Z.of_nat 2). rewrite !quot_of_nat by lia. cbv zeta.
      assert (D1 : (np0 - c) / 2 < np0 - c) by (apply Nat.div_lt; lia).
      assert (D2 : (nev0 + np0) / 2 < nev0 + np0) by (apply Nat.div_lt; lia).
      assert (D3 : 2 * ((nev0 + np0) / 2) <= nev0 + np0) by (apply Nat.mul_div_le; lia).
      destruct (Z.eqb_spec (Z.of_nat (nev0 + c) + Z.min (Z.of_nat (length V)) (Z.of_nat ((np0 - c) / 2))) 1) as [H1|H1]; cbn [andb].
      - destruct (Z.leb_spec 6 (Z.of_nat (nev0 + np0))) as [H2|H2].
        + assert (1 <= (nev0 + np0) / 2) by (apply Nat.div_le_lower_bound; lia). exists ((nev0 + np0) / 2), (nev0 + np0 - (nev0 + np0) / 2). repeat split; lia.
        + destruct (Z.ltb_spec 3 (Z.of_nat (nev0 + np0))) as [H3|H3].
          * exists 2, (nev0 + np0 - 2). repeat split; lia.
          * exists (nev0 + c), (np0 - c). repeat split; lia.
      - exists (nev0 + c + Nat.min (length V) ((np0 - c) / 2)), (np0 - c - Nat.min (length V) ((np0 - c) / 2)). split; [lia|]. split; [lia|]. split; [lia|]. split; [|lia].
        intros -> _. cbn [List.length]. lia. }
    destruct New as (kev & knp & K1 & K2 & K3 & K5 & K4). cbv zeta in K4. rewrite K4 in E.
    replace (Z.of_nat nev0 + Z.of_nat np0 - Z.of_nat kev)%Z with (Z.of_nat knp) in E by lia.
    destruct (Z.ltb_spec (Z.of_nat nev0 + Z.of_nat c) (Z.of_nat kev)) as [H1|H1].
    2:{ eexists. split; [exact W|]. split; [exact NV|]. split; [exact HV|]. split; [exact E|]. split; [exact Hlt|]. split; [lia|]. apply Keep; lia. }
    destruct (zngets_spec lapy2 fuel ishift which kev knp y z Hw ltac:(lia) ltac:(lia) ltac:(lia) (picks_all _ _ _ _ Py Gr) Gz)
      as (q0 & q & y2 & z2 & E4 & Pq & Qy & Qz & _ & _ & Tq & Pq0 & _ & M).
    rewrite E4 in E. cbn [bind fst snd] in E. eexists. split; [exact W|]. split; [exact NV|]. split; [exact HV|]. split; [exact E|]. split; [exact Hlt|]. split; [lia|].
    rewrite K1 in Pq, Pq0.
    assert (Bq : forall i, In i q -> i < nev0 + np0) by (intros i Hin; rewrite Pq in Hin; apply in_seq in Hin; lia).
    destruct (picks_exists q p) as (r & Hr); [intros i Hin; rewrite Lp; auto|].
    exists kev, knp, r. split; [reflexivity|]. split; [reflexivity|]. do 3 (split; [lia|]).
    split; [rewrite <- Pp; apply (picks_perm q); [rewrite Lp; exact Pq|exact Hr]|]. split; [eapply picks_trans; eassumption|]. split; [eapply picks_trans; eassumption|].
    split; [|intros _ _ HV0 Hn2; specialize (K5 HV0 Hn2); lia].
    specialize (M nev0 ltac:(lia)).
    assert (Sub : incl (skipn (kev + knp - nev0) q0) (skipn knp q)) by (rewrite <- Tq; apply incl_skipn; lia).
    destruct (picks_exists (skipn (kev + knp - nev0) q0) p) as (W' & HW').
    { intros i Hin. rewrite Lp. apply Bq. apply Sub in Hin. apply In_skipn in Hin. destruct Hin as (k & _ & Hk). apply nth_error_In in Hk. exact Hk. }
    exists W'. split; [exact (most_wished_moved (cwish lapy2 which) nev0 ritz y _ p _ W' Pp Lr Py M HW')|].
    intros i Hin. destruct (picks_in _ _ _ _ HW' Hin) as (a & Ha & Ea). apply Sub in Ha.
    destruct (picks_in_l _ _ _ _ (picks_skipn knp _ _ _ Hr) Ha) as (x & Hx & Ex). rewrite Ea in Ex. injection Ex as <-. exact Hx.
Qed.

(* With vectors: after the iterations have ended, with any code, the values given
   back are those of the wanted values that have converged, all of them and each
   once; the count always agrees, so that the error -15 is never given. *)
Theorem C101_vectors : forall lapy2 trsen fuel which ishift nev0 np0 tol eps23 iter mxiter (ritz bounds heig : list (double * double)) info nconv r b irz ibd,
  reorders trsen ->
  known_ccode which -> length ritz = nev0 + np0 -> length bounds = nev0 + np0 -> 3 * (nev0 + np0) + 2 < fuel ->
  Forall (cnumbers lapy2) ritz -> Forall (cnumbers lapy2) bounds -> length heig = nev0 + np0 ->
  naup2_decide lapy2 fuel which ishift (Z.of_nat nev0) (Z.of_nat np0) tol eps23 iter mxiter ritz bounds = Ok (CExit info nconv r b irz ibd) ->
  exists W V d, most_wished (cwish lapy2 which) nev0 ritz W /\ NoDup V /\ (forall i, In i V <-> In i W /\ cconverged lapy2 tol eps23 ritz bounds i) /\ nconv = Z.of_nat (length V) /\
    zneupd_values lapy2 trsen fuel which (Z.of_nat (nev0 + np0)) nconv tol eps23 irz ibd heig = Ok (0%Z, d) /\ picks V heig d.
Proof.
  intros lapy2 trsen fuel which ishift nev0 np0 tol eps23 iter mxiter ritz bounds heig info nconv r b irz ibd Ht Hw Lr Lb Hf Gr Gb Lh H.
  destruct (cdecide_starts lapy2 fuel which ishift nev0 np0 tol eps23 iter mxiter ritz bounds Hw Lr Lb Hf Gr Gb)
    as (p0 & p & y & z & c & Pp & Py & Pz & W & _ & Es & P0 & (y0 & Py0 & Ha) & Hc & Ec & E).
  cbv zeta in E. rewrite H in E. clear H.
  set (V0 := filter (cready lapy2 tol eps23 ritz bounds) (skipn np0 p)) in *.
  assert (X : nconv = Z.of_nat (length V0) /\ irz = ritz /\ ibd = bounds).
  { destruct ((Z.of_nat nev0 <=? Z.of_nat (length V0))%Z || (mxiter <? iter)%Z || (Z.of_nat np0 - Z.of_nat c =? 0)%Z).
    - match type of E with _ = bind ?x _ => destruct x as [[r' b']| | |] end; cbn [bind] in E; try discriminate. injection E as _ -> _ _ -> ->. auto.
    - exfalso. match type of E with _ = (if ?c then _ else _) => destruct c end; [|discriminate].
      match type of E with _ = (if ?c then _ else _) => destruct c end; [|discriminate].
      match type of E with _ = bind ?x _ => destruct x as [[? ?]| | |] end; cbn [bind] in E; discriminate. }
  destruct X as (-> & -> & ->). clear E.
  destruct (zneupd_places lapy2 trsen fuel which nev0 np0 tol eps23 ritz bounds heig y0 p0 (length V0) Ht Lr Lb Lh P0 Py0 Ha) as (V & d & E & PV & PK).
  { unfold V0. rewrite Es. reflexivity. }
  rewrite Es in PV. fold V0 in PV. pose proof (Permutation_length PV) as LV. rewrite <- LV in *.
  exists (skipn np0 p), V, d. split; [exact W|].
  split; [eapply Permutation_NoDup; [symmetry; exact PV|]; apply NoDup_filter; apply W|].
  split; [intros i; rewrite PV; unfold V0; rewrite filter_In, cready_converged; reflexivity|]. split; [reflexivity|].
  split; [exact E|exact PK].
Qed.

(* Without vectors the values given back are those in front.  If all wanted values
   have converged, and no two of the values are wished the same, they are the
   wanted values. *)
Theorem C101_values_partial : forall lapy2 fuel which ishift nev0 np0 tol eps23 iter mxiter (ritz bounds : list (double * double)) nconv r b irz ibd,
  known_ccode which -> length ritz = nev0 + np0 -> length bounds = nev0 + np0 -> 3 * (nev0 + np0) + 2 < fuel ->
  Forall (cnumbers lapy2) ritz -> Forall (cnumbers lapy2) bounds ->
  (forall i j x y, nth_error ritz i = Some x -> nth_error ritz j = Some y -> cwish lapy2 which x = cwish lapy2 which y -> i = j) ->
  naup2_decide lapy2 fuel which ishift (Z.of_nat nev0) (Z.of_nat np0) tol eps23 iter mxiter ritz bounds = Ok (CExit 0 nconv r b irz ibd) ->
  exists W d, most_wished (cwish lapy2 which) nev0 ritz W /\ (forall i, In i W -> cconverged lapy2 tol eps23 ritz bounds i) /\
    zneupd_alone nconv r = Ok d /\ picks W ritz d /\ increasing (cwish lapy2 which) nev0 d.
Proof.
  intros lapy2 fuel which ishift nev0 np0 tol eps23 iter mxiter ritz bounds nconv r b irz ibd Hw Lr Lb Hf Gr Gb Inj H.
  destruct (C101_iteration_partial lapy2 fuel which ishift nev0 np0 tol eps23 iter mxiter ritz bounds Hw Lr Lb Hf Gr Gb) as (W & V & d & MW & NV & HV & E & D).
  rewrite H in E. injection E as <-. cbv beta iota in D. destruct D as (-> & _ & _ & Le & I0 & _ & W' & V' & MW' & (N' & B' & L') & IV & _ & PV & O).
  pose proof (proj1 I0 eq_refl) as I1. rewrite I1 in *.
  assert (WV : incl W V). { apply (NoDup_length_incl NV); [destruct MW as [(_ & _ & L) _]; lia|]. intros i Hi. apply HV in Hi. apply Hi. }
  exists V', (firstn nev0 r). 
  assert (CV : incl V' W). { intros i Hi. apply (same_choice (cwish lapy2 which) nev0 ritz W' W MW' MW Inj). apply IV, Hi. }
  assert (WC : incl W' V') by (apply (NoDup_length_incl N'); [destruct MW' as [(_ & _ & L) _]; lia|exact IV]).
  split; [|split; [|split; [|split]]].
  - split; [split; [exact N'|split; [intros i Hi; rewrite Lr; apply B', Hi|exact L']]|]. intros i j x v Hi Hj. apply MW'; [intros Hc; apply Hi, WC, Hc|apply IV, Hj].
  - intros i Hi. apply HV. apply WV, CV, Hi.
  - unfold zneupd_alone. rewrite Nat2Z.id. apply reads_firstn. lia.
  - exact PV.
  - intros i j x v Hij Hx Hv. rewrite nth_error_firstn in Hx, Hv. destruct (i <? nev0), (j <? nev0); try discriminate. eapply O; eassumption.
Qed.

(* The same however the iterations have ended: the values given back are wanted
   ones, as many as have converged, and each of them has converged or has an
   estimate, relative to its magnitude, that is not larger than that of one that
   has. *)
Theorem C101_values_any_partial : forall lapy2 fuel which ishift nev0 np0 tol eps23 iter mxiter (ritz bounds : list (double * double)) info nconv r b irz ibd,
  known_ccode which -> length ritz = nev0 + np0 -> length bounds = nev0 + np0 -> 3 * (nev0 + np0) + 2 < fuel ->
  Forall (cnumbers lapy2) ritz -> Forall (cnumbers lapy2) bounds ->
  (forall i x e, nth_error ritz i = Some x -> nth_error bounds i = Some e -> (cnumbers lapy2) (crelative lapy2 eps23 x e)) ->
  (forall i j x y, nth_error ritz i = Some x -> nth_error ritz j = Some y -> cwish lapy2 which x = cwish lapy2 which y -> i = j) ->
  naup2_decide lapy2 fuel which ishift (Z.of_nat nev0) (Z.of_nat np0) tol eps23 iter mxiter ritz bounds = Ok (CExit info nconv r b irz ibd) ->
  exists W V' d, most_wished (cwish lapy2 which) nev0 ritz W /\ NoDup V' /\ incl V' W /\ nconv = Z.of_nat (length V') /\
    zneupd_alone nconv r = Ok d /\ picks V' ritz d /\ increasing (cwish lapy2 which) (length V') d /\
    (forall i, In i W -> cconverged lapy2 tol eps23 ritz bounds i -> ~ In i V' ->
     exists j, In j V' /\ ~ cconverged lapy2 tol eps23 ritz bounds j) /\
    forall i, In i V' -> cconverged lapy2 tol eps23 ritz bounds i \/
      exists j x e x' e', In j W /\ cconverged lapy2 tol eps23 ritz bounds j /\ nth_error ritz i = Some x /\ nth_error bounds i = Some e /\
        nth_error ritz j = Some x' /\ nth_error bounds j = Some e' /\ (cwish lapy2 "LM" (crelative lapy2 eps23 x e) <= cwish lapy2 "LM" (crelative lapy2 eps23 x' e'))%R.
Proof.
  intros lapy2 fuel which ishift nev0 np0 tol eps23 iter mxiter ritz bounds info nconv r b irz ibd Hw Lr Lb Hf Gr Gb Gd Inj H.
  destruct (C101_iteration_partial lapy2 fuel which ishift nev0 np0 tol eps23 iter mxiter ritz bounds Hw Lr Lb Hf Gr Gb) as (W & V & d & MW & NV & HV & E & D).
  rewrite H in E. injection E as <-. cbv beta iota in D. destruct D as (-> & _ & _ & Le & I0 &  _ & W' & V' & MW' & (N' & B' & L') & IV & LS & PV & O).
  assert (CV : incl V' W). { intros i Hi. apply (same_choice (cwish lapy2 which) nev0 ritz W' W MW' MW Inj). apply IV, Hi. }
  assert (WW : incl W W') by exact (same_choice (cwish lapy2 which) nev0 ritz W W' MW MW' Inj).
  assert (LV : length V <= nev0). { destruct MW as [(_ & _ & L) _]. rewrite <- L. apply (NoDup_incl_length NV). intros i Hi. apply HV in Hi. apply Hi. }
  exists W, V', (firstn (length V) r). rewrite L'.
  split; [exact MW|]. split; [exact N'|]. split; [exact CV|]. split; [reflexivity|].
  split; [unfold zneupd_alone; rewrite Nat2Z.id; apply reads_firstn; lia|]. split; [exact PV|].
  split; [|split].
  - intros i j x v Hij Hx Hv. rewrite nth_error_firstn in Hx, Hv. destruct (i <? length V), (j <? length V); try discriminate. eapply O; eassumption.
  - intros i Hi Ci Hn. destruct (other_one V' V i N' ltac:(lia) (proj2 (HV i) (conj Hi Ci)) Hn) as (j & Hj & Hj'). exists j. split; [exact Hj|].
    intros Cj. apply Hj'. apply HV. split; [apply CV, Hj|exact Cj].
  - intros i Hi. destruct (in_dec Nat.eq_dec i V) as [Hv|Hv]; [left; apply HV, Hv|right].
    destruct (other_one V V' i NV ltac:(lia) Hi Hv) as (j & Hj & Hj').
    apply HV in Hj. destruct Hj as [HjW Cj].
    assert (Bi : i < nev0 + np0) by (apply B', Hi). assert (Bj : j < nev0 + np0) by (rewrite <- Lr; destruct MW as [(_ & B & _) _]; apply B, HjW).
    destruct (nth_error_lt ritz i) as [x Hx]; [lia|]. destruct (nth_error_lt bounds i) as [e He]; [lia|].
    destruct (nth_error_lt ritz j) as [x' Hx']; [lia|]. destruct (nth_error_lt bounds j) as [e' He']; [lia|].
    exists j, x, e, x', e'. do 6 (split; [assumption|]). exact (LS Gd i j x e x' e' Hi (WW j HjW) Hj' Hx He Hx' He').
Qed.

(* the magnitude of a number with one part equal to zero *)
Definition axis_size (x y : double) : double := if dlt (dabs x) (dabs y) then dabs y else dabs x.
Definition exact_size (z : double * double) : Prop := spot (axis_size (fst z) (snd z)) = sqrt (spot (fst z) ^ 2 + spot (snd z) ^ 2)%R.
Lemma exact_real x : is_number x -> exact_size (x, dofZ 0).
Proof.
  intros Hx. unfold exact_size, axis_size. cbn [fst snd].
  assert (E0 : spot (dofZ 0) = 0%R) by reflexivity.
  assert (E : sqrt (spot x ^ 2 + spot (dofZ 0) ^ 2) = Rabs (spot x)) by (rewrite E0; replace (spot x ^ 2 + 0 ^ 2)%R with (Rsqr (spot x)) by (unfold Rsqr; ring); apply sqrt_Rsqr_abs).
  rewrite E. rewrite dlt_spot by (apply L_DoubleReduce.dabs_number; first [exact Hx|reflexivity]). rewrite !spot_dabs, E0, Rabs_R0.
  destruct (Flocq.Core.Raux.Rlt_bool_spec (Rabs (spot x)) 0); [pose proof (Rabs_pos (spot x)); lra|apply spot_dabs].
Qed.
Lemma exact_imag x : is_number x -> exact_size (dofZ 0, x).
Proof.
  intros Hx. unfold exact_size, axis_size. cbn [fst snd].
  assert (E0 : spot (dofZ 0) = 0%R) by reflexivity.
  assert (E : sqrt (spot (dofZ 0) ^ 2 + spot x ^ 2) = Rabs (spot x)) by (rewrite E0; replace (0 ^ 2 + spot x ^ 2)%R with (Rsqr (spot x)) by (unfold Rsqr; ring); apply sqrt_Rsqr_abs).
  rewrite E. rewrite dlt_spot by (apply L_DoubleReduce.dabs_number; first [exact Hx|reflexivity]). rewrite !spot_dabs, E0, Rabs_R0.
  destruct (Flocq.Core.Raux.Rlt_bool_spec 0 (Rabs (spot x))) as [H|H]; [apply spot_dabs|].
  rewrite spot_dabs, E0, Rabs_R0. pose proof (Rabs_pos (spot x)). lra.
Qed.

(* With ties it may give back another value of the same magnitude that has not
   converged: 3i and -3i, of which -3i has converged. *)
Theorem C101_values_ties_refuted : exists tol eps23 (ritz bounds : list (double * double)) r b irz ibd d,
  Forall (cnumbers axis_size) ritz /\ Forall (cnumbers axis_size) bounds /\ Forall exact_size ritz /\ Forall exact_size bounds /\
  naup2_decide axis_size 9 "LM" 1 1 1 tol eps23 1 10 ritz bounds = Ok (CExit 0 1 r b irz ibd) /\ zneupd_alone 1 r = Ok d /\
  forall x i, nth_error d 0 = Some x -> nth_error ritz i = Some x -> ~ cconverged axis_size tol eps23 ritz bounds i.
Proof.
  set (tol := dofZ 1). set (eps23 := dofZ 1). set (ritz := [(dofZ 0, dofZ 3); (dofZ 0, dofZ (-3))]). set (bounds := [(dofZ 4, dofZ 0); (dofZ 2, dofZ 0)]).
  assert (Q : match naup2_decide axis_size 9 "LM" 1 1 1 tol eps23 1 10 ritz bounds with
    | Ok (CExit info nconv r _ _ _) => (info =? 0)%Z && (nconv =? 1)%Z && match r with x :: _ => deq (snd x) (dofZ 3) | [] => false end
    | _ => false end = true) by (vm_compute; reflexivity).
  destruct (naup2_decide axis_size 9 "LM" 1 1 1 tol eps23 1 10 ritz bounds) as [[info nconv r b irz ibd|]| | |] eqn:E; try discriminate Q.
  apply Bool.andb_true_iff in Q. destruct Q as [Q Q3]. apply Bool.andb_true_iff in Q. destruct Q as [Q1 Q2]. apply Z.eqb_eq in Q1, Q2. subst info nconv.
  destruct r as [|x r]; [discriminate|].
  exists tol, eps23, ritz, bounds, (x :: r), b, irz, ibd, [x]. split; [|split; [|split; [|split; [|split; [exact E|split; [reflexivity|]]]]]].
  - repeat (apply Forall_cons; [split; [|split]; vm_compute; reflexivity|]). apply Forall_nil.
  - repeat (apply Forall_cons; [split; [|split]; vm_compute; reflexivity|]). apply Forall_nil.
  - repeat (apply Forall_cons; [apply exact_imag; vm_compute; reflexivity|]). apply Forall_nil.
  - repeat (apply Forall_cons; [apply exact_real; vm_compute; reflexivity|]). apply Forall_nil.
  - intros v i Hv Hi C. cbn in Hv. injection Hv as <-. apply cready_converged in C. unfold cready in C.
    destruct i as [|[|i]]; cbn [ritz nth_error] in Hi.
    + assert (F : cready axis_size tol eps23 ritz bounds 0 = false) by (vm_compute; reflexivity). unfold cready in F. cbn [ritz bounds nth_error] in F, C. congruence.
    + assert (Hx : (dofZ 0, dofZ (-3)) = x) by congruence. rewrite <- Hx in Q3. cbn [snd] in Q3. assert (F : deq (dofZ (-3)) (dofZ 3) = false) by (vm_compute; reflexivity). rewrite F in Q3. discriminate.
    + destruct i; discriminate.
Qed.

Lemma deq_zero_spot x : deq x (dofZ 0) = true -> spot x = 0%R.
Proof. destruct x as [s|[|]| |[|] m ex H]; cbn; try discriminate; auto. Qed.

(* A value whose estimate is equal to zero is not kept from being a shift, as it
   is meant to be, once a wanted value has converged: the values 1 to 6, of which
   the two largest are wanted; 6 has converged and 1 has an estimate of zero.  Two
   values more are kept, 3 and 4, and 1 is one of the two shifts. *)
Theorem C101_zero_shift_refuted : exists tol eps23 (ritz bounds : list (double * double)) r b e,
  Forall (cnumbers axis_size) ritz /\ Forall (cnumbers axis_size) bounds /\ Forall exact_size ritz /\ Forall exact_size bounds /\
  naup2_decide axis_size 21 "LM" 1 2 4 tol eps23 1 10 ritz bounds = Ok (CGo 4 2 r b) /\
  In e (firstn 2 b) /\ spot (fst e) = 0%R /\ spot (snd e) = 0%R.
Proof.
  set (tol := dofZ 1). set (eps23 := dofZ 1).
  set (ritz := map (fun k => (dofZ k, dofZ 0)) [1; 2; 3; 4; 5; 6]%Z). set (bounds := map (fun k => (dofZ k, dofZ 0)) [0; 9; 8; 7; 9; 1]%Z).
  assert (Q : match naup2_decide axis_size 21 "LM" 1 2 4 tol eps23 1 10 ritz bounds with
    | Ok (CGo nev np _ b) => (nev =? 4)%Z && (np =? 2)%Z && match b with _ :: e :: _ => deq (fst e) (dofZ 0) && deq (snd e) (dofZ 0) | _ => false end
    | _ => false end = true) by (vm_compute; reflexivity).
  destruct (naup2_decide axis_size 21 "LM" 1 2 4 tol eps23 1 10 ritz bounds) as [[|nev np r b]| | |] eqn:E; try discriminate Q.
  destruct b as [|e0 [|e b]]; try (rewrite Bool.andb_false_r in Q; discriminate Q).
  apply Bool.andb_true_iff in Q. destruct Q as [Q Q3]. apply Bool.andb_true_iff in Q. destruct Q as [Q1 Q2]. apply Z.eqb_eq in Q1, Q2. subst nev np.
  assert (N : Forall (cnumbers axis_size) bounds) by (unfold bounds; cbn [map]; repeat (apply Forall_cons; [split; [|split]; vm_compute; reflexivity|]); apply Forall_nil).
  exists tol, eps23, ritz, bounds, r, (e0 :: e :: b), e. split; [|split; [exact N|split; [|split; [|split; [exact E|split; [right; left; reflexivity|]]]]]].
  - unfold ritz; cbn [map]; repeat (apply Forall_cons; [split; [|split]; vm_compute; reflexivity|]); apply Forall_nil.
  - unfold ritz; cbn [map]; repeat (apply Forall_cons; [apply exact_real; vm_compute; reflexivity|]); apply Forall_nil.
  - unfold bounds; cbn [map]; repeat (apply Forall_cons; [apply exact_real; vm_compute; reflexivity|]); apply Forall_nil.
  - apply Bool.andb_true_iff in Q3. split; apply deq_zero_spot; apply Q3.
Qed.

(* a routine that reorders: it exists *)
Fixpoint select_front {A} (select : list bool) (l : list A) : list A :=
  match select, l with true :: s, x :: l => x :: select_front s l | _ :: s, _ :: l => select_front s l | _, _ => [] end.
Definition stable_trsen {A} (select : list bool) (l : list A) : list A * Z * Z :=
  (select_front select l ++ select_front (map negb select) l, Z.of_nat (length (select_front select l)), 0%Z).
Lemma select_front_picks {A} (select : list bool) (l : list A) : length select = length l ->
  picks (filter (fun i => nth i select false) (seq 0 (length l))) l (select_front select l) /\ length (select_front select l ++ select_front (map negb select) l) = length l.
Proof.
  intros L. split.
  - assert (K : forall s l k (f : nat -> bool) (g : nat -> option A), length s = length l -> (forall i, f (k + i) = nth i s false) -> (forall i, g (k + i) = nth_error l i) ->
      Forall2 (fun i x => g i = Some x) (filter f (seq k (length l))) (select_front s l)).
    { induction s as [|b s IH]; intros [|x r] k f g Ls Hf Hg; try discriminate; [constructor|]. cbn [List.length seq filter].
      pose proof (Hf 0) as F0. pose proof (Hg 0) as G0. rewrite Nat.add_0_r in F0, G0. cbn in F0, G0. rewrite F0.
      assert (T : Forall2 (fun i x => g i = Some x) (filter f (seq (S k) (length r))) (select_front s r)).
      { apply IH; [cbn in Ls; lia| |]; intros i; replace (S k + i) with (k + S i) by lia; [rewrite Hf|rewrite Hg]; reflexivity. }
      destruct b; cbn [select_front]; [constructor; [exact G0|exact T]|exact T]. }
    apply (K select l 0 (fun i => nth i select false) (nth_error l) L); intros; reflexivity.
  - rewrite app_length. revert l L. induction select as [|b s IH]; intros [|x l] L; try discriminate; [reflexivity|]. cbn in L.
    specialize (IH l ltac:(lia)). destruct b; cbn [map negb select_front List.length]; lia.
Qed.
Example stable_reorders : forall A, @reorders A stable_trsen.
Proof.
  intros A select l L. destruct (select_front_picks select l L) as [P Q].
  exists (filter (fun i => nth i select false) (seq 0 (length l))), (select_front select l ++ select_front (map negb select) l).
  split; [reflexivity|]. pose proof (picks_length _ _ _ P) as LP. split; [unfold stable_trsen; rewrite LP; reflexivity|]. split; [exact Q|].
  rewrite LP. rewrite firstn_prefix by reflexivity. exact P.
Qed.

(* five values, two wanted, both converged: the values that zneupd gives back, with
   the order of the places *)
Example C101_case :
  let ritz := map (fun k => (dofZ k, dofZ 0)) [3; -7; 2; -3; 6]%Z in let bounds := map (fun k => (dofZ k, dofZ 0)) [9; 1; 5; 5; 2]%Z in
  Forall (cnumbers axis_size) ritz /\ Forall (cnumbers axis_size) bounds /\ Forall (faithful axis_size) bounds /\
  match naup2_decide axis_size 18 "LM" 1 2 3 (dofZ 1) (dofZ 1) 1 10 ritz bounds with
  | Ok (CExit info nconv _ _ irz ibd) =>
    match zneupd_values axis_size stable_trsen 18 "LM" 5 nconv (dofZ 1) (dofZ 1) irz ibd ritz with
    | Ok (i, d) => (info, nconv, i, map (fun z => (deq (fst z) (dofZ (-7)), deq (fst z) (dofZ 6))) d)
    | _ => (-1, -1, -1, [])%Z end
  | _ => (-2, -2, -2, [])%Z end = (0, 2, 0, [(true, false); (false, true)])%Z.
Proof.
  intros ritz bounds. split; [|split; [|split; [|vm_compute; reflexivity]]].
  - unfold ritz; cbn [map]; repeat (apply Forall_cons; [split; [|split]; vm_compute; reflexivity|]); apply Forall_nil.
  - unfold bounds; cbn [map]; repeat (apply Forall_cons; [split; [|split]; vm_compute; reflexivity|]); apply Forall_nil.
  - assert (K : forall x, is_number x -> faithful axis_size (x, dofZ 0)).
    { intros x Hx. pose proof (exact_real x Hx) as E. unfold exact_size in E. unfold faithful. cbn [fst snd] in *. rewrite E.
      assert (E0 : spot (dofZ 0) = 0%R) by reflexivity. rewrite E0. split; [apply sqrt_pos|].
      replace (spot x ^ 2 + 0 ^ 2)%R with (Rsqr (spot x)) by (unfold Rsqr; ring). rewrite sqrt_Rsqr_abs. split; [|intros [-> _]; apply Rabs_R0].
      intros H. split; [|reflexivity]. destruct (Req_dec (spot x) 0); [assumption|]. apply Rabs_no_R0 in H0. contradiction. }
    unfold bounds; cbn [map]; repeat (apply Forall_cons; [apply K; vm_compute; reflexivity|]); apply Forall_nil.
Qed.

(* one of two wanted values has converged when the limit of iterations is reached *)
Example C101_values_any_case : let ritz := map (fun k => (dofZ k, dofZ 0)) [3; -7; 2]%Z in let bounds := map (fun k => (dofZ k, dofZ 0)) [9; 1; 5]%Z in
  Forall (cnumbers axis_size) ritz /\ Forall (cnumbers axis_size) bounds /\
  (forall i x e, nth_error ritz i = Some x -> nth_error bounds i = Some e -> cnumbers axis_size (crelative axis_size (dofZ 1) x e)) /\
  (forall i j x y, nth_error ritz i = Some x -> nth_error ritz j = Some y -> cwish axis_size "LM" x = cwish axis_size "LM" y -> i = j) /\
  match naup2_decide axis_size 12 "LM" 1 2 1 (dofZ 1) (dofZ 1) 11 10 ritz bounds with
  | Ok (CExit info nconv r _ _ _) => match zneupd_alone nconv r with Ok d => (info, nconv, map (fun x => deq (fst x) (dofZ (-7))) d) | _ => (-1, -1, [])%Z end
  | _ => (-1, -1, [])%Z end = (1, 1, [true])%Z.
Proof.
  intros ritz bounds. split; [|split; [|split; [|split; [|vm_compute; reflexivity]]]].
  - unfold ritz; cbn [map]; repeat (apply Forall_cons; [split; [|split]; vm_compute; reflexivity|]); apply Forall_nil.
  - unfold bounds; cbn [map]; repeat (apply Forall_cons; [split; [|split]; vm_compute; reflexivity|]); apply Forall_nil.
  - intros i x e Hx He. unfold ritz, bounds in *. cbn [map] in *. destruct i as [|[|[|[|i]]]]; cbn [nth_error] in Hx, He; try discriminate Hx;
      (assert (Ex : x = fst (x, e)) by reflexivity); inversion Hx; subst x; inversion He; subst e; (split; [|split]); vm_compute; reflexivity.
  - assert (V : forall k, In k [3; -7; 2]%Z -> cwish axis_size "LM" (dofZ k, dofZ 0) = IZR (Z.abs k)).
    { intros k Hk. assert (Hb : (Z.abs k <= 2 ^ 53)%Z) by (cbn in Hk; destruct Hk as [<-|[<-|[<-|[]]]]; lia).
      destruct (dofZ_ok k Hb) as [F1 F2]. assert (Es : spot (dofZ k) = value (dofZ k)) by (destruct (dofZ k); [reflexivity|discriminate F1|discriminate F1|reflexivity]).
      assert (Nk : is_number (dofZ k)) by (destruct (dofZ k); [reflexivity|reflexivity|discriminate F1|reflexivity]).
      pose proof (exact_real (dofZ k) Nk) as E. unfold exact_size in E. cbn [fst snd] in E. assert (E0 : spot (dofZ 0) = 0%R) by reflexivity.
      unfold cwish. cbn [String.eqb Ascii.eqb Bool.eqb fst snd]. rewrite E, E0, Es, F2.
      replace (IZR k ^ 2 + 0 ^ 2)%R with (Rsqr (IZR k)) by (unfold Rsqr; ring). rewrite sqrt_Rsqr_abs, <- abs_IZR. reflexivity. }
    assert (N : forall i x, nth_error ritz i = Some x -> exists k, nth_error [3; -7; 2]%Z i = Some k /\ cwish axis_size "LM" x = IZR (Z.abs k)).
    { intros i x Hx. unfold ritz in Hx. rewrite nth_error_map in Hx. destruct (nth_error [3; -7; 2]%Z i) as [k|] eqn:Ek; [|discriminate Hx].
      cbn [option_map] in Hx. assert (Hx' : (dofZ k, dofZ 0) = x) by (apply (f_equal (fun o => match o with Some z => z | None => x end)) in Hx; exact Hx). subst x.
      exists k. split; [reflexivity|]. apply V. apply nth_error_In in Ek. exact Ek. }
    intros i j x y Hx Hy Hw. destruct (N i x Hx) as (k & Ki & Wk). destruct (N j y Hy) as (k' & Kj & Wk'). rewrite Wk, Wk' in Hw. apply eq_IZR in Hw.
    destruct i as [|[|[|i]]]; cbn in Ki; try (destruct i; discriminate Ki); injection Ki as <-; (destruct j as [|[|[|j]]]; cbn in Kj; try (destruct j; discriminate Kj); injection Kj as <-; cbn in Hw; try discriminate Hw; reflexivity).
Qed.

Print Assumptions C101_zngets.
Print Assumptions C101_iteration_partial.
Print Assumptions C101_vectors.
Print Assumptions C101_values_partial.
Print Assumptions C101_values_any_partial.
Print Assumptions C101_values_ties_refuted.
Print Assumptions C101_zero_shift_refuted.

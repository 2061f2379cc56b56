(* C96: which eigenvalues the bundled ARPACK selects for real problems *)
From Coq Require Import String List Reals Permutation Lia Lra ZArith.
From Verif Require Import Base M_Double S_Double M_DoubleReduce S_DoubleReduce M_ArpackSort S_ArpackSort L_ArpackSort L_ArpackOrder S_ArpackSelect M_ArpackSelect L_ArpackSelect L_ArpackSelect2 L_ArpackSelect3 L_ArpackSelect4 L_ArpackSelect5 L_ArpackSelect6 L_Double.
Import ListNotations.
Local Open Scope nat_scope.

(* dsgets: for every number of values and every code, also for both ends, the
   values and their estimates are moved together, the wanted ones come last, and
   with exact shifts the others come first with decreasing estimates and are the
   shifts. *)
Theorem C96_dsgets : forall fuel ishift which kev np (ritz bounds shifts : list double),
  real_code which -> length ritz = kev + np -> length bounds = kev + np -> np <= length shifts -> 3 * (kev + np) + 2 < fuel ->
  Forall is_number ritz -> Forall is_number bounds ->
  exists p y z s, dsgets fuel ishift which (Z.of_nat kev) (Z.of_nat np) ritz bounds shifts = Ok (y, z, s) /\
    Permutation p (seq 0 (kev + np)) /\ picks p ritz y /\ picks p bounds z /\ wanted which kev ritz (skipn np p) /\
    (ishift = 1%Z -> increasing (wish "SM") np z /\ s = firstn np y ++ skipn np shifts) /\ (ishift <> 1%Z -> s = shifts).
Proof.
  intros fuel ishift which kev np ritz bounds shifts Hw Lr Lb Ls Hf Gr Gb.
  destruct (dsgets_spec fuel ishift which kev np ritz bounds shifts Hw Lr Lb Ls Hf Gr Gb) as (p0 & p & y & z & s & H). exists p, y, z, s. tauto.
Qed.

(* The end of an iteration, from any values and estimates that are numbers.  V are
   the wanted values that pass the test.  Either the iterations end: then nconv is
   the number of V, the code is 0 only if all wanted values have converged, and
   the values left in front are wanted ones, those with the smallest estimates
   relative to their magnitudes, ordered; or they go on, with more
   values kept, at least one shift, and none of the wanted values is a shift. *)
Theorem C96_iteration_partial : forall fuel which ishift nev0 np0 tol eps23 iter mxiter (ritz bounds shifts : list double),
  known_code which -> length ritz = nev0 + np0 -> length bounds = nev0 + np0 -> nev0 + np0 <= length shifts -> 3 * (nev0 + np0) + 2 < fuel ->
  Forall is_number ritz -> Forall is_number bounds ->
  exists W V d, most_wished (wish which) nev0 ritz W /\ NoDup V /\ (forall i, In i V <-> In i W /\ converged tol eps23 ritz bounds i) /\
    saup2_decide fuel which ishift (Z.of_nat nev0) (Z.of_nat np0) tol eps23 iter mxiter ritz bounds shifts = Ok d /\
    match d with
    | Exit info nconv r b irz ibd =>
      nconv = Z.of_nat (length V) /\ irz = ritz /\ ibd = bounds /\ length r = nev0 + np0 /\
      (info = 0%Z -> length V = nev0) /\ (length V = nev0 -> (iter <= mxiter)%Z -> info = 0%Z) /\
      (info = 0%Z \/ info = 1%Z /\ (mxiter < iter)%Z \/
       info = 2%Z /\ forall i e, ~ In i W -> nth_error bounds i = Some e -> value e = 0%R) /\
      exists W' V', most_wished (wish which) nev0 ritz W' /\ choice (nev0 + np0) (length V) V' /\ incl V' W' /\
        ((forall i x e, nth_error ritz i = Some x -> nth_error bounds i = Some e -> is_number (relative eps23 (dabs x) e)) ->
         forall i j x e x' e', In i V' -> In j W' -> ~ In j V' -> nth_error ritz i = Some x -> nth_error bounds i = Some e -> nth_error ritz j = Some x' -> nth_error bounds j = Some e' ->
           (spot (relative eps23 (dabs x) e) <= spot (relative eps23 (dabs x') e'))%R) /\
        picks V' ritz (firstn (length V) r) /\ increasing (wish which) (length V) r
    | Go nev np r b s =>
      length V < nev0 /\ (iter <= mxiter)%Z /\
      exists kev knp p, nev = Z.of_nat kev /\ np = Z.of_nat knp /\ kev + knp = nev0 + np0 /\ nev0 <= kev /\ 1 <= knp /\
        Permutation p (seq 0 (nev0 + np0)) /\ picks p ritz r /\ picks p bounds b /\ (ishift = 1%Z -> firstn knp s = firstn knp r) /\
        exists W', most_wished (wish which) nev0 ritz W' /\ incl W' (skipn knp p)
    end.
Proof.
  intros fuel which ishift nev0 np0 tol eps23 iter mxiter ritz bounds shifts Hw Lr Lb Ls Hf Gr Gb.
  destruct (decide_starts fuel which ishift nev0 np0 tol eps23 iter mxiter ritz bounds shifts (or_introl Hw) Lr Lb Ls Hf Gr Gb)
    as (p0 & p & y & z & s & c & Pp & Py & Pz & W & S1 & Lsh & _ & _ & _ & Hc & Ec & E).
  cbv zeta in E. set (V := filter (ready tol eps23 ritz bounds) (skipn np0 p)) in *.
  destruct (opposite_known which Hw) as (_ & _ & Hbe). unfold wanted in W. rewrite Hbe in W.
  assert (Lp : length p = nev0 + np0) by (rewrite (Permutation_length Pp), seq_length; reflexivity).
  assert (Ly : length y = nev0 + np0) by (rewrite <- (picks_length _ _ _ Py); exact Lp).
  assert (Lz : length z = nev0 + np0) by (rewrite <- (picks_length _ _ _ Pz); exact Lp).
  assert (NV : NoDup V) by (apply NoDup_filter; apply W).
  assert (LV : length V <= nev0).
  { destruct W as [(_ & _ & L) _]. rewrite <- L. apply NoDup_incl_length; [exact NV|]. intros i Hi. apply filter_In in Hi. apply Hi. }
  assert (HV : forall i, In i V <-> In i (skipn np0 p) /\ converged tol eps23 ritz bounds i).
  { intros i. unfold V. rewrite filter_In, ready_converged. reflexivity. }
  exists (skipn np0 p), V.
  destruct ((Z.of_nat nev0 <=? Z.of_nat (length V))%Z || (mxiter <? iter)%Z || (Z.of_nat np0 - Z.of_nat c =? 0)%Z) eqn:Ex.
  - destruct (exit_places fuel which eps23 nev0 np0 (Z.of_nat nev0 + Z.of_nat c) (Z.of_nat np0 - Z.of_nat c) (length V) ritz bounds y z p Hw Lr Pp Py Pz Hf LV Gr)
      as (W' & V' & r & b & MW & CV & IV & LS & PV & O & Ee & Le).
    rewrite Ee in E. cbn [bind] in E. eexists. split; [exact W|]. split; [exact NV|]. split; [exact HV|]. split; [exact E|]. cbv beta iota.
    split; [reflexivity|]. split; [reflexivity|]. split; [reflexivity|]. split; [exact Le|].
    split; [|split; [|split]].
    + intros Hi.
      destruct (Z.eqb_spec (Z.of_nat np0 - Z.of_nat c) 0), (Z.ltb_spec (Z.of_nat (length V)) (Z.of_nat nev0)), (Z.ltb_spec mxiter iter),
        (Z.ltb_spec (Z.of_nat (length V)) (Z.of_nat nev0 + Z.of_nat c)), (Z.leb_spec (Z.of_nat nev0) (Z.of_nat (length V))); cbn in Hi, Ex; try discriminate; lia.
    + intros Hv Hit. destruct (Z.ltb_spec mxiter iter); [lia|]. destruct (Z.ltb_spec (Z.of_nat (length V)) (Z.of_nat nev0)); [lia|]. rewrite Bool.andb_false_r. reflexivity.
    + destruct (Z.eqb_spec (Z.of_nat np0 - Z.of_nat c) 0) as [Hz|Hz]; cbn [andb].
      * destruct (Z.ltb_spec (Z.of_nat (length V)) (Z.of_nat nev0)); [|destruct (Z.ltb_spec mxiter iter); [|left; reflexivity]; destruct (Z.ltb_spec (Z.of_nat (length V)) (Z.of_nat nev0 + Z.of_nat c)); cbn [andb]; auto].
        right. right. split; [reflexivity|]. intros i e Hi He. apply deq_zero.
        assert (Hin : i < nev0 + np0) by (rewrite <- Lb; apply nth_error_Some; rewrite He; discriminate).
        destruct (place_of _ p np0 i Pp Hin) as [[Hi' _]|[Hi' _]]; [|contradiction].
        assert (A : forall x, In x (firstn np0 z) -> deq x (dofZ 0) = true).
        { apply filter_all. rewrite <- Ec, firstn_length. lia. }
        apply A. destruct (picks_in_l _ _ _ _ (picks_firstn np0 _ _ _ Pz) Hi') as (x & Hx & Ex'). rewrite He in Ex'. injection Ex' as <-. exact Hx.
      * destruct (Z.ltb_spec mxiter iter); [|left; reflexivity]. destruct (Z.ltb_spec (Z.of_nat (length V)) (Z.of_nat nev0 + Z.of_nat c)); cbn [andb]; auto.
    + exists W', V'. rewrite Lr in CV. split; [exact MW|]. split; [exact CV|]. split; [exact IV|]. split; [exact LS|]. split; [exact PV|exact O].
  - apply Bool.orb_false_elim in Ex. destruct Ex as [Ex E3]. apply Bool.orb_false_elim in Ex. destruct Ex as [E1 E2].
    assert (Hlt : length V < nev0) by lia. assert (Hnp : c < np0) by lia. clear E1 E3.
    assert (Keep : forall kev knp, kev = nev0 + c -> knp = np0 - c -> 
      exists kev' knp' p', Z.of_nat kev = Z.of_nat kev' /\ Z.of_nat knp = Z.of_nat knp' /\ kev' + knp' = nev0 + np0 /\ nev0 <= kev' /\ 1 <= knp' /\
        Permutation p' (seq 0 (nev0 + np0)) /\ picks p' ritz y /\ picks p' bounds z /\ (ishift = 1%Z -> firstn knp' s = firstn knp' y) /\
        exists W', most_wished (wish which) nev0 ritz W' /\ incl W' (skipn knp' p')).
    { intros kev knp -> ->. exists (nev0 + c), (np0 - c), p. do 2 (split; [reflexivity|]). do 3 (split; [lia|]). split; [exact Pp|]. split; [exact Py|]. split; [exact Pz|].
      split; [|exists (skipn np0 p); split; [exact W|apply incl_skipn; lia]].
      intros Hi. rewrite (S1 Hi), firstn_app, firstn_firstn, firstn_length. replace (Nat.min (np0 - c) np0) with (np0 - c) by lia.
      replace (np0 - c - Nat.min np0 (length y)) with 0 by lia. rewrite firstn_O, app_nil_r. reflexivity. }
    replace (Z.of_nat (length V) <? Z.of_nat nev0 + Z.of_nat c)%Z with true in E by lia. cbn [andb] in E.
    destruct (Z.eqb_spec ishift 1) as [Hi|Hi].
    2:{ eexists. split; [exact W|]. split; [exact NV|]. split; [exact HV|]. split; [exact E|]. split; [exact Hlt|]. split; [lia|].
      replace (Z.of_nat nev0 + Z.of_nat c)%Z with (Z.of_nat (nev0 + c)) by lia. replace (Z.of_nat np0 - Z.of_nat c)%Z with (Z.of_nat (np0 - c)) by lia. apply Keep; reflexivity. }
    (* the new number of kept values *)
    assert (New : exists kev knp, kev + knp = nev0 + np0 /\ nev0 + c <= kev /\ 1 <= knp /\
      (let nev' := (Z.of_nat nev0 + Z.of_nat c + Z.min (Z.of_nat (length V)) (Z.quot (Z.of_nat np0 - Z.of_nat c) 2))%Z in
       if (nev' =? 1)%Z && (6 <=? Z.of_nat nev0 + Z.of_nat np0)%Z then Z.quot (Z.of_nat nev0 + Z.of_nat np0) 2 else if (nev' =? 1)%Z && (2 <? Z.of_nat nev0 + Z.of_nat np0)%Z then 2%Z else nev') = Z.of_nat kev).
    { rewrite <- Nat2Z.inj_add. replace (Z.of_nat np0 - Z.of_nat c)%Z with (Z.of_nat (np0 - c)) by lia. rewrite <- Nat2Z.inj_add.
      change 2%Z with (Z.of_nat 2). rewrite !quot_of_nat by lia. cbv zeta.
      assert (D1 : (np0 - c) / 2 < np0 - c) by (apply Nat.div_lt; lia).
      assert (D2 : (nev0 + np0) / 2 < nev0 + np0) by (apply Nat.div_lt; lia).
      assert (D3 : 2 * ((nev0 + np0) / 2) <= nev0 + np0) by (apply Nat.mul_div_le; lia).
      destruct (Z.eqb_spec (Z.of_nat (nev0 + c) + Z.min (Z.of_nat (length V)) (Z.of_nat ((np0 - c) / 2))) 1) as [H1|H1]; cbn [andb].
      - destruct (Z.leb_spec 6 (Z.of_nat (nev0 + np0))) as [H2|H2].
        + assert (1 <= (nev0 + np0) / 2) by (apply Nat.div_le_lower_bound; lia). exists ((nev0 + np0) / 2), (nev0 + np0 - (nev0 + np0) / 2). repeat split; lia.
        + destruct (Z.ltb_spec (Z.of_nat 2) (Z.of_nat (nev0 + np0))) as [H3|H3].
          * exists 2, (nev0 + np0 - 2). repeat split; lia.
          * exists (nev0 + c), (np0 - c). repeat split; lia.
      - exists (nev0 + c + Nat.min (length V) ((np0 - c) / 2)), (np0 - c - Nat.min (length V) ((np0 - c) / 2)). repeat split; try lia. }
    destruct New as (kev & knp & K1 & K2 & K3 & K4). cbv zeta in K4. rewrite K4 in E.
    replace (Z.of_nat nev0 + Z.of_nat np0 - Z.of_nat kev)%Z with (Z.of_nat knp) in E by lia.
    destruct (Z.ltb_spec (Z.of_nat nev0 + Z.of_nat c) (Z.of_nat kev)) as [H1|H1].
    2:{ eexists. split; [exact W|]. split; [exact NV|]. split; [exact HV|]. split; [exact E|]. split; [exact Hlt|]. split; [lia|]. apply Keep; lia. }
    destruct (dsgets_spec fuel ishift which kev knp y z s (or_introl Hw) ltac:(lia) ltac:(lia) ltac:(lia) ltac:(lia) (picks_numbers _ _ _ Py Gr) (picks_numbers _ _ _ Pz Gb))
      as (q0 & q & y2 & z2 & s2 & E4 & Pq & Qy & Qz & _ & T1 & _ & Tq & Pq0 & _ & M).
    rewrite E4 in E. cbn [bind fst snd] in E. eexists. split; [exact W|]. split; [exact NV|]. split; [exact HV|]. split; [exact E|]. split; [exact Hlt|]. split; [lia|].
    rewrite K1 in Pq, Pq0.
    assert (Bq : forall i, In i q -> i < nev0 + np0) by (intros i Hin; rewrite Pq in Hin; apply in_seq in Hin; lia).
    destruct (picks_exists q p) as (r & Hr); [intros i Hin; rewrite Lp; auto|].
    exists kev, knp, r. split; [reflexivity|]. split; [reflexivity|]. do 3 (split; [lia|]).
    split; [rewrite <- Pp; apply (picks_perm q); [rewrite Lp; exact Pq|exact Hr]|]. split; [eapply picks_trans; eassumption|]. split; [eapply picks_trans; eassumption|].
    split. { intros _. rewrite (proj2 (T1 Hi)), firstn_app, firstn_firstn, Nat.min_id, firstn_length.
      assert (Ly2 : length y2 = nev0 + np0) by (rewrite <- (picks_length _ _ _ Qy), (Permutation_length Pq), seq_length; reflexivity).
      replace (knp - Nat.min knp (length y2)) with 0 by lia. rewrite firstn_O, app_nil_r. reflexivity. }
    specialize (M Hw nev0 ltac:(lia)).
    assert (Sub : incl (skipn (kev + knp - nev0) q0) (skipn knp q)) by (rewrite <- Tq; apply incl_skipn; lia).
    destruct (picks_exists (skipn (kev + knp - nev0) q0) p) as (W' & HW').
    { intros i Hin. rewrite Lp. apply Bq. apply Sub in Hin. apply In_skipn in Hin. destruct Hin as (k & _ & Hk). apply nth_error_In in Hk. exact Hk. }
    exists W'. split; [exact (most_wished_moved (wish which) nev0 ritz y _ p _ W' Pp Lr Py M HW')|].
    intros i Hin. destruct (picks_in _ _ _ _ HW' Hin) as (a & Ha & Ea). apply Sub in Ha.
    destruct (picks_in_l _ _ _ _ (picks_skipn knp _ _ _ Hr) Ha) as (x & Hx & Ex). rewrite Ea in Ex. injection Ex as <-. exact Hx.
Qed.

(* With vectors: after the iterations have ended, with any code, the values and
   the columns given back are those of the wanted values that have converged, all
   of them, each value with its column and in increasing order; the count always
   agrees, so that the error -17 is never given. *)
Theorem C96_vectors : forall B fuel which ishift nev0 np0 tol eps23 iter mxiter (ritz bounds shifts hd : list double) (q : list B) info nconv r b irz ibd,
  real_code which -> length ritz = nev0 + np0 -> length bounds = nev0 + np0 -> nev0 + np0 <= length shifts -> 3 * (nev0 + np0) + 2 < fuel ->
  Forall is_number ritz -> Forall is_number bounds ->
  saup2_decide fuel which ishift (Z.of_nat nev0) (Z.of_nat np0) tol eps23 iter mxiter ritz bounds shifts = Ok (Exit info nconv r b irz ibd) ->
  let n := nev0 + np0 in length hd = n -> length q = n * n -> Forall is_number hd ->
  exists W V d q', wanted which nev0 ritz W /\ NoDup V /\ (forall i, In i V <-> In i W /\ converged tol eps23 ritz bounds i) /\ nconv = Z.of_nat (length V) /\
    dseupd_vectors fuel which (Z.of_nat nev0) (Z.of_nat n) nconv tol eps23 irz ibd hd q = Ok (0%Z, d, q') /\
    length d = length V /\ increasing (wish "LA") (length V) d /\
    picks V (combine hd (columns n n q)) (combine d (columns n (length V) q')).
Proof.
  intros B fuel which ishift nev0 np0 tol eps23 iter mxiter ritz bounds shifts hd q info nconv r b irz ibd Hw Lr Lb Ls Hf Gr Gb H n Lh Lq Gh.
  destruct (decide_starts fuel which ishift nev0 np0 tol eps23 iter mxiter ritz bounds shifts Hw Lr Lb Ls Hf Gr Gb)
    as (p0 & p & y & z & s & c & Pp & Py & Pz & W & _ & _ & Es & P0 & (y0 & Py0 & Ha) & Hc & Ec & E).
  cbv zeta in E. rewrite H in E. clear H.
  set (V0 := filter (ready tol eps23 ritz bounds) (skipn np0 p)) in *.
  assert (X : nconv = Z.of_nat (length V0) /\ irz = ritz /\ ibd = bounds).
  { destruct ((Z.of_nat nev0 <=? Z.of_nat (length V0))%Z || (mxiter <? iter)%Z || (Z.of_nat np0 - Z.of_nat c =? 0)%Z).
    - match type of E with _ = bind ?x _ => destruct x as [[r' b']| | |] end; cbn [bind] in E; try discriminate. injection E as _ -> _ _ -> ->. auto.
    - exfalso. match type of E with _ = (if ?c then _ else _) => destruct c end; [|discriminate].
      match type of E with _ = (if ?c then _ else _) => destruct c end; [|discriminate].
      match type of E with _ = bind ?x _ => destruct x as [[[? ?] ?]| | |] end; cbn [bind] in E; discriminate. }
  destruct X as (-> & -> & ->). clear E.
  destruct (dseupd_places fuel which nev0 np0 tol eps23 ritz bounds hd y0 q p0 (length V0) Lr Lb Lh Lq Gh Hf P0 Py0 Ha) as (V & d & q' & E & PV & Ld & O & PK).
  { unfold V0. rewrite Es. reflexivity. }
  rewrite Es in PV. fold V0 in PV. pose proof (Permutation_length PV) as LV. rewrite <- LV in *.
  exists (skipn np0 p), V, d, q'. split; [exact W|].
  split; [eapply Permutation_NoDup; [symmetry; exact PV|]; apply NoDup_filter; unfold wanted in W; destruct (String.eqb which "BE"); apply W|].
  split; [intros i; rewrite PV; unfold V0; rewrite filter_In, ready_converged; reflexivity|]. split; [reflexivity|].
  split; [exact E|]. split; [exact Ld|]. split; [exact O|exact PK].
Qed.

(* Without vectors the values given back are those in front.  If all wanted values
   have converged, and no two of the values are wished the same, they are the
   wanted values. *)
Theorem C96_values_partial : forall fuel which ishift nev0 np0 tol eps23 iter mxiter (ritz bounds shifts : list double) nconv r b irz ibd,
  known_code which -> length ritz = nev0 + np0 -> length bounds = nev0 + np0 -> nev0 + np0 <= length shifts -> 3 * (nev0 + np0) + 2 < fuel ->
  Forall is_number ritz -> Forall is_number bounds ->
  (forall i j x y, nth_error ritz i = Some x -> nth_error ritz j = Some y -> wish which x = wish which y -> i = j) ->
  saup2_decide fuel which ishift (Z.of_nat nev0) (Z.of_nat np0) tol eps23 iter mxiter ritz bounds shifts = Ok (Exit 0 nconv r b irz ibd) ->
  exists W d, most_wished (wish which) nev0 ritz W /\ (forall i, In i W -> converged tol eps23 ritz bounds i) /\
    dseupd_values nconv r = Ok d /\ picks W ritz d /\ increasing (wish which) nev0 d.
Proof.
  intros fuel which ishift nev0 np0 tol eps23 iter mxiter ritz bounds shifts nconv r b irz ibd Hw Lr Lb Ls Hf Gr Gb Inj H.
  destruct (C96_iteration_partial fuel which ishift nev0 np0 tol eps23 iter mxiter ritz bounds shifts Hw Lr Lb Ls Hf Gr Gb) as (W & V & d & MW & NV & HV & E & D).
  rewrite H in E. injection E as <-. cbv beta iota in D. destruct D as (-> & _ & _ & Le & I0 & _ & _ & W' & V' & MW' & (N' & B' & L') & IV & _ & PV & O).
  specialize (I0 eq_refl). rewrite I0 in *.
  assert (WV : incl W V). { apply (NoDup_length_incl NV); [destruct MW as [(_ & _ & L) _]; lia|]. intros i Hi. apply HV in Hi. apply Hi. }
  exists V', (firstn nev0 r). 
  assert (CV : incl V' W). { intros i Hi. apply (same_choice (wish which) nev0 ritz W' W MW' MW Inj). apply IV, Hi. }
  assert (WC : incl W' V') by (apply (NoDup_length_incl N'); [destruct MW' as [(_ & _ & L) _]; lia|exact IV]).
  split; [|split; [|split; [|split]]].
  - split; [split; [exact N'|split; [intros i Hi; rewrite Lr; apply B', Hi|exact L']]|]. intros i j x v Hi Hj. apply MW'; [intros Hc; apply Hi, WC, Hc|apply IV, Hj].
  - intros i Hi. apply HV. apply WV, CV, Hi.
  - unfold dseupd_values. rewrite Nat2Z.id. apply reads_firstn. lia.
  - exact PV.
  - intros i j x v Hij Hx Hv. rewrite nth_error_firstn in Hx, Hv. destruct (i <? nev0), (j <? nev0); try discriminate. eapply O; eassumption.
Qed.

(* The same however the iterations have ended: the values given back are wanted
   ones, as many as have converged, and each of them has converged or has an
   estimate, relative to its magnitude, that is not larger than that of one that
   has. *)
Theorem C96_values_any_partial : forall fuel which ishift nev0 np0 tol eps23 iter mxiter (ritz bounds shifts : list double) info nconv r b irz ibd,
  known_code which -> length ritz = nev0 + np0 -> length bounds = nev0 + np0 -> nev0 + np0 <= length shifts -> 3 * (nev0 + np0) + 2 < fuel ->
  Forall is_number ritz -> Forall is_number bounds ->
  (forall i x e, nth_error ritz i = Some x -> nth_error bounds i = Some e -> is_number (relative eps23 (dabs x) e)) ->
  (forall i j x y, nth_error ritz i = Some x -> nth_error ritz j = Some y -> wish which x = wish which y -> i = j) ->
  saup2_decide fuel which ishift (Z.of_nat nev0) (Z.of_nat np0) tol eps23 iter mxiter ritz bounds shifts = Ok (Exit info nconv r b irz ibd) ->
  exists W V' d, most_wished (wish which) nev0 ritz W /\ NoDup V' /\ incl V' W /\ nconv = Z.of_nat (length V') /\
    dseupd_values nconv r = Ok d /\ picks V' ritz d /\ increasing (wish which) (length V') d /\
    (forall i, In i W -> converged tol eps23 ritz bounds i -> ~ In i V' ->
     exists j, In j V' /\ ~ converged tol eps23 ritz bounds j) /\
    forall i, In i V' -> converged tol eps23 ritz bounds i \/
      exists j x e x' e', In j W /\ converged tol eps23 ritz bounds j /\ nth_error ritz i = Some x /\ nth_error bounds i = Some e /\
        nth_error ritz j = Some x' /\ nth_error bounds j = Some e' /\ (spot (relative eps23 (dabs x) e) <= spot (relative eps23 (dabs x') e'))%R.
Proof.
  intros fuel which ishift nev0 np0 tol eps23 iter mxiter ritz bounds shifts info nconv r b irz ibd Hw Lr Lb Ls Hf Gr Gb Gd Inj H.
  destruct (C96_iteration_partial fuel which ishift nev0 np0 tol eps23 iter mxiter ritz bounds shifts Hw Lr Lb Ls Hf Gr Gb) as (W & V & d & MW & NV & HV & E & D).
  rewrite H in E. injection E as <-. cbv beta iota in D. destruct D as (-> & _ & _ & Le & I0 & _ & _ & W' & V' & MW' & (N' & B' & L') & IV & LS & PV & O).
  assert (CV : incl V' W). { intros i Hi. apply (same_choice (wish which) nev0 ritz W' W MW' MW Inj). apply IV, Hi. }
  assert (WW : incl W W') by exact (same_choice (wish which) nev0 ritz W W' MW MW' Inj).
  assert (LV : length V <= nev0). { destruct MW as [(_ & _ & L) _]. rewrite <- L. apply (NoDup_incl_length NV). intros i Hi. apply HV in Hi. apply Hi. }
  exists W, V', (firstn (length V) r). rewrite L'.
  split; [exact MW|]. split; [exact N'|]. split; [exact CV|]. split; [reflexivity|].
  split; [unfold dseupd_values; rewrite Nat2Z.id; apply reads_firstn; lia|]. split; [exact PV|].
  split; [|split].
  - intros i j x v Hij Hx Hv. rewrite nth_error_firstn in Hx, Hv. destruct (i <? length V), (j <? length V); try discriminate. eapply O; eassumption.
  - intros i Hi Ci Hn. destruct (other_one V' V i N' ltac:(lia) (proj2 (HV i) (conj Hi Ci)) Hn) as (j & Hj & Hj'). exists j. split; [exact Hj|].
    intros Cj. apply Hj'. apply HV. split; [apply CV, Hj|exact Cj].
  - intros i Hi. destruct (in_dec Nat.eq_dec i V) as [Hv|Hv]; [left; apply HV, Hv|right].
    destruct (other_one V V' i NV ltac:(lia) Hi Hv) as (j & Hj & Hj').
    apply HV in Hj. destruct Hj as [HjW Cj].
    assert (Bi : i < nev0 + np0) by (apply B', Hi). assert (Bj : j < nev0 + np0) by (rewrite <- Lr; destruct MW as [(_ & B & _) _]; apply B, HjW).
    destruct (nth_error_lt ritz i) as [x Hx]; [lia|]. destruct (nth_error_lt bounds i) as [e He]; [lia|].
    destruct (nth_error_lt ritz j) as [x' Hx']; [lia|]. destruct (nth_error_lt bounds j) as [e' He']; [lia|].
    exists j, x, e, x', e'. do 6 (split; [assumption|]). exact (LS Gd i j x e x' e' Hi (WW j HjW) Hj' Hx He Hx' He').
Qed.

(* With ties it may give back another value of the same magnitude that has not
   converged: 3 and -3, of which -3 has converged. *)
Theorem C96_values_ties_refuted : exists tol eps23 (ritz bounds : list double) r b irz ibd d,
  Forall is_number ritz /\ Forall is_number bounds /\
  saup2_decide 9 "LM" 1 1 1 tol eps23 1 10 ritz bounds [dofZ 0; dofZ 0] = Ok (Exit 0 1 r b irz ibd) /\ dseupd_values 1 r = Ok d /\
  forall x i, nth_error d 0 = Some x -> nth_error ritz i = Some x -> ~ converged tol eps23 ritz bounds i.
Proof.
  set (tol := dofZ 1). set (eps23 := dofZ 1). set (ritz := [dofZ 3; dofZ (-3)]). set (bounds := [dofZ 4; dofZ 2]).
  assert (Q : match saup2_decide 9 "LM" 1 1 1 tol eps23 1 10 ritz bounds [dofZ 0; dofZ 0] with
    | Ok (Exit info nconv r _ _ _) => (info =? 0)%Z && (nconv =? 1)%Z && match r with x :: _ => deq x (dofZ 3) | [] => false end
    | _ => false end = true) by (vm_compute; reflexivity).
  destruct (saup2_decide 9 "LM" 1 1 1 tol eps23 1 10 ritz bounds [dofZ 0; dofZ 0]) as [[info nconv r b irz ibd|]| | |] eqn:E; try discriminate.
  apply Bool.andb_true_iff in Q. destruct Q as [Q Q3]. apply Bool.andb_true_iff in Q. destruct Q as [Q1 Q2]. apply Z.eqb_eq in Q1, Q2. subst info nconv.
  destruct r as [|x r]; [discriminate|].
  exists tol, eps23, ritz, bounds, (x :: r), b, irz, ibd, [x]. split; [|split; [|split; [exact E|split; [reflexivity|]]]].
  - repeat (apply Forall_cons; [vm_compute; reflexivity|]). apply Forall_nil.
  - repeat (apply Forall_cons; [vm_compute; reflexivity|]). apply Forall_nil.
  - intros v i Hv Hi C. cbn in Hv. injection Hv as <-. apply ready_converged in C. unfold ready in C.
    destruct i as [|[|i]]; cbn [ritz nth_error] in Hi.
    + assert (F : ready tol eps23 ritz bounds 0 = false) by (vm_compute; reflexivity). unfold ready in F. cbn [ritz bounds nth_error] in F, C. congruence.
    + assert (Hx : dofZ (-3) = x) by congruence. rewrite <- Hx in Q3. assert (F : deq (dofZ (-3)) (dofZ 3) = false) by (vm_compute; reflexivity). rewrite F in Q3. discriminate.
    + destruct i; discriminate.
Qed.

(* the order also differs: without vectors the smallest values come in decreasing
   order, with vectors in increasing order *)
Theorem C96_order_refuted : exists tol eps23 (ritz bounds : list double) r b irz ibd d d' q',
  saup2_decide 12 "SA" 1 2 1 tol eps23 1 10 ritz bounds [dofZ 0; dofZ 0; dofZ 0] = Ok (Exit 0 2 r b irz ibd) /\
  dseupd_values 2 r = Ok d /\ dseupd_vectors 12 "SA" 2 3 2 tol eps23 irz ibd ritz (repeat tt 9) = Ok (0%Z, d', q') /\
  map (fun x => deq x (dofZ 1)) d = [false; true] /\ map (fun x => deq x (dofZ 1)) d' = [true; false] /\
  map (fun x => deq x (dofZ 2)) d = [true; false] /\ map (fun x => deq x (dofZ 2)) d' = [false; true].
Proof.
  set (tol := dofZ 1). set (eps23 := dofZ 1). set (ritz := [dofZ 1; dofZ 2; dofZ 3]). set (bounds := [dofZ 0; dofZ 0; dofZ 4]).
  assert (Q : match saup2_decide 12 "SA" 1 2 1 tol eps23 1 10 ritz bounds [dofZ 0; dofZ 0; dofZ 0] with
    | Ok (Exit info nconv r _ irz ibd) => (info =? 0)%Z && (nconv =? 2)%Z &&
      match dseupd_values 2 r, dseupd_vectors 12 "SA" 2 3 2 tol eps23 irz ibd ritz (repeat tt 9) with
      | Ok [x; y], Ok (i, [u; v], _) => (i =? 0)%Z && deq x (dofZ 2) && deq y (dofZ 1) && deq u (dofZ 1) && deq v (dofZ 2)
         && negb (deq x (dofZ 1)) && negb (deq y (dofZ 2)) && negb (deq u (dofZ 2)) && negb (deq v (dofZ 1))
      | _, _ => false end
    | _ => false end = true) by (vm_compute; reflexivity).
  destruct (saup2_decide 12 "SA" 1 2 1 tol eps23 1 10 ritz bounds [dofZ 0; dofZ 0; dofZ 0]) as [[info nconv r b irz ibd|]| | |] eqn:E; try discriminate.
  destruct (dseupd_values 2 r) as [[|x [|y [|]]]| | |] eqn:Ed; try (rewrite Bool.andb_false_r in Q; discriminate).
  destruct (dseupd_vectors 12 "SA" 2 3 2 tol eps23 irz ibd ritz (repeat tt 9)) as [[[i [|u [|v [|]]]] q']| | |] eqn:Ev; try (rewrite Bool.andb_false_r in Q; discriminate).
  repeat (apply Bool.andb_true_iff in Q; let H := fresh "K" in destruct Q as [Q H]).
  repeat match goal with H : (_ && _)%bool = true |- _ => apply Bool.andb_true_iff in H; let K := fresh "K" in destruct H as [H K] end.
  repeat match goal with H : negb _ = true |- _ => apply Bool.negb_true_iff in H end.
  repeat match goal with H : (_ =? _)%Z = true |- _ => apply Z.eqb_eq in H end. subst.
  exists tol, eps23, ritz, bounds, r, b, irz, ibd, [x; y], [u; v], q'. split; [exact E|]. split; [exact Ed|]. split; [exact Ev|].
  cbn [map]. subst tol eps23. repeat match goal with H : deq _ _ = _ |- _ => rewrite H; clear H end. auto.
Qed.

(* The code is 1, the limit of iterations, although all wanted values have
   converged, when an unwanted one has an estimate equal to zero. *)
Theorem C96_info_refuted : exists tol eps23 (ritz bounds : list double) r b irz ibd,
  saup2_decide 9 "LM" 1 1 1 tol eps23 11 10 ritz bounds [dofZ 0; dofZ 0] = Ok (Exit 1 1 r b irz ibd).
Proof.
  set (tol := dofZ 1). set (eps23 := dofZ 1). set (ritz := [dofZ 1; dofZ 2]). set (bounds := [dofZ 0; dofZ 0]).
  assert (Q : match saup2_decide 9 "LM" 1 1 1 tol eps23 11 10 ritz bounds [dofZ 0; dofZ 0] with
    | Ok (Exit info nconv _ _ _ _) => (info =? 1)%Z && (nconv =? 1)%Z | _ => false end = true) by (vm_compute; reflexivity).
  destruct (saup2_decide 9 "LM" 1 1 1 tol eps23 11 10 ritz bounds [dofZ 0; dofZ 0]) as [[info nconv r b irz ibd|]| | |] eqn:E; try discriminate.
  apply Bool.andb_true_iff in Q. destruct Q as [Q1 Q2]. apply Z.eqb_eq in Q1, Q2. subst.
  exists tol, eps23, ritz, bounds, r, b, irz, ibd. exact E.
Qed.

(* five values, two wanted, of which only one has converged: the iterations go on
   with three values and two shifts *)
Example C96_case : 
  Forall is_number (map dofZ [3; -7; 2; -3; 6]%Z) /\ Forall is_number (map dofZ [0; 1; 5; 5; 100]%Z) /\
  match saup2_decide 18 "LM" 1 2 3 (dofZ 1) (dofZ 1) 1 10 (map dofZ [3; -7; 2; -3; 6]%Z) (map dofZ [9; 1; 5; 5; 100]%Z) (map dofZ [0; 0; 0; 0; 0]%Z) with
  | Ok (Go nev np _ _ _) => (nev, np) | _ => (0, 0)%Z end = (3, 2)%Z.
Proof. split; [|split; [|vm_compute; reflexivity]]; cbn [map]; repeat (apply Forall_cons; [vm_compute; reflexivity|]); apply Forall_nil. Qed.

(* one of two wanted values has converged when the limit of iterations is reached *)
Example C96_values_any_case : let ritz := map dofZ [3; -7; 2]%Z in let bounds := map dofZ [9; 1; 5]%Z in
  Forall is_number ritz /\ Forall is_number bounds /\
  (forall i x e, nth_error ritz i = Some x -> nth_error bounds i = Some e -> is_number (relative (dofZ 1) (dabs x) e)) /\
  (forall i j x y, nth_error ritz i = Some x -> nth_error ritz j = Some y -> wish "LM" x = wish "LM" y -> i = j) /\
  match saup2_decide 12 "LM" 1 2 1 (dofZ 1) (dofZ 1) 11 10 ritz bounds (map dofZ [0; 0; 0]%Z) with
  | Ok (Exit info nconv r _ _ _) => match dseupd_values nconv r with Ok d => (info, nconv, map (fun x => deq x (dofZ (-7))) d) | _ => (-1, -1, [])%Z end
  | _ => (-1, -1, [])%Z end = (1, 1, [true])%Z.
Proof.
  intros ritz bounds. split; [|split; [|split; [|split; [|vm_compute; reflexivity]]]].
  - unfold ritz; cbn [map]; repeat (apply Forall_cons; [vm_compute; reflexivity|]); apply Forall_nil.
  - unfold bounds; cbn [map]; repeat (apply Forall_cons; [vm_compute; reflexivity|]); apply Forall_nil.
  - intros i x e Hx He. unfold ritz, bounds in *. cbn [map] in *. destruct i as [|[|[|[|i]]]]; cbn [nth_error] in Hx, He; try discriminate Hx; injection Hx as <-; injection He as <-; vm_compute; reflexivity.
  - assert (V : forall k, In k [3; -7; 2]%Z -> wish "LM" (dofZ k) = IZR (Z.abs k)).
    { intros k Hk. assert (Hb : (Z.abs k <= 2 ^ 53)%Z) by (cbn in Hk; destruct Hk as [<-|[<-|[<-|[]]]]; lia).
      destruct (dofZ_ok k Hb) as [F1 F2]. assert (Es : spot (dofZ k) = value (dofZ k)) by (destruct (dofZ k); [reflexivity|discriminate F1|discriminate F1|reflexivity]).
      unfold wish. cbn [String.eqb Ascii.eqb Bool.eqb]. rewrite Es, F2, <- abs_IZR. reflexivity. }
    assert (N : forall i x, nth_error ritz i = Some x -> exists k, nth_error [3; -7; 2]%Z i = Some k /\ wish "LM" x = IZR (Z.abs k)).
    { intros i x Hx. unfold ritz in Hx. rewrite nth_error_map in Hx. destruct (nth_error [3; -7; 2]%Z i) as [k|] eqn:Ek; [|discriminate Hx]. injection Hx as <-.
      exists k. split; [reflexivity|]. apply V. apply nth_error_In in Ek. exact Ek. }
    intros i j x y Hx Hy Hw. destruct (N i x Hx) as (k & Ki & Wk). destruct (N j y Hy) as (k' & Kj & Wk'). rewrite Wk, Wk' in Hw. apply eq_IZR in Hw.
    destruct i as [|[|[|i]]]; cbn in Ki; try (destruct i; discriminate Ki); injection Ki as <-; (destruct j as [|[|[|j]]]; cbn in Kj; try (destruct j; discriminate Kj); injection Kj as <-; cbn in Hw; try discriminate Hw; reflexivity).
Qed.

Print Assumptions C96_dsgets.
Print Assumptions C96_iteration_partial.
Print Assumptions C96_vectors.
Print Assumptions C96_values_partial.
Print Assumptions C96_values_any_partial.
Print Assumptions C96_values_ties_refuted.
Print Assumptions C96_order_refuted.
Print Assumptions C96_info_refuted.

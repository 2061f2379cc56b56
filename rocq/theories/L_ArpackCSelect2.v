(* Lemmas on the selection of complex eigenvalues: the marks, what zneupd gives
   back and what is decided at the end of an iteration *)
From Coq Require Import String List Reals Permutation Lia Lra ZArith.
From Verif Require Import Base M_Double S_Double M_DoubleReduce S_DoubleReduce M_ArpackSort S_ArpackSort L_ArpackSort L_ArpackOrder S_ArpackSelect M_ArpackSelect
  L_ArpackSelect L_ArpackSelect2 L_ArpackSelect3 L_ArpackSelect4 L_ArpackSelect5 L_ArpackSelect6 S_ArpackCSelect M_ArpackCSelect L_ArpackCSelect.
Import ListNotations.
Local Open Scope nat_scope.

Section Mark.
Context (lapy2 : double -> double -> double) (tol eps23 : double) (ritz bounds irz : list (double * double)) (n nconv : nat) (p : list nat).
Context (Lr : length ritz = n) (Lb : length bounds = n) (Pp : Permutation p (seq 0 n)) (Pi : picks p ritz irz).
Let rdy := cready lapy2 tol eps23 ritz bounds.
Lemma cmark_selects : exists sel, cmark lapy2 tol eps23 (Z.of_nat n) (Z.of_nat nconv) irz bounds (map Z.of_nat p) =
    Ok (sel, Z.of_nat (length (firstn nconv (filter rdy (rev p)))), existsb (fun i => nconv <=? i) (firstn nconv (filter rdy (rev p)))) /\
  length sel = n /\ (forall i, i < n -> nth_error sel i = Some (existsb (Nat.eqb i) (firstn nconv (filter rdy (rev p))))).
Proof.
  assert (Lp : length p = n) by (rewrite (Permutation_length Pp), seq_length; reflexivity).
  assert (Li : length irz = n) by (rewrite <- (picks_length _ _ _ Pi); exact Lp).
  unfold cmark. rewrite Nat2Z.id.
  set (S k := firstn nconv (filter rdy (firstn k (rev p)))).
  match goal with |- context [for_ _ ?B ?s0] => assert (Q : exists s, for_ n B s0 = Ok s /\ exists sel, s = (sel, Z.of_nat (length (S n)), existsb (fun i => nconv <=? i) (S n)) /\
    length sel = n /\ (forall i, i < n -> nth_error sel i = Some (existsb (Nat.eqb i) (S n)))) end.
  { apply (for_inv (fun k s => exists sel, s = (sel, Z.of_nat (length (S k)), existsb (fun i => nconv <=? i) (S k)) /\
      length sel = n /\ (forall i, i < n -> nth_error sel i = Some (existsb (Nat.eqb i) (S k))))).
    - exists (repeat false n). unfold S. cbn [firstn filter]. rewrite firstn_nil. split; [reflexivity|]. split; [apply repeat_length|].
      intros i Hi. cbn. rewrite (nth_error_nth' _ false) by (rewrite repeat_length; exact Hi). rewrite nth_repeat. reflexivity.
    - intros k s Hk (sel & -> & Ls & Hs).
      replace (Z.of_nat n - 1 - Z.of_nat k)%Z with (Z.of_nat (n - 1 - k)) by lia.
      destruct (nth_error_lt irz (n - 1 - k)) as [r Hr]; [lia|]. destruct (nth_error_lt p (n - 1 - k)) as [j Hj]; [lia|].
      rewrite (rdZ_nat _ _ _ Hr). cbn [bind]. rewrite (rdZ_nat (map Z.of_nat p) (n - 1 - k) (Z.of_nat j)) by (rewrite nth_error_map, Hj; reflexivity). cbn [bind].
      assert (Hjn : j < n). { apply nth_error_In in Hj. rewrite Pp in Hj. apply in_seq in Hj. lia. }
      destruct (nth_error_lt bounds j) as [b Hb]; [lia|]. rewrite (rdZ_nat _ _ _ Hb). cbn [bind].
      assert (Ej : nth_error (rev p) k = Some j) by (rewrite nth_error_rev by lia; rewrite Lp; exact Hj).
      assert (Er : rdy j = csmall lapy2 tol eps23 r b) by (unfold rdy, cready; rewrite (picks_nth _ _ _ _ _ _ Pi Hj Hr), Hb; reflexivity).
      assert (ES : S (k + 1) = firstn nconv (filter rdy (firstn k (rev p)) ++ if rdy j then [j] else [])).
      { unfold S. rewrite Nat.add_1_r, (firstn_succ _ _ _ Ej), filter_app. reflexivity. }
      rewrite Nat.add_1_r in ES. rewrite firstn_app in ES. fold (S k) in ES. rewrite <- Er.
      destruct (Z.ltb_spec (Z.of_nat (length (S k))) (Z.of_nat nconv)) as [Hc|Hc]; cbn [andb].
      + assert (Lf : length (filter rdy (firstn k (rev p))) < nconv) by (unfold S in Hc; rewrite firstn_length in Hc; lia).
        destruct (rdy j) eqn:Erj.
        * rewrite wrZ_nat by lia. cbn [bind].
          assert (E1 : firstn (nconv - length (filter rdy (firstn k (rev p)))) [j] = [j]) by (destruct (nconv - length (filter rdy (firstn k (rev p)))) eqn:E0; [lia|cbn; rewrite firstn_nil; reflexivity]).
          rewrite E1 in ES. eexists. split; [reflexivity|]. eexists. rewrite ES. split; [|split].
          -- rewrite app_length, existsb_app. cbn [List.length existsb]. rewrite Bool.orb_false_r. f_equal; [f_equal; lia|]. f_equal.
             destruct (Z.ltb_spec (Z.of_nat nconv) (Z.of_nat j + 1)), (Nat.leb_spec nconv j); auto; lia.
          -- rewrite length_upd. exact Ls.
          -- intros i Hi. rewrite nth_error_upd, Ls, existsb_app, (Hs i Hi). cbn [existsb].
             replace (j <? n) with true by lia. rewrite Bool.orb_false_r. replace (i <? n) with true by lia.
             destruct (Nat.eqb_spec i j); cbn [andb]; [rewrite Bool.orb_true_r|rewrite Bool.orb_false_r]; reflexivity.
        * rewrite firstn_nil, app_nil_r in ES. eexists. split; [reflexivity|]. exists sel. rewrite ES. auto.
      + assert (Lf : nconv <= length (filter rdy (firstn k (rev p)))) by (unfold S in Hc; rewrite firstn_length in Hc; lia).
        replace (nconv - length (filter rdy (firstn k (rev p)))) with 0 in ES by lia. cbn [firstn] in ES. rewrite app_nil_r in ES.
        eexists. split; [reflexivity|]. exists sel. rewrite ES. auto. }
  destruct Q as (s & E & sel & -> & Q). exists sel.
  assert (EN : S n = firstn nconv (filter rdy (rev p))) by (unfold S; rewrite (firstn_all2 (n := n)) by (rewrite rev_length; lia); reflexivity).
  rewrite <- EN. split; [exact E|exact Q].
Qed.
Lemma cmark_wanted u w : p = u ++ w -> nconv = length (filter rdy w) -> firstn nconv (filter rdy (rev p)) = rev (filter rdy w).
Proof.
  intros -> ->. rewrite rev_app_distr, filter_app, (filter_rev _ w). apply firstn_prefix. apply rev_length.
Qed.
End Mark.

Section Neupd.
Context (lapy2 : double -> double -> double).
Lemma zneupd_places trsen fuel which nev np tol eps23 (ritz bounds heig irz : list (double * double)) p nconv : reorders trsen -> let n := nev + np in
  length ritz = n -> length bounds = n -> length heig = n ->
  Permutation p (seq 0 n) -> picks p ritz irz ->
  (forall C (x : list C), length x = n -> exists z, picks p x z /\ zsortc lapy2 fuel which true (Z.of_nat nev + Z.of_nat np) ritz x = Ok (irz, z)) ->
  nconv = length (filter (cready lapy2 tol eps23 ritz bounds) (skipn np p)) ->
  exists V d, zneupd_values lapy2 trsen fuel which (Z.of_nat n) (Z.of_nat nconv) tol eps23 ritz bounds heig = Ok (0%Z, d) /\
    Permutation V (filter (cready lapy2 tol eps23 ritz bounds) (skipn np p)) /\ picks V heig d.
Proof.
  intros Ht n Lr Lb Lh Pp Pi Ha Hn. unfold zneupd_values. rewrite Nat2Z.id.
  destruct (Ha _ (map Z.of_nat (seq 0 n)) ltac:(rewrite map_length, seq_length; reflexivity)) as (z & Pz & Ez).
  rewrite <- Nat2Z.inj_add in Ez. fold n in Ez. rewrite Ez. cbn [bind]. clear Ez.
  assert (Bp : forall i, In i p -> i < n) by (intros i Hi; rewrite Pp in Hi; apply in_seq in Hi; lia).
  rewrite (picks_of_nat p n z Bp Pz). clear z Pz.
  set (rdy := cready lapy2 tol eps23 ritz bounds) in *. set (w := skipn np p) in *.
  destruct (cmark_selects lapy2 tol eps23 ritz bounds irz n nconv p Lr Lb Pp Pi) as (sel & E & Ls & Hs). rewrite E. cbn [bind].
  pose proof (cmark_wanted lapy2 tol eps23 ritz bounds irz n nconv p Pp Pi (firstn np p) w (eq_sym (firstn_skipn np p)) Hn) as MW.
  fold rdy in E, Hs, MW |- *. rewrite MW in Hs. rewrite !MW. rewrite rev_length, <- Hn. cbn [snd fst]. rewrite Z.eqb_refl. cbn [negb].
  set (S0 := rev (filter rdy w)) in *.
  assert (Lp : length p = n) by (rewrite (Permutation_length Pp), seq_length; reflexivity).
  assert (NW : NoDup (filter rdy w)).
  { apply NoDup_filter. apply (NoDup_tail (firstn np p)). unfold w. rewrite firstn_skipn. eapply Permutation_NoDup; [symmetry; exact Pp|apply seq_NoDup]. }
  assert (NS : NoDup S0) by (apply NoDup_rev; exact NW).
  assert (LS : length S0 = nconv) by (unfold S0; rewrite rev_length; auto).
  assert (BS : forall i, In i S0 -> i < n).
  { intros i Hi. apply in_rev in Hi. apply filter_In in Hi. destruct Hi as [Hi _]. unfold w in Hi. apply In_skipn in Hi. destruct Hi as (k & _ & Hk). apply nth_error_In in Hk. auto. }
  assert (Hnn : nconv <= n).
  { rewrite <- LS. rewrite <- (seq_length n 0). apply NoDup_incl_length; [exact NS|]. intros i Hi. apply in_seq. specialize (BS i Hi). lia. }
  assert (PS : Permutation S0 (filter rdy w)) by (unfold S0; symmetry; apply Permutation_rev).
  destruct (existsb (fun i => nconv <=? i) S0) eqn:Ex.
  - destruct (Ht sel heig ltac:(lia)) as (V & l' & PV & Et & Ll & Pk). rewrite Et.
    assert (PF : Permutation V S0).
    { rewrite PV. rewrite Lh. apply NoDup_Permutation; [apply NoDup_filter, seq_NoDup|exact NS|].
      intros i. rewrite filter_In, in_seq. split.
      + intros [Hi Hsel]. pose proof (Hs i ltac:(lia)) as Hx. rewrite (nth_error_nth _ _ false Hx) in Hsel. apply existsb_exists in Hsel. destruct Hsel as (j & Hj & Ej). apply Nat.eqb_eq in Ej. subst j. exact Hj.
      + intros Hi. specialize (BS i Hi). split; [lia|]. pose proof (Hs i BS) as Hx. rewrite (nth_error_nth _ _ false Hx). apply existsb_exists. exists i. split; [exact Hi|apply Nat.eqb_refl]. }
    assert (LV : length V = nconv) by (rewrite (Permutation_length PF); exact LS). rewrite LV in *.
    rewrite Z.ltb_irrefl. replace (0 =? 1)%Z with false by reflexivity. rewrite Nat2Z.id, reads_firstn by lia. cbn [bind].
    exists V, (firstn nconv l'). split; [reflexivity|]. split; [rewrite PF; exact PS|exact Pk].
  - rewrite Nat2Z.id, reads_firstn by lia. cbn [bind]. exists (seq 0 nconv), (firstn nconv heig). split; [reflexivity|]. split.
    + rewrite <- PS. symmetry. apply NoDup_Permutation_bis; [exact NS|rewrite seq_length; lia|].
      intros i Hi. apply in_seq. destruct (Nat.le_gt_cases nconv i) as [Hle|]; [|lia]. exfalso.
      assert (X : existsb (fun i => nconv <=? i) S0 = true) by (apply existsb_exists; exists i; split; [exact Hi|apply Nat.leb_le; exact Hle]). congruence.
    + assert (Es : firstn nconv (seq 0 n) = seq 0 nconv).
      { apply list_eq_nth. intros i. rewrite nth_error_firstn. destruct (Nat.ltb_spec i nconv) as [Hi|Hi].
        - rewrite !(nth_error_nth' _ 0), !seq_nth by (rewrite ?seq_length; lia). reflexivity.
        - symmetry. apply nth_error_None. rewrite seq_length. exact Hi. }
      rewrite <- Es. apply picks_firstn. rewrite <- Lh. apply picks_seq.
Qed.
End Neupd.

Section Decide.
Context (lapy2 : double -> double -> double) (fuel : nat) (which : string) (ishift : Z) (nev0 np0 : nat) (tol eps23 : double) (iter mxiter : Z) (ritz bounds : list (double * double)).
Context (Hw : known_ccode which) (Lr : length ritz = nev0 + np0) (Lb : length bounds = nev0 + np0).
Context (Hf : 3 * (nev0 + np0) + 2 < fuel) (Gr : Forall (cnumbers lapy2) ritz) (Gb : Forall (cnumbers lapy2) bounds).
Let n := nev0 + np0.

Lemma cdecide_starts : exists p0 p y z c, Permutation p (seq 0 n) /\ picks p ritz y /\ picks p bounds z /\ most_wished (cwish lapy2 which) nev0 ritz (skipn np0 p) /\
    (ishift = 1%Z -> increasing (cwish lapy2 "SM") np0 z) /\
    skipn np0 p0 = skipn np0 p /\ Permutation p0 (seq 0 n) /\
    (exists y0, picks p0 ritz y0 /\ forall C (x : list C), length x = n -> exists z, picks p0 x z /\ zsortc lapy2 fuel which true (Z.of_nat nev0 + Z.of_nat np0) ritz x = Ok (y0, z)) /\
    c <= np0 /\ c = length (filter czero (firstn np0 z)) /\
    let nconv := Z.of_nat (length (filter (cready lapy2 tol eps23 ritz bounds) (skipn np0 p))) in
    let np := (Z.of_nat np0 - Z.of_nat c)%Z in let nev := (Z.of_nat nev0 + Z.of_nat c)%Z in
    naup2_decide lapy2 fuel which ishift (Z.of_nat nev0) (Z.of_nat np0) tol eps23 iter mxiter ritz bounds =
    (let kplusp := (Z.of_nat nev0 + Z.of_nat np0)%Z in
     if (Z.of_nat nev0 <=? nconv)%Z || (mxiter <? iter)%Z || (np =? 0)%Z then
    '(r, b) <- naup2_exit lapy2 fuel which eps23 (Z.of_nat nev0) kplusp nconv y z ;;
    let info := if (mxiter <? iter)%Z && (nconv <? Z.of_nat nev0)%Z then 1%Z else 0%Z in
    let info := if (np =? 0)%Z && (nconv <? Z.of_nat nev0)%Z then 2%Z else info in
    Ok (CExit info nconv r b ritz bounds)
  else if (nconv <? Z.of_nat nev0)%Z && (ishift =? 1)%Z then
    let nev' := (nev + Z.min nconv (Z.quot np 2))%Z in
    let nev' := if (nev' =? 1)%Z && (6 <=? kplusp)%Z then Z.quot kplusp 2 else if (nev' =? 1)%Z && (3 <? kplusp)%Z then 2%Z else nev' in
    let np' := (kplusp - nev')%Z in
    if (nev <? nev')%Z then
      '(r, b) <- zngets lapy2 fuel ishift which nev' np' y z ;; Ok (CGo nev' np' r b)
    else Ok (CGo nev' np' y z)
  else Ok (CGo nev np y z)).
Proof.
  destruct (zngets_spec lapy2 fuel ishift which nev0 np0 ritz bounds Hw Lr Lb Hf Gr Gb) as (p0 & p & y & z & E & Pp & Py & Pz & W & S1 & Es & P0 & Ha & _).
  assert (Lp : length p = n) by (rewrite (Permutation_length Pp), seq_length; reflexivity).
  assert (Lz : length z = n) by (rewrite <- (picks_length _ _ _ Pz); exact Lp).
  destruct (czero_counts np0 (Z.of_nat nev0) z ltac:(unfold n in *; lia)) as (c & Hc & Ez & Ec).
  pose proof (nconverged_counts lapy2 tol eps23 ritz bounds (firstn np0 p) (skipn np0 p) y z ltac:(rewrite firstn_skipn; exact Py) ltac:(rewrite firstn_skipn; exact Pz)) as Ek.
  rewrite firstn_length, skipn_length, Lp in Ek. replace (Nat.min np0 n) with np0 in Ek by (unfold n; lia). replace (n - np0) with nev0 in Ek by (unfold n; lia).
  exists p0, p, y, z, c. split; [exact Pp|]. split; [exact Py|]. split; [exact Pz|]. split; [exact W|]. split; [exact S1|].
  split; [exact Es|]. split; [exact P0|]. split; [exact Ha|]. split; [exact Hc|]. split; [exact Ec|].
  cbv zeta. unfold naup2_decide. rewrite E. cbn [bind fst snd]. rewrite Ek. cbn [bind]. rewrite Ez. cbn [bind]. reflexivity.
Qed.
End Decide.

(* the zeros come last among those with decreasing estimates *)
Lemma czero_spot z : is_number (fst z) -> is_number (snd z) -> (czero z = true <-> spot (fst z) = 0%R /\ spot (snd z) = 0%R).
Proof.
  assert (D : forall x, is_number x -> (deq x (dofZ 0) = true <-> spot x = 0%R)).
  { intros x Hx. destruct x as [s|[|]| |s m e H]; cbn [spot].
    - split; intros _; reflexivity.
    - split; [discriminate|]. intros H. pose proof (Flocq.Core.Raux.bpow_gt_0 Flocq.Core.Zaux.radix2 1024). lra.
    - split; [discriminate|]. intros H. pose proof (Flocq.Core.Raux.bpow_gt_0 Flocq.Core.Zaux.radix2 1024). lra.
    - discriminate Hx.
    - split; [intros E; apply deq_zero in E; exact E|]. intros E. exfalso. unfold value in E. cbn in E.
      apply Flocq.Core.Float_prop.eq_0_F2R in E. destruct s; discriminate. }
  intros H1 H2. unfold czero. rewrite Bool.andb_true_iff, (D _ H1), (D _ H2). reflexivity.
Qed.
Lemma zeros_last lapy2 np (z : list (double * double)) : np <= length z -> Forall (cnumbers lapy2) z -> Forall (faithful lapy2) z ->
  increasing (cwish lapy2 "SM") np z -> Forall (fun b => czero b = false) (firstn (np - length (filter czero (firstn np z))) z).
Proof.
  intros L G F O. set (l := firstn np z) in *.
  assert (K : forall (l : list (double * double)), (forall i j x y, i <= j -> nth_error l i = Some x -> nth_error l j = Some y -> czero x = true -> czero y = true) ->
    Forall (fun b => czero b = false) (firstn (length l - length (filter czero l)) l)).
  { clear. induction l as [|x l IH]; intros H; [constructor|]. cbn [filter List.length]. destruct (czero x) eqn:E.
    - assert (A : filter czero l = l).
      { assert (A : forall y, In y l -> czero y = true). { intros y Hy. apply In_nth_error in Hy. destruct Hy as (j & Hj). apply (H 0 (S j) x y); auto. lia. }
        clear -A. induction l as [|y l IH]; [reflexivity|]. cbn. rewrite (A y (or_introl eq_refl)). f_equal. apply IH. intros; apply A; right; assumption. }
      rewrite A. cbn [List.length]. rewrite Nat.sub_diag. constructor.
    - assert (Hle : length (filter czero l) <= length l) by (clear; induction l as [|a l IH]; cbn; [lia|]; destruct (czero a); cbn; lia).
      replace (S (length l) - length (filter czero l)) with (S (length l - length (filter czero l))) by lia. cbn [firstn]. constructor; [exact E|].
      apply IH. intros i j u v Hij. apply (H (S i) (S j)). lia. }
  assert (Ll : length l = np) by (unfold l; rewrite firstn_length; lia).
  assert (H : Forall (fun b => czero b = false) (firstn (length l - length (filter czero l)) l)).
  { apply K. intros i j x y Hij Hx Hy Hz. unfold l in Hx, Hy. rewrite nth_error_firstn in Hx, Hy. destruct (Nat.ltb_spec i np), (Nat.ltb_spec j np); try discriminate.
    pose proof (O i j x y ltac:(lia) Hx Hy) as Hle. rewrite Forall_forall in G, F. apply nth_error_In in Hx, Hy.
    destruct (G x Hx) as (G1 & G2 & _). destruct (G y Hy) as (G3 & G4 & _). destruct (F x Hx) as [_ F2]. destruct (F y Hy) as [F3 F4].
    apply (czero_spot x G1 G2), F2 in Hz. apply (czero_spot y G3 G4), F4. unfold cwish in Hle. cbn in Hle. lra. }
  rewrite Ll in H. unfold l in H at 2. rewrite firstn_firstn in H. replace (Nat.min (np - length (filter czero l)) np) with (np - length (filter czero l)) in H by lia. exact H.
Qed.

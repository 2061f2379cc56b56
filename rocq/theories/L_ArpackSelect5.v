(* Lemmas on the selection of eigenvalues: the values and vectors given back *)
From Coq Require Import String List Reals Permutation Lia Lra ZArith.
From Verif Require Import Base M_Double S_Double M_DoubleReduce S_DoubleReduce M_ArpackSort S_ArpackSort L_ArpackSort L_ArpackOrder S_ArpackSelect M_ArpackSelect L_ArpackSelect L_ArpackSelect2 L_ArpackSelect3 L_ArpackSelect4 P_ArpackSort.
Import ListNotations.
Local Open Scope nat_scope.

Lemma small_passes tol eps23 r b : small tol eps23 r b = true <-> passes tol eps23 (dabs r) b.
Proof. unfold small, passes, dmax, dle. destruct (@Flocq.IEEE754.BinarySingleNaN.Bleb 53 1024 (dabs r) eps23); reflexivity. Qed.

Lemma picks_shuffled {A} (l : list A) x y : Permutation x y -> forall p, picks p l x -> exists q, picks q l y /\ Permutation p q.
Proof.
  induction 1 as [|v x y _ IH|u v x|x y z _ IH1 _ IH2]; intros p Hp.
  - inversion Hp; subst. exists []. split; constructor.
  - inversion Hp as [|i ? p' ? H1 H2]; subst. destruct (IH _ H2) as (q & Q1 & Q2). exists (i :: q). split; constructor; auto.
  - inversion Hp as [|i ? p' ? H1 H2]; subst. inversion H2 as [|j ? p'' ? H3 H4]; subst. exists (j :: i :: p''). split; [repeat constructor; auto|constructor].
  - destruct (IH1 _ Hp) as (q & Q1 & Q2). destruct (IH2 _ Q1) as (q' & Q3 & Q4). exists q'. split; [exact Q3|]. rewrite Q2. exact Q4.
Qed.
Lemma reads_firstn {A} (l : list A) k : k <= length l -> mapM (fun i => rdZ l (Z.of_nat i)) (seq 0 k) = Ok (firstn k l).
Proof.
  intros H. assert (G : forall m s, s + m <= length l -> mapM (fun i => rdZ l (Z.of_nat i)) (seq s m) = Ok (firstn m (skipn s l))).
  { induction m as [|m IH]; intros s Hs; [reflexivity|]. cbn [seq mapM]. destruct (nth_error_lt l s) as [v Hv]; [lia|].
    rewrite (rdZ_nat _ _ _ Hv). cbn [bind]. rewrite IH by lia. cbn [bind]. f_equal.
    apply list_eq_nth. intros i. rewrite nth_error_firstn, nth_error_skipn. destruct i as [|i]; cbn [nth_error].
    - rewrite Nat.add_0_r. symmetry. exact Hv.
    - rewrite nth_error_firstn, nth_error_skipn. replace (S i <? S m) with (i <? m) by (destruct (Nat.ltb_spec i m), (Nat.ltb_spec (S i) (S m)); auto; lia).
      destruct (i <? m); [f_equal; lia|reflexivity]. }
  apply (G k 0). exact H.
Qed.

Lemma holdsc_begin {A B} n (hd : list A) (q : list B) : length hd = n -> length q = n * n -> holdsc n n n q [] (hd, q) (combine hd (columns n n q)).
Proof.
  intros Lh Lq. assert (Lc : length hd = length (columns n n q)) by (unfold columns; rewrite map_length, seq_length; exact Lh).
  split; [rewrite combine_length, <- Lc; lia|]. split; [cbn; rewrite combine_fst by exact Lc; rewrite app_nil_r; reflexivity|].
  split; [reflexivity|]. split; [|reflexivity]. intros j p Hp.
  assert (E : nth_error (map snd (combine hd (columns n n q))) j = Some (snd p)) by (rewrite nth_error_map, Hp; reflexivity).
  rewrite combine_snd in E by exact Lc. unfold columns in E. rewrite nth_error_map in E.
  assert (Hj : j < n). { rewrite <- Lh. assert (H : nth_error (combine hd (columns n n q)) j <> None) by congruence. apply nth_error_Some in H. rewrite combine_length in H. lia. }
  rewrite (nth_error_nth' _ 0), seq_nth in E by (rewrite ?seq_length; exact Hj). cbn in E. cbn [snd]. congruence.
Qed.
Lemma holdsc_front {A B} n k (s : list A * list B) q c : k <= n -> holdsc n n n q [] s c -> combine (firstn k (fst s)) (columns n k (snd s)) = firstn k c.
Proof.
  intros Hk (L1 & L2 & L3 & L4 & _). rewrite L2, app_nil_r.
  assert (Ec : columns n k (snd s) = map snd (firstn k c)).
  { unfold columns. apply list_eq_nth. intros j. rewrite !nth_error_map, nth_error_firstn.
    destruct (Nat.ltb_spec j k) as [Hj|Hj].
    - rewrite (nth_error_nth' _ 0), seq_nth by (rewrite ?seq_length; exact Hj). cbn [option_map Nat.add].
      destruct (nth_error_lt c j) as [p Hp]; [lia|]. rewrite Hp. cbn. rewrite (L4 j p Hp). reflexivity.
    - rewrite (proj2 (nth_error_None _ _)) by (rewrite seq_length; exact Hj). reflexivity. }
  rewrite Ec, firstn_map. apply combine_split_map.
Qed.

Lemma dseupd_places {B} fuel which nev np tol eps23 (ritz bounds hd irz : list double) (q : list B) p nconv : let n := nev + np in
  length ritz = n -> length bounds = n -> length hd = n -> length q = n * n -> Forall is_number hd -> 3 * n + 2 < fuel ->
  Permutation p (seq 0 n) -> picks p ritz irz ->
  (forall C (x : list C), length x = n -> exists z, picks p x z /\ arrange fuel which (Z.of_nat nev) (Z.of_nat np) ritz x = Ok (irz, z)) ->
  nconv = length (filter (ready tol eps23 ritz bounds) (skipn np p)) ->
  exists V d q', dseupd_vectors fuel which (Z.of_nat nev) (Z.of_nat n) (Z.of_nat nconv) tol eps23 ritz bounds hd q = Ok (0%Z, d, q') /\
    Permutation V (filter (ready tol eps23 ritz bounds) (skipn np p)) /\ length d = nconv /\ increasing (wish "LA") nconv d /\
    picks V (combine hd (columns n n q)) (combine d (columns n nconv q')).
Proof.
  intros n Lr Lb Lh Lq Gh Hf Pp Pi Ha Hn. unfold dseupd_vectors. rewrite Nat2Z.id.
  replace (Z.of_nat n - Z.of_nat nev)%Z with (Z.of_nat np) by (unfold n; lia).
  destruct (Ha _ (map Z.of_nat (seq 0 n)) ltac:(rewrite map_length, seq_length; reflexivity)) as (z & Pz & ->). cbn [bind].
  assert (Bp : forall i, In i p -> i < n) by (intros i Hi; rewrite Pp in Hi; apply in_seq in Hi; lia).
  rewrite (picks_of_nat p n z Bp Pz). clear z Pz.
  set (rdy := ready tol eps23 ritz bounds) in *. set (w := skipn np p) in *.
  destruct (mark_selects tol eps23 ritz bounds irz n nconv p Lr Lb Pp Pi) as (sel & E & Ls & Hs). rewrite E. cbn [bind].
  pose proof (mark_wanted tol eps23 ritz bounds irz n nconv p Pp Pi (firstn np p) w (eq_sym (firstn_skipn np p)) Hn) as MW.
  fold rdy in E, Hs, MW |- *. rewrite MW in Hs. rewrite !MW. rewrite rev_length, <- Hn. cbn [snd fst]. rewrite Z.eqb_refl. cbn [negb].
  set (S0 := rev (filter rdy w)) in *.
  assert (Lp : length p = n) by (rewrite (Permutation_length Pp), seq_length; reflexivity).
  assert (NW : NoDup (filter rdy w)).
  { apply NoDup_filter. apply (NoDup_tail (firstn np p)). unfold w. rewrite firstn_skipn. eapply Permutation_NoDup; [symmetry; exact Pp|apply seq_NoDup]. }
  assert (NS : NoDup S0) by (apply NoDup_rev; exact NW).
  assert (LS : length S0 = nconv) by (unfold S0; rewrite rev_length; auto).
  assert (BS : forall i, In i S0 -> i < n).
  { intros i Hi. apply in_rev in Hi. apply filter_In in Hi. destruct Hi as [Hi _]. unfold w in Hi. apply In_skipn in Hi. destruct Hi as (k & _ & Hk). apply nth_error_In in Hk. auto. }
  assert (Hnn : nconv <= n).
  { rewrite <- LS. rewrite <- (seq_length n 0). apply NoDup_incl_length; [exact NS|]. intros i Hi. apply in_seq. specialize (BS i Hi). lia. }
  set (l0 := combine hd (columns n n q)).
  (* after the exchanges the first columns are the selected ones *)
  assert (Q : exists s' a c, (if existsb (fun i => nconv <=? i) S0 && negb (Z.of_nat n =? 1)%Z then partition fuel sel (Z.of_nat n) 0 (Z.of_nat n - 1) hd q else Ok (hd, q)) = Ok s' /\
    Permutation a (seq 0 n) /\ picks a l0 c /\ holdsc n n n q [] s' c /\ Permutation (firstn nconv a) S0).
  { assert (H0 : holdsc n n n q [] (hd, q) l0) by (apply holdsc_begin; assumption).
    assert (Ll0 : length l0 = n) by apply H0.
    destruct (existsb (fun i => nconv <=? i) S0) eqn:Ex; cbn [andb].
    - assert (H2 : 2 <= n).
      { apply existsb_exists in Ex. destruct Ex as (i & Hi & Hle). apply Nat.leb_le in Hle. specialize (BS i Hi).
        assert (1 <= nconv). { rewrite <- LS. destruct S0; [destruct Hi|cbn; lia]. } lia. }
      replace (Z.of_nat n =? 1)%Z with false by lia. cbn [negb].
      destruct (partition_splits n sel q l0 Ll0 Ls Lq fuel 0 (n - 1) (hd, q) (seq 0 n)) as (s' & a & m & E1 & (Pa & (c & Pc & Hc) & _ & K1 & K2)); try lia.
      { split; [reflexivity|]. split; [exists l0; split; [rewrite <- Ll0; apply picks_seq|exact H0]|].
        split; [intros i _ Hi; rewrite (nth_error_nth' _ 0), seq_nth by (rewrite ?seq_length; lia); reflexivity|]. split; [intros; lia|].
        intros i j Hi Hj. exfalso. assert (H : nth_error (seq 0 n) i <> None) by congruence. apply nth_error_Some in H. rewrite seq_length in H. lia. }
      replace (Z.of_nat n - 1)%Z with (Z.of_nat (n - 1)) by lia. cbn [fst snd] in E1. exists s', a, c. split; [exact E1|]. split; [exact Pa|]. split; [exact Pc|]. split; [exact Hc|].
      pose proof (front_filter n sel q l0 Ll0 Ls Lq a m K1 K2) as F.
      assert (PF : Permutation (firstn m a) S0).
      { rewrite <- F. apply NoDup_Permutation; [|exact NS|].
        - apply NoDup_filter. eapply Permutation_NoDup; [symmetry; exact Pa|apply seq_NoDup].
        - intros i. rewrite filter_In, Pa, in_seq. split.
          + intros [Hi Hsel]. rewrite (Hs i ltac:(lia)) in Hsel. apply existsb_exists in Hsel. destruct Hsel as (j & Hj & Ej). apply Nat.eqb_eq in Ej. subst j. exact Hj.
          + intros Hi. specialize (BS i Hi). split; [lia|]. rewrite (Hs i BS). apply existsb_exists. exists i. split; [exact Hi|apply Nat.eqb_refl]. }
      pose proof (Permutation_length PF) as LF. rewrite firstn_length, LS, (Permutation_length Pa), seq_length in LF.
      rewrite <- PF. destruct (Nat.le_gt_cases m n) as [Hm|Hm]; [replace nconv with m by lia; reflexivity|].
      rewrite !firstn_all2 by (rewrite (Permutation_length Pa), seq_length; lia). reflexivity.
    - exists (hd, q), (seq 0 n), l0. split; [reflexivity|]. split; [reflexivity|]. split; [rewrite <- Ll0; apply picks_seq|]. split; [exact H0|].
      assert (Es : firstn nconv (seq 0 n) = seq 0 nconv).
      { apply list_eq_nth. intros i. rewrite nth_error_firstn. destruct (Nat.ltb_spec i nconv) as [Hi|Hi].
        - rewrite !(nth_error_nth' _ 0), !seq_nth by (rewrite ?seq_length; lia). reflexivity.
        - symmetry. apply nth_error_None. rewrite seq_length. exact Hi. }
      rewrite Es. symmetry. apply NoDup_Permutation_bis; [exact NS|rewrite seq_length; lia|].
      intros i Hi. apply in_seq. destruct (Nat.le_gt_cases nconv i) as [Hle|]; [|lia]. exfalso.
      assert (X : existsb (fun i => nconv <=? i) S0 = true) by (apply existsb_exists; exists i; split; [exact Hi|apply Nat.leb_le; exact Hle]). congruence. }
  destruct Q as (s' & a & c & E1 & Pa & Pc & Hc & PS). rewrite E1. cbn [bind]. destruct s' as [hd' q']. cbn [fst snd].
  assert (Lh' : length hd' = n). { destruct Hc as (L1 & L2 & _). cbn [fst] in L2. rewrite L2, app_nil_r, map_length. exact L1. }
  assert (Lq' : length q' = n * n). { destruct Hc as (_ & _ & L3 & _). cbn [snd] in L3. lia. }
  rewrite !Nat2Z.id. rewrite reads_firstn by lia. cbn [bind].
  assert (Gh' : Forall is_number (firstn nconv hd')).
  { rewrite Forall_forall in *. intros x Hx. apply In_firstn in Hx. destruct Hx as (k & Hk & Hx). destruct Hc as (L1 & L2 & _). cbn [fst] in L2. rewrite L2, app_nil_r, nth_error_map in Hx.
    destruct (nth_error c k) as [[v col]|] eqn:Ec; [|discriminate]. cbn in Hx. injection Hx as ->. apply nth_error_In in Ec. destruct (picks_in _ _ _ _ Pc Ec) as (i & _ & Hi).
    apply nth_error_In in Hi. unfold l0 in Hi. apply in_combine_l in Hi. apply Gh, Hi. }
  destruct (C95_dsesrt B fuel "LA" nconv (firstn nconv hd') n q' n) as (d & q'' & E2 & O & P2 & Ld & _ & Lq'' & _).
  { cbn; auto. } { rewrite firstn_length. lia. } { lia. } { rewrite Lq'. nia. } { lia. } { rewrite firstn_firstn, Nat.min_id. exact Gh'. }
  rewrite E2. cbn [bind].
  assert (Ld' : length d = nconv) by (rewrite Ld, firstn_length; lia).
  rewrite firstn_firstn, Nat.min_id in P2. rewrite (firstn_all2 d) in P2 by lia.
  fold (columns n nconv q') (columns n nconv q'') in P2. pose proof (holdsc_front n nconv _ q c Hnn Hc) as HF. cbn [fst snd] in HF. rewrite HF in P2.
  destruct (picks_shuffled l0 _ _ P2 _ (picks_firstn nconv _ _ _ Pc)) as (V & PV & PV').
  exists V, d, q''. split; [reflexivity|]. split; [|split; [exact Ld'|split; [exact O|exact PV]]].
  rewrite <- PV', PS. unfold S0. symmetry. apply Permutation_rev.
Qed.

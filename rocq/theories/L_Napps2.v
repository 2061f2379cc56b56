From Coq Require Import Arith Lia Reals Lra List Bool.
Import ListNotations.
From Coquelicot Require Import Complex.
From Verif Require Import S_Arnoldi M_Arnoldi L_Arnoldi M_Napps L_Napps.
Open Scope R_scope.
Open Scope C_scope.

(* numbers that the rotations do not leave *)
Record closed (lartg : C -> C -> R * C * C) (P : C -> Prop) : Prop := Closed {
  cl_R : forall x : R, P (RtoC x);
  cl_plus : forall x y, P x -> P y -> P (x + y);
  cl_mult : forall x y, P x -> P y -> P (x * y);
  cl_conj : forall x, P x -> P (Cconj x);
  cl_rot : forall f g, P f -> P g -> let '(c, s, r) := lartg f g in P s /\ P r }.

Lemma cl_opp : forall lartg P x, closed lartg P -> P x -> P (- x).
Proof.
  intros lartg P x H Hx. replace (- x) with (RtoC (-1) * x).
  - apply (cl_mult _ _ H); auto. apply (cl_R _ _ H).
  - apply injective_projections; simpl; ring.
Qed.

Section Sweep.
Context (lartg : C -> C -> R * C * C) (Hrot : crotation lartg) (m : nat) (h0 : nat -> nat -> C).
Context (P : C -> Prop) (HP : closed lartg P) (size : C -> R).
Context (Hsize : forall z, P z -> (size z <= 0)%R -> z = 0).

Definition all (h : nat -> nat -> C) : Prop := forall r c, (r < m)%nat -> (c < m)%nat -> P (h r c).

Definition zgood (j i : nat) (x : hq) : Prop :=
  let '(h, q) := x in
  similar m h0 h q /\ unit_cgram m q /\ zbanded m j i q /\ hess m h /\ all h.

Definition zmid (j i iend : nat) (x : hq) : Prop :=
  let '(h, q) := x in
  similar m h0 h q /\ unit_cgram m q /\ zbanded m j i q /\ hessb m i h /\ cut m iend h /\ all h.

Lemma hfull_all : forall i c s h h', (S i < m)%nat -> P s -> all h ->
  (forall r k, (r < m)%nat -> (k < m)%nat -> h' r k = hfull i c s h r k) -> all h'.
Proof.
  intros i c s h h' Hi Ps Ha E r k Hr Hk. rewrite E by auto.
  assert (PL : forall r k, (r < m)%nat -> (k < m)%nat -> P (rotL i c s (fun r => h r k) r)).
  { intros r' k' Hr' Hk'. unfold rotL. destruct (Nat.eqb r' i); [|destruct (Nat.eqb r' (S i)); auto].
    - apply (cl_plus _ _ HP); apply (cl_mult _ _ HP); auto; try apply Ha; auto; try lia. apply (cl_R _ _ HP).
    - apply (cl_plus _ _ HP); apply (cl_mult _ _ HP); auto; try apply Ha; auto; try lia.
      + apply (cl_opp lartg); auto. apply (cl_conj _ _ HP). auto.
      + apply (cl_R _ _ HP). }
  unfold hfull, rotR. destruct (Nat.eqb k i); [|destruct (Nat.eqb k (S i)); auto].
  - apply (cl_plus _ _ HP); apply (cl_mult _ _ HP); auto; try apply PL; auto; try lia.
    + apply (cl_R _ _ HP).
    + apply (cl_conj _ _ HP). auto.
  - apply (cl_plus _ _ HP); apply (cl_mult _ _ HP); auto; try apply PL; auto; try lia.
    + apply (cl_opp lartg); auto.
    + apply (cl_R _ _ HP).
Qed.

Lemma zturn_mid : forall j istart iend i f g h q,
  (istart <= i < iend)%nat -> (iend < m)%nat -> P f -> P g ->
  zmid j i iend (h, q) ->
  ((istart < i)%nat -> f = h i (i - 1)%nat /\ g = h (S i) (i - 1)%nat) ->
  (i = istart -> (0 < i)%nat -> h i (i - 1)%nat = 0 /\ h (S i) (i - 1)%nat = 0) ->
  exists h' q', zturn lartg m (S j) istart iend i f g (h, q) = (h', q') /\ zmid j (S i) iend (h', q').
Proof.
  intros j istart iend i f g h q Hi Hm Pf Pg (HS & HG & HBd & HB & HC & HA) HF HZ. unfold zturn.
  pose proof (Hrot f g) as HR. pose proof (cl_rot _ _ HP f g Pf Pg) as HPr.
  destruct (lartg f g) as [[c s] r]. destruct HR as (R1 & R2 & R3). destruct HPr as [Ps Pr].
  set (h' := zright (Nat.min (i + 3) (iend + 1)) i c s
      (zleft m i c s (if Nat.ltb istart i then zput2 (zput2 h i (i - 1) r) (S i) (i - 1) 0 else h))).
  set (q' := zright (Nat.min (i + 1 + S j) m) i c s q).
  assert (Eh : forall r k, (r < m)%nat -> (k < m)%nat -> h' r k = hfull i c s h r k)
    by (eapply zturn_h; eauto).
  assert (Eq : forall r k, (r < m)%nat -> q' r k = rotR i c s (q r) k)
    by (apply zright_full; auto; lia).
  exists h', q'. split; [reflexivity|].
  destruct (hfull_hessb m istart iend i c s f g h h') as [B1 B2]; auto.
  split; [|split; [|split; [|split; [|split]]]]; auto.
  - eapply hfull_similar; eauto. lia.
  - eapply rotR_gram; eauto. lia.
  - eapply rotR_banded; eauto. lia.
  - apply (hfull_all i c s h h'); auto. lia.
Qed.

Lemma zchase_mid : forall cnt j istart iend i f g h q,
  (istart <= i)%nat -> (i + cnt = iend)%nat -> (iend < m)%nat -> ((0 < cnt)%nat -> P f /\ P g) ->
  zmid j i iend (h, q) ->
  ((istart < i)%nat -> f = h i (i - 1)%nat /\ g = h (S i) (i - 1)%nat) ->
  (i = istart -> (0 < i)%nat -> h i (i - 1)%nat = 0 /\ h (S i) (i - 1)%nat = 0) ->
  exists h' q', zchase lartg m (S j) istart iend cnt i f g (h, q) = (h', q') /\ zmid j iend iend (h', q').
Proof.
  induction cnt; intros j istart iend i f g h q Hi Hc Hm Pfg HM HF HZ.
  { exists h, q. split; auto. replace iend with i at 1 by lia. auto. }
  cbn [zchase]. destruct (Pfg ltac:(lia)) as [Pf Pg].
  destruct (zturn_mid j istart iend i f g h q) as (h1 & q1 & -> & HM1); auto; try lia.
  cbn [fst].
  apply IHcnt; auto; try lia.
  - intros Hp. destruct HM1 as (_ & _ & _ & _ & _ & HA). split; apply HA; lia.
  - intros _. replace (S i - 1)%nat with i by lia. auto.
Qed.

Lemma zbanded_raise : forall j i i' q, (i <= i')%nat -> zbanded m j i q -> zbanded m j i' q.
Proof.
  intros j i i' q Hi H r c Hr Hc L. apply H; auto.
  destruct (Nat.ltb_spec c i); destruct (Nat.ltb_spec c i'); lia.
Qed.

Lemma zmid_good : forall j iend x, (iend < m)%nat -> zmid j iend iend x -> zgood j (S iend) x.
Proof.
  intros j iend [h q] Hm (HS & HG & HBd & HB & HC & HA).
  split; [|split; [|split; [|split]]]; auto.
  - apply (zbanded_raise j iend); auto.
  - intros r c Hr Hrc. destruct (Nat.eq_dec r (S iend)) as [->|Hn].
    + destruct (Nat.eq_dec (S c) iend) as [E|E].
      * apply HC; lia.
      * apply HB; auto; lia.
    + apply HB; auto; lia.
Qed.

Lemma zgood_mid : forall j i iend h q, zgood j i (h, q) -> cut m iend h -> zmid j i iend (h, q).
Proof.
  intros j i iend h q (HS & HG & HBd & HB & HA) HC.
  split; [|split; [|split; [|split; [|split]]]]; auto.
  intros r c Hr Hrc _. apply HB; auto.
Qed.

Lemma zgood_ext : forall j i h h' q,
  (forall r c, h' r c = h r c) -> zgood j i (h, q) -> zgood j i (h', q).
Proof.
  intros j i h h' q E (HS & HG & HBd & HB & HA).
  split; [|split; [|split; [|split]]]; auto.
  - intros r c Hr Hc. rewrite HS by auto. apply csum_ext. intros. rewrite E. reflexivity.
  - intros r c Hr Hrc. rewrite E. apply HB; auto.
  - intros r c Hr Hc. rewrite E. apply HA; auto.
Qed.

Lemma small_apps_0 : forall order h i, small_apps 0 0 order h i = 0%R.
Proof.
  intros. unfold small_apps. rewrite Rmult_0_l. apply Rmax_left. lra.
Qed.

Lemma zfind_end_good : forall cnt i jj h, (i + cnt = m - 1)%nat -> (i < m)%nat -> all h ->
  let '(iend, h') := zfind_end size 0 0 m jj cnt i h in
  (i <= iend < m)%nat /\ (forall r c, h' r c = h r c) /\ ((S iend < m)%nat -> h (S iend) iend = 0).
Proof.
  induction cnt; intros i jj h Hc Hi HA; cbn [zfind_end].
  { split; [lia|]. split; auto. lia. }
  rewrite small_apps_0. destruct (Rle_dec _ _) as [L|L].
  - assert (Z : h (S i) i = 0) by (apply Hsize; auto; apply HA; lia).
    split; [lia|]. split; auto. intros r c. rewrite zput2_spec.
    destruct (Nat.eqb_spec r (S i)) as [->|]; auto. destruct (Nat.eqb_spec c i) as [->|]; auto.
  - specialize (IHcnt (S i) jj h ltac:(lia) ltac:(lia) HA).
    destruct (zfind_end size 0 0 m jj cnt (S i) h) as [iend h'].
    destruct IHcnt as (A & B & D). split; [lia|]. auto.
Qed.

Lemma zblock_good : forall kev j shift istart h q, (istart < m)%nat -> P shift ->
  zgood j istart (h, q) -> ((0 < istart)%nat -> h istart (istart - 1)%nat = 0) ->
  exists iend h' q',
    zblock size 0 0 lartg m kev (S j) shift istart (h, q) = (iend, (h', q')) /\
    (istart <= iend < m)%nat /\ zgood j (S iend) (h', q') /\
    ((S iend < m)%nat -> h' (S iend) iend = 0).
Proof.
  intros kev j shift istart h q Hi Psh HG0 HZ.
  assert (HA : all h) by apply HG0.
  unfold zblock.
  pose proof (zfind_end_good (m - 1 - istart) istart (S j) h ltac:(lia) Hi HA) as HE.
  destruct (zfind_end size 0 0 m (S j) (m - 1 - istart) istart h) as [iend h1].
  destruct HE as (HI & E & HE).
  assert (HG : zgood j istart (h1, q)) by (apply (zgood_ext j istart h h1 q); auto).
  assert (HH : hess m h1) by apply HG.
  assert (HA1 : all h1) by apply HG.
  assert (HC : cut m iend h1).
  { intros Hl c Hc. destruct (Nat.eq_dec c iend) as [->|]; [rewrite E; auto|]. apply HH; auto. lia. }
  destruct (Nat.eqb istart iend || Nat.leb kev istart)%bool eqn:Es.
  - exists iend, h1, q. split; [reflexivity|]. split; [lia|]. split.
    + destruct HG as (A1 & A2 & A3 & A4 & A5). split; [|split; [|split; [|split]]]; auto.
      apply (zbanded_raise j istart); auto. lia.
    + intros Hl. apply HC; auto.
  - apply orb_false_elim in Es. destruct Es as [E1 _]. apply Nat.eqb_neq in E1.
    destruct (zchase_mid (iend - istart) j istart iend istart
                (h1 istart istart - shift) (h1 (S istart) istart) h1 q)
      as (h2 & q2 & -> & HM); try lia.
    + intros _. split.
      * unfold Cminus. apply (cl_plus _ _ HP); [apply HA1; lia|]. apply (cl_opp lartg); auto.
      * apply HA1; lia.
    + apply zgood_mid; auto.
    + intros _ Hp. split.
      * rewrite E. auto.
      * apply HH; lia.
    + exists iend, h2, q2. split; [reflexivity|]. split; [lia|]. split.
      * apply zmid_good; auto. lia.
      * destruct HM as (_ & _ & _ & _ & HC2 & _). intros Hl. apply HC2; auto.
Qed.

Lemma zblocks_good : forall fuel kev j shift istart h q,
  (istart < m)%nat -> (m <= istart + fuel)%nat -> P shift ->
  zgood j istart (h, q) -> ((0 < istart)%nat -> h istart (istart - 1)%nat = 0) ->
  exists h' q', zblocks size 0 0 lartg m kev (S j) shift fuel istart (h, q) = Some (h', q') /\
    zgood j m (h', q').
Proof.
  induction fuel; intros kev j shift istart h q Hi Hf Psh HG HZ; [lia|].
  cbn [zblocks].
  destruct (zblock_good kev j shift istart h q Hi Psh HG HZ) as (iend & h1 & q1 & -> & HI & HG1 & HZ1).
  destruct (Nat.ltb_spec iend (m - 1)).
  - apply IHfuel; auto; try lia. intros _. replace (S iend - 1)%nat with iend by lia. apply HZ1. lia.
  - exists h1, q1. split; auto. replace m with (S iend) at 1 by lia. auto.
Qed.

Lemma zgood_next : forall j x, zgood j m x -> zgood (S j) 0 x.
Proof.
  intros j [h q] (A1 & A2 & A3 & A4 & A5). split; [|split; [|split; [|split]]]; auto.
  intros r c Hr Hc L. apply A3; auto. destruct (Nat.ltb_spec c m); [|lia]. simpl in L. lia.
Qed.

Lemma zsweeps_good : forall shifts kev j h q, (0 < m)%nat -> (forall s, In s shifts -> P s) ->
  zgood j 0 (h, q) ->
  exists h' q', zsweeps size 0 0 lartg m kev (S j) shifts (h, q) = Some (h', q') /\
    zgood (j + length shifts) 0 (h', q').
Proof.
  induction shifts; intros kev j h q Hm Ps HG; cbn [zsweeps length].
  { exists h, q. rewrite Nat.add_0_r. auto. }
  destruct (zblocks_good m kev j a 0 h q) as (h1 & q1 & -> & HG1); auto; try lia.
  { apply Ps. left. reflexivity. }
  replace (j + S (length shifts))%nat with (S j + length shifts)%nat by lia.
  apply IHshifts; auto.
  - intros; apply Ps; right; auto.
  - apply zgood_next. auto.
Qed.

(* making the elements below the diagonal real *)
Definition znice (j : nat) (h : nat -> nat -> C) : Prop :=
  forall c, (c < j)%nat -> (S c < m)%nat -> Im (h (S c) c) = 0%R /\ (0 <= Re (h (S c) c))%R.

Definition zscaled (np j : nat) (x : hq) : Prop :=
  let '(h, q) := x in
  similar m h0 h q /\ unit_cgram m q /\ zbanded m np 0 q /\ hess m h /\ znice j h.

Definition dg (j : nat) (u : C) (k : nat) : C := if Nat.eqb k (S j) then u else 1.

Lemma unit_u : forall b : C, b <> 0 ->
  Cconj (b / RtoC (Cmod b)) * (b / RtoC (Cmod b)) = 1 /\
  Cconj (b / RtoC (Cmod b)) * b = RtoC (Cmod b).
Proof.
  intros b Hb.
  assert (M : RtoC (Cmod b) <> 0).
  { intros E. apply RtoC_inj in E. apply Cmod_eq_0 in E. auto. }
  assert (E1 : Cconj (b / RtoC (Cmod b)) = Cconj b / RtoC (Cmod b)).
  { unfold Cdiv. rewrite conj_mult. f_equal.
    rewrite <- RtoC_inv by (intros E; apply M; rewrite E; reflexivity). apply conj_R. }
  rewrite E1. assert (N : Cconj b * b = RtoC (Cmod b) * RtoC (Cmod b)) by (rewrite <- RtoC_mult; apply conj_mod).
  split.
  - replace (Cconj b / RtoC (Cmod b) * (b / RtoC (Cmod b)))
      with ((Cconj b * b) / (RtoC (Cmod b) * RtoC (Cmod b))) by (field; auto).
    rewrite N. field. auto.
  - replace (Cconj b / RtoC (Cmod b) * b) with ((Cconj b * b) / RtoC (Cmod b)) by (field; auto).
    rewrite N. field. auto.
Qed.

Lemma znormal_step : forall np j h q h' q' u,
  (S j < m)%nat -> Cconj u * u = 1 ->
  (forall r k, (r < m)%nat -> (k < m)%nat -> h' r k = Cconj (dg j u r) * h r k * dg j u k) ->
  (forall r k, (r < m)%nat -> (k < m)%nat -> q' r k = q r k * dg j u k) ->
  (forall r k, (r < m)%nat -> (S k < r)%nat -> h' r k = 0) ->
  Im (h' (S j) j) = 0%R -> (0 <= Re (h' (S j) j))%R ->
  zscaled np j (h, q) -> zscaled np (S j) (h', q').
Proof.
  intros np j h q h' q' u Hj Hu Eh Eq HH Hi Hr (A1 & A2 & A3 & A4 & A5).
  assert (D : forall k, Cconj (dg j u k) * dg j u k = 1).
  { intros k. unfold dg. destruct (Nat.eqb k (S j)); auto.
    rewrite conj_R. ring. }
  split; [|split; [|split; [|split]]].
  - intros r c Hr' Hc.
    rewrite (csum_ext m _ (fun k => (h0 r k * q k c) * dg j u c)).
    2:{ intros k Hk. rewrite Eq by auto. ring. }
    rewrite (csum_ext m (fun k => q' r k * h' k c) (fun k => (q r k * h k c) * dg j u c)).
    2:{ intros k Hk. rewrite Eq, Eh by auto.
        replace (q r k * dg j u k * (Cconj (dg j u k) * h k c * dg j u c))
          with (q r k * h k c * dg j u c * (Cconj (dg j u k) * dg j u k)) by ring.
        rewrite D. ring. }
    rewrite !csum_scal_r. rewrite A1 by auto. reflexivity.
  - intros a b Ha Hb. unfold cgram.
    rewrite (csum_ext m _ (fun r => (Cconj (dg j u a) * dg j u b) * (Cconj (q r a) * q r b))).
    2:{ intros r Hr'. rewrite !Eq by auto. rewrite conj_mult. ring. }
    rewrite csum_scal. specialize (A2 a b Ha Hb). unfold cgram in A2. rewrite A2.
    destruct (Nat.eqb_spec a b) as [->|].
    + rewrite D. ring.
    + ring.
  - intros r c Hr' Hc L. rewrite Eq by auto. rewrite A3 by auto. ring.
  - intros r c. apply HH.
  - intros c Hc Hm. destruct (Nat.eq_dec c j) as [->|]; [auto|].
    rewrite Eh by lia. unfold dg. destruct (Nat.eqb_spec (S c) (S j)); [lia|].
    destruct (Nat.eqb_spec c (S j)); [lia|].
    rewrite conj_R. replace (RtoC 1 * h (S c) c * RtoC 1) with (h (S c) c) by ring. apply A5; lia.
Qed.

Lemma znormal_good : forall np cnt j x, (j + cnt < m)%nat -> zscaled np j x ->
  zscaled np (j + cnt) (znormal m np cnt j x).
Proof.
  induction cnt; intros j x Hj Hx; cbn [znormal]; [rewrite Nat.add_0_r; auto|].
  destruct x as [h q]. pose proof Hx as (A1 & A2 & A3 & A4 & A5).
  replace (j + S cnt)%nat with (S j + cnt)%nat by lia.
  set (b := h (S j) j).
  destruct (if Rlt_dec (Re b) 0 then true else if Req_EM_T (Im b) 0 then false else true) eqn:Eb.
  - assert (Hb : b <> 0).
    { intros E. rewrite E in Eb. simpl in Eb. destruct (Rlt_dec 0 0); [lra|].
      destruct (Req_EM_T 0 0); [discriminate|lra]. }
    destruct (unit_u b Hb) as [U1 U2]. set (u := b / RtoC (Cmod b)) in *.
    set (h1 := zcol_scaled (Nat.min (j + 3) m) j u (zrow_scaled m j (Cconj u) h)).
    assert (E1 : forall r k, (r < m)%nat -> (k < m)%nat -> h1 r k = Cconj (dg j u r) * h r k * dg j u k).
    { intros r k Hr Hk. unfold h1, zcol_scaled, zrow_scaled, dg.
      destruct (Nat.eqb_spec k (S j)) as [->|Nk]; destruct (Nat.eqb_spec r (S j)) as [->|Nr];
        cbn [andb]; rewrite ?conj_R.
      - destruct (Nat.ltb_spec (S j) (Nat.min (j + 3) m)); [|lia].
        destruct (Nat.leb_spec j (S j)); [|lia]. destruct (Nat.ltb_spec (S j) m); [|lia]. cbn [andb]. ring.
      - destruct (Nat.ltb_spec r (Nat.min (j + 3) m)); [ring|]. rewrite (A4 r (S j)) by lia. ring.
      - destruct (Nat.ltb_spec k m); [|lia]. destruct (Nat.leb_spec j k); cbn [andb]; [ring|].
        rewrite (A4 (S j) k) by lia. ring.
      - ring. }
    assert (V : h1 (S j) j = RtoC (Cmod b)).
    { rewrite E1 by lia. unfold dg. rewrite Nat.eqb_refl. destruct (Nat.eqb_spec j (S j)); [lia|].
      fold b. rewrite U2. ring. }
    apply IHcnt; [lia|].
    apply (znormal_step np j h q _ _ u); auto; try lia.
    + intros r k Hr Hk. rewrite zput2_spec.
      destruct (Nat.eqb_spec r (S j)) as [->|]; [destruct (Nat.eqb_spec k j) as [->|]|]; cbn [andb];
        try (apply E1; auto; fail).
      rewrite V. simpl Re. rewrite <- E1 by lia. auto.
    + intros r k Hr Hk. unfold zcol_scaled, dg. destruct (Nat.eqb_spec k (S j)) as [->|]; cbn [andb]; [|ring].
      destruct (Nat.ltb_spec r (Nat.min (j + np + 2) m)); [ring|].
      rewrite (A3 r (S j)) by (simpl; lia). ring.
    + intros r k Hr Hk. rewrite zput2_spec.
      destruct (Nat.eqb_spec r (S j)) as [->|]; [destruct (Nat.eqb_spec k j) as [->|]|]; cbn [andb]; try lia;
        rewrite E1 by lia; rewrite A4 by auto; ring.
    + rewrite zput2_spec, !Nat.eqb_refl. reflexivity.
    + rewrite zput2_spec, !Nat.eqb_refl. cbn [andb]. rewrite V. simpl. apply Cmod_ge_0.
  - assert (N : Im b = 0%R /\ (0 <= Re b)%R).
    { destruct (Rlt_dec (Re b) 0); [discriminate|]. destruct (Req_EM_T (Im b) 0); [|discriminate]. split; lra. }
    apply IHcnt; [lia|]. split; [|split; [|split; [|split]]]; auto.
    intros c Hc Hm. destruct (Nat.eq_dec c j) as [->|]; [auto|]. apply A5; lia.
Qed.

Lemma zsettle_same : forall order cnt i h, (i + cnt < m)%nat ->
  (forall c, (i <= c < i + cnt)%nat -> Im (h (S c) c) = 0%R /\ (0 <= Re (h (S c) c))%R) ->
  forall r c, zsettle 0 0 order cnt i h r c = h r c.
Proof.
  induction cnt; intros i h Hi Hn r c; cbn [zsettle]; [reflexivity|].
  rewrite small_apps_0. destruct (Rle_dec _ _) as [L|L].
  - assert (Z : h (S i) i = 0).
    { destruct (Hn i ltac:(lia)). apply injective_projections; simpl; [unfold Re in *; lra|auto]. }
    assert (E : forall r c, zput2 h (S i) i 0 r c = h r c).
    { intros r' c'. rewrite zput2_spec. destruct (Nat.eqb_spec r' (S i)) as [->|]; cbn [andb]; auto.
      destruct (Nat.eqb_spec c' i) as [->|]; auto. }
    rewrite IHcnt; [apply E|lia|]. intros c' Hc'. rewrite E. apply Hn. lia.
  - apply IHcnt; [lia|]. intros; apply Hn; lia.
Qed.

End Sweep.

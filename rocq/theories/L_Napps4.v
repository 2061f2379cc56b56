(* What the implicit shifts of znapps do to the first vector *)
From Coq Require Import Arith Lia Reals Lra List Bool.
Import ListNotations.
From Coquelicot Require Import Complex.
From Verif Require Import S_Arnoldi M_Arnoldi L_Arnoldi M_Napps L_Napps L_Napps2 L_Napps3.
Open Scope R_scope.
Open Scope C_scope.

Lemma cfilter_scal : forall n A shifts c (x y : cvec), (forall i, (i < n)%nat -> x i = c * y i) ->
  forall i, (i < n)%nat -> cfilter n A shifts x i = c * cfilter n A shifts y i.
Proof.
  induction shifts as [|s rest IH]; intros c x y E i Hi; cbn [cfilter]; [auto|].
  apply IH; auto. intros k Hk. rewrite E by auto.
  rewrite (cmul_ext n A x (fun j => c * y j)) by auto. unfold cmul.
  rewrite (csum_ext n _ (fun j => c * (A k j * y j))) by (intros; ring). rewrite csum_scal. ring.
Qed.

Lemma zright_0 : forall lim i c s q r, (0 < i)%nat -> zright lim i c s q r 0%nat = q r 0%nat.
Proof.
  intros. unfold zright. destruct (Nat.ltb r lim); auto.
  destruct (Nat.eqb_spec 0 i); [lia|]. reflexivity.
Qed.

Lemma zchase_0 : forall lartg cnt m jj istart iend i f g h q h' q', (0 < i)%nat ->
  zchase lartg m jj istart iend cnt i f g (h, q) = (h', q') -> forall r, q' r 0%nat = q r 0%nat.
Proof.
  induction cnt; intros m jj istart iend i f g h q h' q' Hi E r; cbn [zchase] in E.
  - apply (f_equal snd) in E. cbn [snd] in E. rewrite <- E. reflexivity.
  - unfold zturn in E. destruct (lartg f g) as [[c s] r0]. cbn [fst] in E.
    apply IHcnt with (r := r) in E; [|lia]. rewrite E. apply zright_0. auto.
Qed.

Section Filter.
Context (lartg : C -> C -> R * C * C) (Hrot : crotation lartg) (m : nat) (h0 : nat -> nat -> C).
Context (P : C -> Prop) (HP : closed lartg P) (size : C -> R).
Context (Hsize : forall z, P z -> (size z <= 0)%R -> z = 0).

Lemma zblock_far : forall kev jj sh istart h q iend h' q', (0 < istart)%nat ->
  zblock size 0 0 lartg m kev jj sh istart (h, q) = (iend, (h', q')) ->
  forall r, q' r 0%nat = q r 0%nat.
Proof.
  intros kev jj sh istart h q iend h' q' Hi E r. unfold zblock in E.
  destruct (zfind_end size 0 0 m jj (m - 1 - istart) istart h) as [ie h1].
  destruct (Nat.eqb istart ie || Nat.leb kev istart)%bool.
  - apply (f_equal (fun x => snd (snd x))) in E. cbn [snd] in E. rewrite <- E. reflexivity.
  - apply (f_equal snd) in E. cbn [snd] in E. eapply zchase_0; eauto.
Qed.

Lemma zblock_first : forall kev j sh h q iend h' q', (0 < m)%nat -> (0 < kev)%nat ->
  zgood m h0 P j 0 (h, q) ->
  zblock size 0 0 lartg m kev (S j) sh 0 (h, q) = (iend, (h', q')) ->
  exists rho, forall r, (r < m)%nat ->
    csum m (fun k => h0 r k * q k 0%nat) - sh * q r 0%nat = rho * q' r 0%nat.
Proof.
  intros kev j sh h q iend h' q' Hm Hk HG E. unfold zblock in E.
  destruct HG as (HS & _ & HBd & HH & HA).
  pose proof (zfind_end_good m P size Hsize (m - 1 - 0) 0 (S j) h ltac:(lia) Hm HA) as HE.
  destruct (zfind_end size 0 0 m (S j) (m - 1 - 0) 0 h) as [ie h1].
  destruct HE as (HI & Eh & HE).
  assert (H0 : forall r, (r < m)%nat -> csum m (fun k => h0 r k * q k 0%nat)
     = q r 0%nat * h 0%nat 0%nat + (if Nat.ltb 1 m then q r 1%nat * h 1%nat 0%nat else 0)).
  { intros r Hr. rewrite (HS r 0%nat Hr Hm). destruct (Nat.ltb_spec 1 m).
    - rewrite (csum_trunc m 2); [cbn [csum]; ring|lia|]. intros k Hk'. rewrite (HH k 0%nat) by lia. ring.
    - rewrite (csum_trunc m 1); [cbn [csum]; ring|lia|]. intros k Hk'. lia. }
  destruct (Nat.eqb_spec 0 ie) as [Z|Z].
  - cbn [orb] in E. apply (f_equal (fun x => snd (snd x))) in E. cbn [snd] in E. subst q'.
    exists (h 0%nat 0%nat - sh). intros r Hr. rewrite H0 by auto. subst ie.
    destruct (Nat.ltb_spec 1 m); [rewrite HE by auto|]; ring.
  - destruct (Nat.leb_spec kev 0); [lia|]. cbn [orb] in E.
    apply (f_equal snd) in E. cbn [snd] in E.
    destruct (ie - 0)%nat as [|cnt] eqn:Ec; [lia|]. cbn [zchase] in E. unfold zturn in E.
    pose proof (Hrot (h1 0%nat 0%nat - sh) (h1 1%nat 0%nat)) as HR.
    destruct (lartg (h1 0%nat 0%nat - sh) (h1 1%nat 0%nat)) as [[c s] r0]. destruct HR as (R1 & R2 & R3).
    set (f := h1 0%nat 0%nat - sh) in *. set (g := h1 1%nat 0%nat) in *.
    assert (Ef : f = RtoC c * r0).
    { replace f with ((RtoC c * RtoC c + Cconj s * s) * f) by (rewrite R1; ring).
      replace ((RtoC c * RtoC c + Cconj s * s) * f)
        with (RtoC c * (RtoC c * f + s * g) - s * (- Cconj s * f + RtoC c * g)) by ring.
      rewrite R2, R3. ring. }
    assert (Eg : g = Cconj s * r0).
    { replace g with ((RtoC c * RtoC c + Cconj s * s) * g) by (rewrite R1; ring).
      replace ((RtoC c * RtoC c + Cconj s * s) * g)
        with (Cconj s * (RtoC c * f + s * g) + RtoC c * (- Cconj s * f + RtoC c * g)) by ring.
      rewrite R2, R3. ring. }
    exists r0. intros r Hr.
    pose proof (zchase_0 _ _ _ _ _ _ 1%nat _ _ _ _ _ _ ltac:(lia) E r) as C'.
    rewrite (zright_full m j 0 c s q HBd) in C' by lia. unfold rotR in C'. cbn [Nat.eqb] in C'.
    rewrite C', H0 by auto. destruct (Nat.ltb_spec 1 m); [|lia].
    rewrite <- !Eh. fold g. replace (h1 0%nat 0%nat) with (f + sh) by (unfold f; ring).
    rewrite Ef, Eg. ring.
Qed.

Lemma zblocks_far : forall fuel kev j sh i h q h' q', (0 < i < m)%nat -> (m <= i + fuel)%nat -> P sh ->
  zgood m h0 P j i (h, q) -> h i (i - 1)%nat = 0 ->
  zblocks size 0 0 lartg m kev (S j) sh fuel i (h, q) = Some (h', q') ->
  forall r, q' r 0%nat = q r 0%nat.
Proof.
  induction fuel; intros kev j sh i h q h' q' Hi Hf Psh HG HZ E r; [lia|]. cbn [zblocks] in E.
  destruct (zblock_good lartg Hrot m h0 P HP size Hsize kev j sh i h q) as (iend & h1 & q1 & EB & L & HG' & Z); auto; try lia.
  pose proof (zblock_far kev (S j) sh i h q iend h1 q1 ltac:(lia) EB r) as E1. rewrite EB in E.
  destruct (Nat.ltb_spec iend (m - 1)).
  - rewrite <- E1. eapply (IHfuel kev j sh (S iend)); [| | | | |exact E]; auto; try lia.
    replace (S iend - 1)%nat with iend by lia. apply Z. lia.
  - injection E as <- <-. exact E1.
Qed.

Lemma zblocks_first : forall kev j sh h q h' q', (0 < m)%nat -> (0 < kev)%nat -> P sh ->
  zgood m h0 P j 0 (h, q) ->
  zblocks size 0 0 lartg m kev (S j) sh m 0 (h, q) = Some (h', q') ->
  exists rho, forall r, (r < m)%nat ->
    csum m (fun k => h0 r k * q k 0%nat) - sh * q r 0%nat = rho * q' r 0%nat.
Proof.
  intros kev j sh h q h' q' Hm Hk Psh HG E. destruct m as [|m'] eqn:Em; [lia|]. rewrite <- Em in *.
  rewrite Em in E at 2. cbn [zblocks] in E.
  destruct (zblock_good lartg Hrot m h0 P HP size Hsize kev j sh 0 h q) as (iend & h1 & q1 & EB & L & HG' & Z); auto; try lia.
  destruct (zblock_first _ _ _ _ _ _ _ _ Hm Hk HG EB) as (rho & Hrho). rewrite EB in E.
  exists rho. intros r Hr. rewrite (Hrho r Hr). f_equal.
  destruct (Nat.ltb_spec iend (m - 1)).
  - symmetry. eapply (zblocks_far m' kev j sh (S iend)); [| | | | |exact E]; auto; try lia.
    replace (S iend - 1)%nat with iend by lia. apply Z. lia.
  - injection E as <- <-. reflexivity.
Qed.

Context (n : nat) (A : nat -> nat -> C) (v : nat -> cvec) (f : cvec).
Context (HL : arnoldi n A m v h0 f).

Lemma zsweeps_filter : forall shifts kev j h q h' q', (0 < kev)%nat ->
  (forall sh, In sh shifts -> P sh) -> zgood m h0 P j 0 (h, q) -> (j + length shifts < m)%nat ->
  zsweeps size 0 0 lartg m kev (S j) shifts (h, q) = Some (h', q') ->
  exists rho, forall x, (x < n)%nat ->
    cfilter n A shifts (ccombine m v (fun r => q r 0%nat)) x
    = rho * ccombine m v (fun r => q' r 0%nat) x.
Proof.
  induction shifts as [|sh rest IH]; intros kev j h q h' q' Hk Ps HG Hj E; cbn [zsweeps] in E.
  { injection E as <- <-. exists (RtoC 1). intros. cbn [cfilter]. ring. }
  cbn [length] in Hj.
  destruct (zblocks_good lartg Hrot m h0 P HP size Hsize m kev j sh 0 h q) as (h1 & q1 & EB & G1); auto; try lia.
  { apply Ps. left. reflexivity. }
  rewrite EB in E.
  destruct (zblocks_first kev j sh h q h1 q1) as (rho & Hrho); auto; [lia|apply Ps; left; reflexivity|].
  destruct (IH kev (S j) h1 q1 h' q') as (rho' & Hf); auto; [| |lia|].
  { intros; apply Ps; right; auto. } { apply zgood_next. auto. }
  exists (rho * rho'). intros x Hx. cbn [cfilter].
  rewrite (cfilter_scal n A rest rho _ (ccombine m v (fun r => q1 r 0%nat))); auto.
  - rewrite (Hf x Hx). ring.
  - intros k Hk'. rewrite (cmul_columns n A m v h0 f q 0 k HL) by (auto; lia).
    destruct HG as (_ & _ & Hband & _).
    rewrite (Hband (m - 1)%nat 0%nat); [|lia|lia|simpl; lia].
    unfold ccombine. rewrite Cmult_0_r, Cplus_0_r, <- !csum_scal, <- csum_minus. apply csum_ext.
    intros r Hr'. replace (rho * (v r k * q1 r 0%nat)) with (v r k * (rho * q1 r 0%nat)) by ring.
    rewrite <- Hrho by auto. ring.
Qed.
End Filter.

Lemma znormal_0 : forall cnt m np j x r, snd (znormal m np cnt j x) r 0%nat = snd x r 0%nat.
Proof.
  induction cnt; intros m np j [h q] r; cbn [znormal]; [reflexivity|].
  destruct (if Rlt_dec (Re (h (S j) j)) 0 then true else if Req_EM_T (Im (h (S j) j)) 0 then false else true);
    rewrite IHcnt; cbn [snd]; [|reflexivity].
  unfold zcol_scaled. destruct (Nat.eqb_spec 0 (S j)); [lia|]. reflexivity.
Qed.

Lemma znapps_filter : forall lartg P size n A kev shifts s s', crotation lartg -> closed lartg P ->
  (forall z, P z -> (size z <= 0)%R -> z = 0) ->
  (0 < kev)%nat -> (forall sh, In sh shifts -> P sh) ->
  all (kev + length shifts) P (ah s) -> hess (kev + length shifts) (ah s) ->
  arnoldi n A (kev + length shifts) (av s) (ah s) (ares s) ->
  znapps size 0 0 lartg n kev shifts s = Some s' ->
  exists rho, forall i, (i < n)%nat -> cfilter n A shifts (av s 0%nat) i = rho * av s' 0%nat i.
Proof.
  intros lartg P size n A kev shifts s s' Hrot HP Hsize Hkev Ps Ha Hh HL. unfold znapps.
  destruct shifts as [|sh0 rest] eqn:Esh.
  { intros E. injection E as <-. exists (RtoC 1). intros. cbn [cfilter av]. ring. }
  rewrite <- Esh in *. assert (Hnp : (0 < length shifts)%nat) by (rewrite Esh; simpl; lia). clear sh0 rest Esh.
  set (np := length shifts) in *. set (m := (kev + np)%nat) in *.
  pose proof (eye_good m P (ah s) Hh Ha) as HE.
  destruct (zsweeps_good lartg Hrot m (ah s) P HP size Hsize shifts kev 0 (ah s) eye)
    as (h1 & q1 & E & HG).
  { unfold m. lia. } { auto. } { auto. }
  change (fun r c : nat => if Nat.eqb r c then RtoC 1 else RtoC 0) with eye. rewrite E.
  destruct (zsweeps_filter lartg Hrot m (ah s) P HP size Hsize n A (av s) (ares s) HL shifts kev 0 (ah s) eye h1 q1)
    as (rho & Hrho); auto.
  { fold np. unfold m. lia. }
  clear E. fold np in HG. cbn [Nat.add] in HG.
  pose proof (znormal_0 kev m np 0 (h1, q1)) as H0.
  destruct (znormal m np kev 0 (h1, q1)) as [h q]. cbn [snd] in H0.
  intros X. apply (f_equal (fun x => match x with Some y => av y | None => av s end)) in X. cbn [av] in X.
  exists rho. intros i Hin.
  assert (Ev : forall i, av s 0%nat i = RtoC 1 * ccombine m (av s) (fun r => eye r 0%nat) i).
  { intros k. unfold ccombine. rewrite (csum_one m 0).
    - unfold eye. rewrite Nat.eqb_refl. ring.
    - unfold m. lia.
    - intros t _ Nt. unfold eye. destruct (Nat.eqb_spec t 0); [lia|ring]. }
  rewrite (cfilter_scal n A shifts (RtoC 1) (av s 0%nat) (ccombine m (av s) (fun r => eye r 0%nat))) by auto.
  rewrite Hrho by auto. rewrite Cmult_1_l. f_equal. rewrite <- X.
  assert (Ev' : (if Nat.ltb 0 kev then zback m kev kev 0 q (av s) (np + 0)%nat else zback m kev kev 0 q (av s) 0%nat) i
      = ccombine m (av s) (fun r => q1 r 0%nat) i).
  { destruct (Nat.ltb_spec 0 kev); [|lia].
    destruct (zback_spec kev m kev 0 q (av s) (av s)) as [A1 _]; [auto|unfold m; lia|].
    specialize (A1 (kev - 1)%nat i ltac:(lia)).
    replace (m - S (kev - 1))%nat with (np + 0)%nat in A1 by (unfold m; lia).
    rewrite A1. replace (kev - S (kev - 1))%nat with 0%nat by lia.
    unfold ccombine. rewrite (csum_trunc m (m - (kev - 1))).
    - apply csum_ext. intros r Hr. rewrite H0. reflexivity.
    - lia.
    - intros r Hrr. destruct HG as (_ & _ & Hband & _).
      rewrite (Hband r 0%nat); [ring|lia|unfold m; lia|simpl; unfold m in Hrr; lia]. }
  destruct (Rlt_dec 0 _); [rewrite zput_other by lia|]; rewrite Ev'; reflexivity.
Qed.

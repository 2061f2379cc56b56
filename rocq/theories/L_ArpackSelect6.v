(* Lemmas on the selection of eigenvalues: what is decided at the end of an
   iteration *)
From Coq Require Import String List Reals Permutation Lia Lra ZArith.
From Verif Require Import Base M_Double S_Double M_DoubleReduce S_DoubleReduce M_ArpackSort S_ArpackSort L_ArpackSort L_ArpackOrder S_ArpackSelect M_ArpackSelect L_ArpackSelect L_ArpackSelect2 L_ArpackSelect3 L_ArpackSelect4 L_ArpackSelect5.
Import ListNotations.
Local Open Scope nat_scope.

Lemma ready_converged tol eps23 ritz bounds i : ready tol eps23 ritz bounds i = true <-> converged tol eps23 ritz bounds i.
Proof.
  unfold ready, converged. destruct (nth_error ritz i) as [x|]; [|split; [discriminate|intros (? & ? & H & _); discriminate]].
  destruct (nth_error bounds i) as [b|]; [|split; [discriminate|intros (? & ? & _ & H & _); discriminate]].
  rewrite small_passes. split; [intros H; exists x, b; auto|]. intros (x' & b' & E1 & E2 & H). injection E1 as <-. injection E2 as <-. exact H.
Qed.

Lemma picks_numbers p (l y : list double) : picks p l y -> Forall is_number l -> Forall is_number y.
Proof.
  intros H G. rewrite Forall_forall in *. intros x Hx. destruct (picks_in _ _ _ _ H Hx) as (i & _ & Hi). apply nth_error_In in Hi. auto.
Qed.

Lemma same_choice {A} (f : A -> R) k (l : list A) W W' : most_wished f k l W -> most_wished f k l W' ->
  (forall i j x y, nth_error l i = Some x -> nth_error l j = Some y -> f x = f y -> i = j) -> incl W W'.
Proof.
  intros [(N & B & L) M] [(N' & B' & L') M'] Inj i Hi. destruct (in_dec Nat.eq_dec i W') as [|Hn]; [assumption|exfalso].
  assert (X : exists j, In j W' /\ ~ In j W).
  { destruct (Forall_Exists_dec (fun j => In j W) (fun j => in_dec Nat.eq_dec j W) W') as [F|E].
    - exfalso. apply Hn. rewrite Forall_forall in F. apply (NoDup_length_incl N' (l' := W)); [lia|exact F|exact Hi].
    - apply Exists_exists in E. exact E. }
  destruct X as (j & Hj & Hnj). destruct (nth_error_lt l i (B i Hi)) as [x Hx]. destruct (nth_error_lt l j (B' j Hj)) as [y Hy].
  pose proof (M j i y x Hnj Hi Hy Hx). pose proof (M' i j x y Hn Hj Hx Hy). assert (i = j) by (apply (Inj i j x y Hx Hy); lra). congruence.
Qed.

(* everything there is to know of dsgets *)
Lemma dsgets_spec fuel ishift which kev np (ritz bounds shifts : list double) :
  real_code which -> length ritz = kev + np -> length bounds = kev + np -> np <= length shifts -> 3 * (kev + np) + 2 < fuel ->
  Forall is_number ritz -> Forall is_number bounds ->
  exists p0 p y z s, dsgets fuel ishift which (Z.of_nat kev) (Z.of_nat np) ritz bounds shifts = Ok (y, z, s) /\
    Permutation p (seq 0 (kev + np)) /\ picks p ritz y /\ picks p bounds z /\ wanted which kev ritz (skipn np p) /\
    (ishift = 1%Z -> increasing (wish "SM") np z /\ s = firstn np y ++ skipn np shifts) /\ (ishift <> 1%Z -> s = shifts) /\
    skipn np p0 = skipn np p /\ Permutation p0 (seq 0 (kev + np)) /\
    (exists y0, picks p0 ritz y0 /\ forall C (x : list C), length x = kev + np -> exists z, picks p0 x z /\ arrange fuel which (Z.of_nat kev) (Z.of_nat np) ritz x = Ok (y0, z)) /\
    (known_code which -> forall k, k <= kev -> most_wished (wish which) k ritz (skipn (kev + np - k) p0)).
Proof.
  intros Hw Lr Lb Ls Hf Gr Gb.
  assert (Q : exists p y, Permutation p (seq 0 (kev + np)) /\ picks p ritz y /\ wanted which kev ritz (skipn np p) /\
    (forall B (x : list B), length x = kev + np -> exists z, picks p x z /\ arrange fuel which (Z.of_nat kev) (Z.of_nat np) ritz x = Ok (y, z)) /\
    (known_code which -> forall k, k <= kev -> most_wished (wish which) k ritz (skipn (kev + np - k) p))).
  { destruct Hw as [Hk| ->].
    - destruct (dsortr_places fuel which (kev + np) ritz Hk Lr Hf Gr) as (p & Pp & y & Py & O & H). exists p, y.
      assert (M : forall k, k <= kev -> most_wished (wish which) k ritz (skipn (kev + np - k) p)).
      { intros k Hkk. pose proof (last_wished (wish which) ritz y p ltac:(rewrite Lr; exact Pp) Py ltac:(rewrite Lr; exact O) (kev + np - k) ltac:(lia)) as M.
        rewrite Lr in M. replace (kev + np - (kev + np - k)) with k in M by lia. exact M. }
      destruct (opposite_known which Hk) as (_ & _ & Hbe).
      split; [exact Pp|]. split; [exact Py|]. split; [|split; [|intros _; exact M]].
      + unfold wanted. rewrite Hbe. specialize (M kev ltac:(lia)). replace (kev + np - kev) with np in M by lia. exact M.
      + intros C x Lx. destruct (H C x Lx) as (z & Pz & E). exists z. split; [exact Pz|]. unfold arrange. rewrite Hbe, <- Nat2Z.inj_add. exact E.
    - destruct (arrange_places fuel "BE" kev np ritz (or_intror eq_refl) Lr Hf Gr) as (p & y & Pp & Py & W & H). exists p, y.
      split; [exact Pp|]. split; [exact Py|]. split; [exact W|]. split; [exact H|]. intros [H1|[H1|[H1|[H1|[]]]]]; discriminate. }
  destruct Q as (p0 & y0 & P0 & Py0 & W0 & H & M).
  destruct (H _ bounds Lb) as (z0 & Pz0 & E0).
  destruct (dsgets_places fuel ishift which kev np ritz bounds shifts p0 y0 z0 Lr Lb Ls Hf Gb P0 Py0 Pz0 E0) as (u & y & z & s & Pu & Py & Pz & E & S1 & S2).
  assert (Lp : length p0 = kev + np) by (rewrite (Permutation_length P0), seq_length; reflexivity).
  assert (Lu : length u = np) by (rewrite (Permutation_length Pu), firstn_length; lia).
  assert (Es : skipn np (u ++ skipn np p0) = skipn np p0) by (apply skipn_prefix; exact Lu).
  exists p0, (u ++ skipn np p0), y, z, s. split; [exact E|]. split; [rewrite Pu, firstn_skipn; exact P0|]. split; [exact Py|]. split; [exact Pz|].
  rewrite Es. split; [exact W0|]. split; [exact S1|]. split; [intros N; apply (S2 N)|]. split; [reflexivity|]. split; [exact P0|]. split; [exists y0; auto|exact M].
Qed.

Lemma filter_all {A} (f : A -> bool) l : length (filter f l) = length l -> forall x, In x l -> f x = true.
Proof.
  induction l as [|y l IH]; cbn; [intros _ x []|]. destruct (f y) eqn:E; cbn; intros H x [<-|Hx]; auto.
  - assert (length (filter f l) <= length l) by (clear; induction l as [|a l IH]; cbn; [lia|]; destruct (f a); cbn; lia). lia.
  - assert (length (filter f l) <= length l) by (clear; induction l as [|a l IH]; cbn; [lia|]; destruct (f a); cbn; lia). lia.
Qed.
Lemma deq_zero b : deq b (dofZ 0) = true -> value b = 0%R.
Proof. destruct b as [s|s| |s m e H]; cbn; auto; destruct s; discriminate. Qed.

Lemma incl_skipn {A} a b (l : list A) : a <= b -> incl (skipn b l) (skipn a l).
Proof. intros H x Hx. replace b with ((b - a) + a) in Hx by lia. rewrite <- skipn_skipn in Hx. apply In_skipn in Hx. destruct Hx as (k & _ & Hk). apply nth_error_In in Hk. exact Hk. Qed.

(* the two arrays after another sort *)
Lemma picks_compose {A} p q (l y y' : list A) n : Permutation p (seq 0 n) -> length l = n -> picks p l y -> (forall i, In i q -> i < n) -> picks q y y' ->
  exists r, picks q p r /\ picks r l y'.
Proof.
  intros Pp Ll Py Bq Pq. destruct (picks_exists q p) as (r & Hr); [intros i Hi; rewrite (Permutation_length Pp), seq_length; auto|].
  exists r. split; [exact Hr|eapply picks_trans; eassumption].
Qed.

Lemma most_wished_moved {A} (f : A -> R) k (l y : list A) n p q W : Permutation p (seq 0 n) -> length l = n -> picks p l y ->
  most_wished f k y q -> picks q p W -> most_wished f k l W.
Proof.
  intros Pp Ll Py [(N & B & L) M] PW.
  assert (Lp : length p = n) by (rewrite (Permutation_length Pp), seq_length; reflexivity).
  assert (Ly : length y = n) by (rewrite <- (picks_length _ _ _ Py); exact Lp).
  assert (Np : NoDup p) by (eapply Permutation_NoDup; [symmetry; exact Pp|apply seq_NoDup]).
  split; [split; [|split]|].
  - clear M B L. revert N. induction PW as [|i x q W H H' IH]; intros N; constructor; inversion N; subst; auto.
    intros Hin. destruct (picks_in _ _ _ _ H' Hin) as (j & Hj & Ej). assert (i = j); [|congruence].
    apply (proj1 (NoDup_nth_error p) Np); [apply nth_error_Some; congruence|congruence].
  - intros i Hi. destruct (picks_in _ _ _ _ PW Hi) as (a & _ & Ha). apply nth_error_In in Ha. rewrite Pp in Ha. apply in_seq in Ha. lia.
  - rewrite <- (picks_length _ _ _ PW). exact L.
  - intros i j x v Hi Hj Hx Hv. destruct (picks_in _ _ _ _ PW Hj) as (b & Hb & Eb).
    assert (Hin : In i p). { rewrite Pp. apply in_seq. split; [lia|]. cbn. rewrite <- Ll. apply nth_error_Some. congruence. }
    apply In_nth_error in Hin. destruct Hin as (a & Ea).
    apply (M a b x v); [|exact Hb|eapply picks_at; eassumption|eapply picks_at; eassumption].
    intros Ha. apply Hi. destruct (picks_in_l _ _ _ _ PW Ha) as (w & Hw & Ew). congruence.
Qed.

Section Decide.
Context (fuel : nat) (which : string) (ishift : Z) (nev0 np0 : nat) (tol eps23 : double) (iter mxiter : Z) (ritz bounds shifts : list double).
Context (Hw : real_code which) (Lr : length ritz = nev0 + np0) (Lb : length bounds = nev0 + np0) (Ls : nev0 + np0 <= length shifts).
Context (Hf : 3 * (nev0 + np0) + 2 < fuel) (Gr : Forall is_number ritz) (Gb : Forall is_number bounds).
Let n := nev0 + np0.

Lemma decide_starts : exists p0 p y z s c, Permutation p (seq 0 n) /\ picks p ritz y /\ picks p bounds z /\ wanted which nev0 ritz (skipn np0 p) /\
    (ishift = 1%Z -> s = firstn np0 y ++ skipn np0 shifts) /\ length s = length shifts /\
    skipn np0 p0 = skipn np0 p /\ Permutation p0 (seq 0 n) /\
    (exists y0, picks p0 ritz y0 /\ forall C (x : list C), length x = n -> exists z, picks p0 x z /\ arrange fuel which (Z.of_nat nev0) (Z.of_nat np0) ritz x = Ok (y0, z)) /\
    c <= np0 /\ c = length (filter (fun b => deq b (dofZ 0)) (firstn np0 z)) /\
    let nconv := Z.of_nat (length (filter (ready tol eps23 ritz bounds) (skipn np0 p))) in
    let np := (Z.of_nat np0 - Z.of_nat c)%Z in let nev := (Z.of_nat nev0 + Z.of_nat c)%Z in
    saup2_decide fuel which ishift (Z.of_nat nev0) (Z.of_nat np0) tol eps23 iter mxiter ritz bounds shifts =
    (let kplusp := (Z.of_nat nev0 + Z.of_nat np0)%Z in
     if (Z.of_nat nev0 <=? nconv)%Z || (mxiter <? iter)%Z || (np =? 0)%Z then
    '(r, b) <- saup2_exit fuel which eps23 (Z.of_nat nev0) nev np kplusp nconv y z ;;
    let info := if (mxiter <? iter)%Z && (nconv <? nev)%Z then 1%Z else 0%Z in
    let info := if (np =? 0)%Z && (nconv <? Z.of_nat nev0)%Z then 2%Z else info in
    Ok (Exit info nconv r b ritz bounds)
  else if (nconv <? nev)%Z && (ishift =? 1)%Z then
    let nev' := (nev + Z.min nconv (Z.quot np 2))%Z in
    let nev' := if (nev' =? 1)%Z && (6 <=? kplusp)%Z then Z.quot kplusp 2 else if (nev' =? 1)%Z && (2 <? kplusp)%Z then 2%Z else nev' in
    let np' := (kplusp - nev')%Z in
    if (nev <? nev')%Z then
      '(rb, s) <- dsgets fuel ishift which nev' np' y z s ;; Ok (Go nev' np' (fst rb) (snd rb) s)
    else Ok (Go nev' np' y z s)
  else Ok (Go nev np y z s)).
Proof.
  destruct (dsgets_spec fuel ishift which nev0 np0 ritz bounds shifts Hw Lr Lb ltac:(lia) Hf Gr Gb) as (p0 & p & y & z & s & E & Pp & Py & Pz & W & S1 & S2 & Es & P0 & Ha & _).
  assert (Lp : length p = n) by (rewrite (Permutation_length Pp), seq_length; reflexivity).
  assert (Lz : length z = n) by (rewrite <- (picks_length _ _ _ Pz); exact Lp).
  assert (Ly : length y = n) by (rewrite <- (picks_length _ _ _ Py); exact Lp).
  destruct (zero_counts np0 (Z.of_nat nev0) z ltac:(unfold n in *; lia)) as (c & Hc & Ez & Ec).
  pose proof (dsconv_counts tol eps23 ritz bounds (firstn np0 p) (skipn np0 p) y z ltac:(rewrite firstn_skipn; exact Py) ltac:(rewrite firstn_skipn; exact Pz)) as Ek.
  rewrite firstn_length, skipn_length, Lp in Ek. replace (Nat.min np0 n) with np0 in Ek by (unfold n; lia). replace (n - np0) with nev0 in Ek by (unfold n; lia).
  exists p0, p, y, z, s, c. split; [exact Pp|]. split; [exact Py|]. split; [exact Pz|]. split; [exact W|]. split; [intros H; apply (S1 H)|].
  split. { destruct (Z.eq_dec ishift 1) as [H|H]; [rewrite (proj2 (S1 H)), app_length, firstn_length, skipn_length; unfold n in *; lia|rewrite (S2 H); reflexivity]. }
  split; [exact Es|]. split; [exact P0|]. split; [exact Ha|]. split; [exact Hc|]. split; [exact Ec|].
  cbv zeta. unfold saup2_decide. rewrite E. cbn [bind fst snd]. rewrite Ek. cbn [bind]. rewrite Ez. cbn [bind]. reflexivity.
Qed.
End Decide.

Lemma other_one (V V' : list nat) i : NoDup V -> length V' <= length V -> In i V' -> ~ In i V -> exists j, In j V /\ ~ In j V'.
Proof.
  intros N L Hi Hn. destruct (Exists_dec (fun j => ~ In j V') V) as [H|H].
  - intros j. destruct (in_dec Nat.eq_dec j V'); [right|left]; auto.
  - apply Exists_exists in H. exact H.
  - exfalso. apply Hn. apply (NoDup_length_incl N L); [|exact Hi]. intros j Hj. destruct (in_dec Nat.eq_dec j V') as [|Hj']; [assumption|].
    exfalso. apply H. apply Exists_exists. exists j. auto.
Qed.

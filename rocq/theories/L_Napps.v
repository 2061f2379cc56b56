From Coq Require Import Arith Lia Reals Lra List Bool.
Import ListNotations.
From Coquelicot Require Import Complex.
From Verif Require Import S_Arnoldi M_Arnoldi L_Arnoldi M_Napps.
Open Scope R_scope.
Open Scope C_scope.

Ltac dec :=
  repeat match goal with
  | |- context [Nat.eqb ?a ?b] =>
      first [ replace (Nat.eqb a b) with true by (symmetry; apply Nat.eqb_eq; lia)
            | replace (Nat.eqb a b) with false by (symmetry; apply Nat.eqb_neq; lia) ]
  end.

(* a rotation of the elements i and i + 1 of a column and of a row *)
Definition rotL (i : nat) (c : R) (s : C) (x : nat -> C) : nat -> C :=
  fun r => if Nat.eqb r i then c * x i + s * x (S i)
           else if Nat.eqb r (S i) then - Cconj s * x i + c * x (S i) else x r.
Definition rotR (i : nat) (c : R) (s : C) (x : nat -> C) : nat -> C :=
  fun k => if Nat.eqb k i then c * x i + Cconj s * x (S i)
           else if Nat.eqb k (S i) then - s * x i + c * x (S i) else x k.

Definition unitary (c : R) (s : C) : Prop := RtoC c * RtoC c + Cconj s * s = 1.

Lemma csum_two : forall m i x y, (S i < m)%nat ->
  (forall k, (k < m)%nat -> k <> i -> k <> S i -> x k = y k) ->
  x i + x (S i) = y i + y (S i) -> csum m x = csum m y.
Proof.
  induction m; intros i x y Hi E E2; [lia|].
  destruct (Nat.eq_dec m (S i)) as [->|N].
  - cbn [csum]. rewrite (csum_ext i x y) by (intros; apply E; lia).
    rewrite <- !Cplus_assoc, E2. reflexivity.
  - cbn [csum]. rewrite (IHm i x y), (E m); auto; try lia.
Qed.

Lemma unitary_sq : forall c s, unitary c s -> RtoC c * RtoC c = 1 - Cconj s * s.
Proof. intros c s H. rewrite <- H. ring. Qed.

Lemma rot_inner : forall m i c s x y, (S i < m)%nat -> unitary c s ->
  csum m (fun k => rotR i c s x k * rotL i c s y k) = csum m (fun k => x k * y k).
Proof.
  intros m i c s x y Hi HU. pose proof (unitary_sq c s HU) as U. apply csum_two with i; auto.
  - intros k Hk N1 N2. unfold rotR, rotL. dec. reflexivity.
  - unfold rotR, rotL. dec. ring [U].
Qed.

Lemma rotR_sum : forall m i c s x (g : nat -> nat -> C) cc,
  csum m (fun k => x k * rotR i c s (g k) cc) = rotR i c s (fun cc => csum m (fun k => x k * g k cc)) cc.
Proof.
  intros. unfold rotR. destruct (Nat.eqb cc i), (Nat.eqb cc (S i)); auto;
    rewrite <- !csum_scal, <- csum_plus; apply csum_ext; intros; ring.
Qed.

Lemma rotR_ext : forall i c s x y k, (forall k, x k = y k) -> rotR i c s x k = rotR i c s y k.
Proof. intros. unfold rotR. rewrite !H. reflexivity. Qed.

Lemma rotR_ext_lt : forall m i c s x y k, (S i < m)%nat -> (k < m)%nat ->
  (forall k, (k < m)%nat -> x k = y k) -> rotR i c s x k = rotR i c s y k.
Proof. intros. unfold rotR. rewrite !H1 by lia. reflexivity. Qed.

Definition cgram (m : nat) (q : nat -> nat -> C) (a b : nat) : C := csum m (fun r => Cconj (q r a) * q r b).
Definition unit_cgram (m : nat) (q : nat -> nat -> C) : Prop :=
  forall a b, (a < m)%nat -> (b < m)%nat -> cgram m q a b = if Nat.eqb a b then 1 else 0.

Lemma rotR_gram : forall m i c s q q', unitary c s -> (S i < m)%nat ->
  (forall r k, (r < m)%nat -> q' r k = rotR i c s (q r) k) ->
  unit_cgram m q -> unit_cgram m q'.
Proof.
  intros m i c s q q' HU Hi E G a b Ha Hb. pose proof (unitary_sq c s HU) as U.
  assert (L : forall x y k l a1 a2 b1 b2, (forall r, (r < m)%nat -> q' r k = x * q r a1 + y * q r a2) ->
     forall x' y', (forall r, (r < m)%nat -> q' r l = x' * q r b1 + y' * q r b2) ->
     cgram m q' k l = Cconj x * x' * cgram m q a1 b1 + Cconj x * y' * cgram m q a1 b2
                     + Cconj y * x' * cgram m q a2 b1 + Cconj y * y' * cgram m q a2 b2).
  { intros x y k l a1 a2 b1 b2 E1 x' y' E2. unfold cgram.
    rewrite <- !csum_scal, <- !csum_plus. apply csum_ext. intros r Hr. rewrite E1, E2 by auto.
    rewrite conj_plus, !conj_mult. ring. }
  assert (Ei : forall r, (r < m)%nat -> q' r i = RtoC c * q r i + Cconj s * q r (S i)).
  { intros r Hr. rewrite E by auto. unfold rotR. dec. reflexivity. }
  assert (Ej : forall r, (r < m)%nat -> q' r (S i) = - s * q r i + RtoC c * q r (S i)).
  { intros r Hr. rewrite E by auto. unfold rotR. dec. reflexivity. }
  assert (Eo : forall k, k <> i -> k <> S i -> forall r, (r < m)%nat -> q' r k = 1 * q r k + 0 * q r k).
  { intros k N1 N2 r Hr. rewrite E by auto. unfold rotR. dec. ring. }
  assert (D : forall k, (k < m)%nat -> k = i \/ k = S i \/ (k <> i /\ k <> S i)) by lia.
  destruct (D a Ha) as [->|[->|[Na1 Na2]]], (D b Hb) as [->|[->|[Nb1 Nb2]]];
    dec;
    (erewrite L; [|first [exact Ei | exact Ej | apply Eo; assumption]
                  |first [exact Ei | exact Ej | apply Eo; assumption]]);
    rewrite !G by lia; dec; rewrite ?conj_opp, ?conj_conj, ?conj_R; try ring [U].
Qed.

(* columns before i have bandwidth S j, the others j *)
Definition zbanded (m j i : nat) (q : nat -> nat -> C) : Prop :=
  forall r c, (r < m)%nat -> (c < m)%nat ->
    (c + (if Nat.ltb c i then S j else j) < r)%nat -> q r c = 0.

Lemma zright_full : forall m j i c s q, zbanded m j i q -> (S i < m)%nat ->
  forall r k, (r < m)%nat -> zright (Nat.min (i + 1 + S j) m) i c s q r k = rotR i c s (q r) k.
Proof.
  intros m j i c s q H Hi r k Hr. unfold zright, rotR.
  destruct (Nat.ltb_spec r (Nat.min (i + 1 + S j) m)); [reflexivity|].
  rewrite (H r i), (H r (S i)); try lia.
  - destruct (Nat.eqb_spec k i); [subst; rewrite (H r i); try lia; [ring|]|].
    + destruct (Nat.ltb_spec i i); lia.
    + destruct (Nat.eqb_spec k (S i)); [subst|reflexivity]. rewrite (H r (S i)); try lia; [ring|].
      destruct (Nat.ltb_spec (S i) i); lia.
  - destruct (Nat.ltb_spec (S i) i); lia.
  - destruct (Nat.ltb_spec i i); lia.
Qed.

Lemma rotR_banded : forall m j i c s q q', zbanded m j i q -> (S i < m)%nat ->
  (forall r k, (r < m)%nat -> q' r k = rotR i c s (q r) k) -> zbanded m j (S i) q'.
Proof.
  intros m j i c s q q' H Hi E r k Hr Hk L. rewrite E by auto. unfold rotR.
  assert (Z : forall k', (k' = i \/ k' = S i) -> (k' + (if Nat.ltb k' i then S j else j) < r)%nat -> q r k' = 0).
  { intros. apply H; auto; lia. }
  destruct (Nat.eqb_spec k i) as [->|].
  - destruct (Nat.ltb_spec i (S i)); [|lia].
    rewrite (Z i), (Z (S i)); auto; try ring.
    + destruct (Nat.ltb_spec (S i) i); lia.
    + destruct (Nat.ltb_spec i i); lia.
  - destruct (Nat.eqb_spec k (S i)) as [->|].
    + destruct (Nat.ltb_spec (S i) (S i)); [lia|].
      rewrite (Z i), (Z (S i)); auto; try ring.
      * destruct (Nat.ltb_spec (S i) i); lia.
      * destruct (Nat.ltb_spec i i); lia.
    + apply H; auto. destruct (Nat.ltb_spec k (S i)), (Nat.ltb_spec k i); lia.
Qed.

(* ---- one rotation of H ---- *)

(* zero below the subdiagonal, except for the bulge at (i + 1, i - 1) *)
Definition hessb (m i : nat) (h : nat -> nat -> C) : Prop :=
  forall r c, (r < m)%nat -> (S c < r)%nat -> ~ (r = S i /\ S c = i) -> h r c = 0.

(* nothing is left of the diagonal in row iend + 1, up to column iend *)
Definition cut (m iend : nat) (h : nat -> nat -> C) : Prop :=
  (S iend < m)%nat -> forall c, (c <= iend)%nat -> h (S iend) c = 0.

Definition hfull (i : nat) (c : R) (s : C) (h : nat -> nat -> C) (r k : nat) : C :=
  rotR i c s (fun k => rotL i c s (fun r => h r k) r) k.

Lemma zturn_h : forall m istart iend i c s r0 f g h,
  (istart <= i < iend)%nat -> (iend < m)%nat ->
  RtoC c * f + s * g = r0 -> - Cconj s * f + RtoC c * g = 0 ->
  hessb m i h -> cut m iend h ->
  ((istart < i)%nat -> f = h i (i - 1)%nat /\ g = h (S i) (i - 1)%nat) ->
  (i = istart -> (0 < i)%nat -> h i (i - 1)%nat = 0 /\ h (S i) (i - 1)%nat = 0) ->
  forall r k, (r < m)%nat -> (k < m)%nat ->
    zright (Nat.min (i + 3) (iend + 1)) i c s
      (zleft m i c s (if Nat.ltb istart i then zput2 (zput2 h i (i - 1) r0) (S i) (i - 1) 0 else h)) r k
    = hfull i c s h r k.
Proof.
  intros m istart iend i c s r0 f g h Hi Hm R1 R2 HB HC HF HZ.
  set (h1 := if Nat.ltb istart i then zput2 (zput2 h i (i - 1) r0) (S i) (i - 1) 0 else h).
  assert (H1 : forall r k, (i <= k)%nat -> h1 r k = h r k).
  { intros r k Hk. unfold h1. destruct (Nat.ltb_spec istart i); auto. rewrite !zput2_spec.
    destruct (Nat.eqb_spec k (i - 1)); [lia|]. rewrite !andb_false_r. reflexivity. }
  assert (HL : forall r k, (r < m)%nat -> (k < m)%nat -> zleft m i c s h1 r k = rotL i c s (fun r => h r k) r).
  { intros r k Hr Hk. unfold zleft. destruct (Nat.leb_spec i k); cbn [andb].
    - destruct (Nat.ltb_spec k m); [|lia]. unfold rotL. rewrite !H1 by auto. reflexivity.
    - unfold rotL. destruct (Nat.eq_dec k (i - 1)) as [->|Nk].
      + unfold h1. destruct (Nat.ltb_spec istart i) as [L|L].
        * destruct (HF L) as [Ef Eg]. rewrite <- Ef, <- Eg. rewrite !zput2_spec.
          rewrite Nat.eqb_refl, !andb_true_r. 
          destruct (Nat.eqb_spec r i), (Nat.eqb_spec r (S i)); try lia; auto.
        * destruct HZ as [Z1 Z2]; try lia. rewrite Z1, Z2.
          destruct (Nat.eqb_spec r i); [subst; rewrite Z1; ring|].
          destruct (Nat.eqb_spec r (S i)); [subst; rewrite Z2; ring|reflexivity].
      + assert (E : h1 r k = h r k).
        { unfold h1. destruct (Nat.ltb istart i); auto. rewrite !zput2_spec.
          destruct (Nat.eqb_spec k (i - 1)); [lia|]. rewrite !andb_false_r. reflexivity. }
        rewrite E. rewrite (HB i k) by lia. rewrite (HB (S i) k) by lia.
        destruct (Nat.eqb_spec r i); [subst; rewrite (HB i k) by lia; ring|].
        destruct (Nat.eqb_spec r (S i)); [subst; rewrite (HB (S i) k) by lia; ring|reflexivity]. }
  intros r k Hr Hk. unfold hfull, zright.
  destruct (Nat.ltb_spec r (Nat.min (i + 3) (iend + 1))) as [L|L].
  - unfold rotR. rewrite !HL by lia. reflexivity.
  - assert (Zi : h r i = 0) by (apply HB; lia).
    assert (Zs : h r (S i) = 0).
    { destruct (Nat.ltb_spec (S (S i)) r); [apply HB; lia|].
      replace r with (S iend) by lia. apply HC; lia. }
    rewrite HL by auto. unfold rotR.
    destruct (Nat.eqb_spec k i); [subst; unfold rotL; dec; rewrite Zi, Zs; ring|].
    destruct (Nat.eqb_spec k (S i)); [subst; unfold rotL; dec; rewrite Zi, Zs; ring|reflexivity].
Qed.

Lemma hfull_hessb : forall m istart iend i c s f g h h',
  (istart <= i < iend)%nat -> (iend < m)%nat ->
  - Cconj s * f + RtoC c * g = 0 ->
  hessb m i h -> cut m iend h ->
  ((istart < i)%nat -> f = h i (i - 1)%nat /\ g = h (S i) (i - 1)%nat) ->
  (i = istart -> (0 < i)%nat -> h i (i - 1)%nat = 0 /\ h (S i) (i - 1)%nat = 0) ->
  (forall r k, (r < m)%nat -> (k < m)%nat -> h' r k = hfull i c s h r k) ->
  hessb m (S i) h' /\ cut m iend h'.
Proof.
  intros m istart iend i c s f g h h' Hi Hm R2 HB HC HF HZ E. split.
  - intros r k Hr Hrk Hn. rewrite E by lia. unfold hfull, rotR.
    assert (Hki : k <> i \/ (S (S i) < r)%nat) by lia.
    destruct (Nat.eqb_spec k i).
    + unfold rotL. dec. rewrite (HB r i), (HB r (S i)) by lia. ring.
    + destruct (Nat.eqb_spec k (S i)).
      * unfold rotL. dec. rewrite (HB r i), (HB r (S i)) by lia. ring.
      * unfold rotL. destruct (Nat.eqb_spec r i).
        -- rewrite (HB i k), (HB (S i) k) by lia. ring.
        -- destruct (Nat.eqb_spec r (S i)); [|apply HB; lia].
           destruct (Nat.eq_dec (S k) i) as [Ek|Nk].
           ++ replace k with (i - 1)%nat by lia.
              destruct (Nat.eq_dec i istart) as [Ei|Ni].
              ** destruct HZ as [Z1 Z2]; try lia. rewrite Z1, Z2. ring.
              ** destruct HF as [F1 F2]; try lia. rewrite <- F1, <- F2. auto.
           ++ rewrite (HB i k), (HB (S i) k) by lia. ring.
  - intros Hc k Hk. rewrite E by lia. unfold hfull, rotR.
    assert (Z : forall k, (k <= iend)%nat -> rotL i c s (fun r => h r k) (S iend) = 0).
    { intros k' Hk'. unfold rotL. dec. apply HC; auto. }
    rewrite !Z by lia. destruct (Nat.eqb k i), (Nat.eqb k (S i)); ring.
Qed.

Definition similar (m : nat) (h0 h q : nat -> nat -> C) : Prop :=
  forall r c, (r < m)%nat -> (c < m)%nat ->
    csum m (fun k => h0 r k * q k c) = csum m (fun k => q r k * h k c).

Lemma hfull_similar : forall m i c s h0 h q h' q', (S i < m)%nat -> unitary c s ->
  (forall r k, (r < m)%nat -> (k < m)%nat -> h' r k = hfull i c s h r k) ->
  (forall r k, (r < m)%nat -> q' r k = rotR i c s (q r) k) ->
  similar m h0 h q -> similar m h0 h' q'.
Proof.
  intros m i c s h0 h q h' q' Hi HU Eh Eq HS r cc Hr Hc.
  rewrite (csum_ext m _ (fun k => h0 r k * rotR i c s (q k) cc)) by (intros; rewrite Eq; auto).
  rewrite rotR_sum.
  rewrite (csum_ext m (fun k => q' r k * h' k cc)
            (fun k => q' r k * rotR i c s ((fun k k' => rotL i c s (fun r => h r k') k) k) cc)).
  2:{ intros k Hk. rewrite Eh by auto. reflexivity. }
  rewrite rotR_sum. apply (rotR_ext_lt m); auto.
  intros k Hk. rewrite HS by auto. symmetry.
  rewrite (csum_ext m _ (fun k0 => rotR i c s (q r) k0 * rotL i c s (fun r => h r k) k0)).
  - apply rot_inner; auto.
  - intros. rewrite Eq by auto. reflexivity.
Qed.

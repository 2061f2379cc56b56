From Coq Require Import Arith Lia Reals Lra List Bool.
Import ListNotations.
From Verif Require Import S_Lanczos M_Lanczos L_Lanczos M_Sapps.
Open Scope R_scope.

(* the elements beside the diagonal of a matrix of order m, zero outside *)
Definition eff (m : nat) (b : nat -> R) : nat -> R :=
  fun c => if (Nat.eqb c 0 || Nat.leb m c)%bool then 0 else b c.

Lemma eff_0 : forall m b, eff m b 0 = 0.
Proof. reflexivity. Qed.

Lemma eff_m : forall m b c, (m <= c)%nat -> eff m b c = 0.
Proof. intros. unfold eff. destruct (Nat.leb_spec m c); [rewrite orb_true_r; auto|lia]. Qed.

Lemma eff_in : forall m b c, (0 < c < m)%nat -> eff m b c = b c.
Proof.
  intros. unfold eff. destruct (Nat.eqb_spec c 0), (Nat.leb_spec m c); auto; lia.
Qed.

Lemma eff_put : forall m b j x c, (0 < j < m)%nat -> eff m (put b j x) c = put (eff m b) j x c.
Proof.
  intros. unfold eff, put.
  destruct (Nat.eqb_spec c j).
  - subst. destruct (Nat.eqb_spec j 0), (Nat.leb_spec m j); auto; lia.
  - reflexivity.
Qed.

Lemma eff_ext : forall m b b', (forall c, (0 < c < m)%nat -> b c = b' c) -> forall c, eff m b c = eff m b' c.
Proof.
  intros. unfold eff. destruct (Nat.eqb_spec c 0), (Nat.leb_spec m c); auto. apply H; lia.
Qed.

(* a row times the tridiagonal matrix *)
Definition plain (m : nat) (d e x y : nat -> R) : Prop :=
  forall c, (c < m)%nat -> y c = e c * x (c - 1)%nat + d c * x c + e (S c) * x (S c).

(* the same with a bulge: the element e (i + 1) is split by a rotation *)
Definition bulged (m : nat) (d e : nat -> R) (i : nat) (c0 s0 : R) (x y : nat -> R) : Prop :=
  forall c, (c < m)%nat ->
    y c = (if Nat.eqb c (S i) then s0 * e (S i) * x (i - 1)%nat else 0)
          + (if Nat.eqb c (S i) then c0 * e c else e c) * x (c - 1)%nat
          + d c * x c
          + (if Nat.eqb c i then c0 * e (S c) else e (S c)) * x (S c)
          + (if Nat.eqb (S c) i then s0 * e (S i) * x (S i) else 0).

Definition turned (i : nat) (c s : R) (x : nat -> R) : nat -> R :=
  put (put x (S i) (- s * x i + c * x (S i))) i (c * x i + s * x (S i)).

Ltac dec :=
  repeat match goal with
  | |- context [Nat.eqb ?a ?b] =>
      first [ replace (Nat.eqb a b) with true by (symmetry; apply Nat.eqb_eq; lia)
            | replace (Nat.eqb a b) with false by (symmetry; apply Nat.eqb_neq; lia) ]
  end.
Ltac dec_in H :=
  repeat match type of H with
  | context [Nat.eqb ?a ?b] =>
      first [ replace (Nat.eqb a b) with true in H by (symmetry; apply Nat.eqb_eq; lia)
            | replace (Nat.eqb a b) with false in H by (symmetry; apply Nat.eqb_neq; lia) ]
  end.

Lemma plain_bulged : forall m d e i x y, plain m d e x y -> bulged m d e i 1 0 x y.
Proof.
  intros m d e i x y H c Hc. rewrite (H c Hc).
  destruct (Nat.eqb c (S i)), (Nat.eqb c i), (Nat.eqb (S c) i); lra.
Qed.

Lemma bulged_plain : forall m d e i c0 s0 x y, e (S i) = 0 -> bulged m d e i c0 s0 x y -> plain m d e x y.
Proof.
  intros m d e i c0 s0 x y E H c Hc. rewrite (H c Hc), E.
  destruct (Nat.eqb_spec c (S i)), (Nat.eqb_spec c i), (Nat.eqb (S c) i);
    try lia; subst; rewrite ?E; lra.
Qed.

(* one rotation moves the bulge *)
Lemma turn_bulged : forall m d e i c0 s0 c s r x y,
  (0 < i)%nat -> (S i < m)%nat -> c * c + s * s = 1 ->
  c * e i + s * (s0 * e (S i)) = r -> - s * e i + c * (s0 * e (S i)) = 0 ->
  bulged m d e i c0 s0 x y ->
  let e1 := c0 * e (S i) in
  let a1 := c * d i + s * e1 in
  let a2 := c * e1 + s * d (S i) in
  let a4 := c * d (S i) - s * e1 in
  let a3 := c * e1 - s * d i in
  bulged m (put (put d i (c * a1 + s * a2)) (S i) (c * a4 - s * a3))
    (put (put e i r) (S i) (c * a3 + s * a4)) (S i) c s (turned i c s x) (turned i c s y).
Proof.
  intros m d e i c0 s0 c s r x y Hi Hm H1 Hr H0 H. cbv zeta.
  destruct i as [|p]; [lia|].
  assert (Hx0 : x (S p) = c * (c * x (S p) + s * x (S (S p))) - s * (- s * x (S p) + c * x (S (S p)))).
  { transitivity ((c * c + s * s) * x (S p)); [rewrite H1; ring|ring]. }
  assert (Hx1 : x (S (S p)) = s * (c * x (S p) + s * x (S (S p))) + c * (- s * x (S p) + c * x (S (S p)))).
  { transitivity ((c * c + s * s) * x (S (S p))); [rewrite H1; ring|ring]. }
  set (u := c * x (S p) + s * x (S (S p))) in *.
  set (w := - s * x (S p) + c * x (S (S p))) in *.
  intros k Hk. unfold turned. fold u. fold w.
  assert (Cases : k = p \/ k = S p \/ k = S (S p) \/ k = S (S (S p)) \/ (k < p)%nat \/ (S (S (S p)) < k)%nat) by lia.
  destruct Cases as [->|[->|[->|[->|Far]]]].
  - (* above the rotated rows *)
    pose proof (H p ltac:(lia)) as Hp. dec_in Hp. unfold put. dec. rewrite Hp.
    replace (S p - 1)%nat with p by lia.
    assert (E : e (S p) * x (S p) + s0 * e (S (S p)) * x (S (S p)) = r * u).
    { rewrite Hx0, Hx1, <- Hr.
      assert (w * (- s * e (S p) + c * (s0 * e (S (S p)))) = 0) by (rewrite H0; ring). lra. }
    lra.
  - (* the first rotated row *)
    pose proof (H (S p) ltac:(lia)) as Ha. pose proof (H (S (S p)) ltac:(lia)) as Hb.
    dec_in Ha. dec_in Hb. unfold put. dec.
    replace (S p - 1)%nat with p in * by lia. replace (S (S p) - 1)%nat with (S p) in * by lia. dec.
    assert (E : c * (e (S p) * x p) + s * (s0 * e (S (S p)) * x p) = r * x p).
    { rewrite <- Hr. ring. }
    rewrite Ha, Hb. rewrite Hx0, Hx1. lra.
  - (* the second *)
    pose proof (H (S p) ltac:(lia)) as Ha. pose proof (H (S (S p)) ltac:(lia)) as Hb.
    dec_in Ha. dec_in Hb. unfold put. dec.
    replace (S p - 1)%nat with p in * by lia. replace (S (S p) - 1)%nat with (S p) in * by lia. dec.
    assert (E : - s * (e (S p) * x p) + c * (s0 * e (S (S p)) * x p) = 0).
    { transitivity ((- s * e (S p) + c * (s0 * e (S (S p)))) * x p); [ring|rewrite H0; ring]. }
    rewrite Ha, Hb. rewrite Hx0, Hx1. lra.
  - (* below *)
    pose proof (H (S (S (S p))) ltac:(lia)) as Hp. dec_in Hp. unfold put. dec. rewrite Hp.
    replace (S (S (S p)) - 1)%nat with (S (S p)) in * by lia.
    replace (S (S p) - 1)%nat with (S p) in * by lia. dec.
    rewrite Hx1. lra.
  - (* far away *)
    pose proof (H k Hk) as Hp. dec_in Hp. unfold put. dec. rewrite Hp. 
    destruct Far as [Far|Far]; dec; lra.
Qed.

(* the first rotation of a block makes the bulge *)
Lemma turn_plain : forall m d e i c s x y,
  (S i < m)%nat -> c * c + s * s = 1 -> e i = 0 -> plain m d e x y ->
  let e1 := e (S i) in
  let a1 := c * d i + s * e1 in
  let a2 := c * e1 + s * d (S i) in
  let a4 := c * d (S i) - s * e1 in
  let a3 := c * e1 - s * d i in
  bulged m (put (put d i (c * a1 + s * a2)) (S i) (c * a4 - s * a3))
    (put e (S i) (c * a3 + s * a4)) (S i) c s (turned i c s x) (turned i c s y).
Proof.
  intros m d e i c s x y Hm H1 H0 H. cbv zeta.
  assert (Hx0 : x i = c * (c * x i + s * x (S i)) - s * (- s * x i + c * x (S i))).
  { transitivity ((c * c + s * s) * x i); [rewrite H1; ring|ring]. }
  assert (Hx1 : x (S i) = s * (c * x i + s * x (S i)) + c * (- s * x i + c * x (S i))).
  { transitivity ((c * c + s * s) * x (S i)); [rewrite H1; ring|ring]. }
  set (u := c * x i + s * x (S i)) in *.
  set (w := - s * x i + c * x (S i)) in *.
  intros k Hk. unfold turned. fold u. fold w.
  assert (Cases : k = i \/ k = S i \/ k = S (S i) \/ (k < i)%nat \/ (S (S i) < k)%nat) by lia.
  destruct Cases as [->|[->|[->|Far]]].
  - pose proof (H i ltac:(lia)) as Ha. pose proof (H (S i) ltac:(lia)) as Hb.
    unfold put. dec. replace (S i - 1)%nat with i in * by lia. dec.
    rewrite Ha, Hb, H0. rewrite Hx0, Hx1. lra.
  - pose proof (H i ltac:(lia)) as Ha. pose proof (H (S i) ltac:(lia)) as Hb.
    unfold put. dec. replace (S i - 1)%nat with i in * by lia. dec.
    rewrite Ha, Hb, H0. rewrite Hx0, Hx1. lra.
  - pose proof (H (S (S i)) ltac:(lia)) as Hp. unfold put. dec. rewrite Hp.
    replace (S (S i) - 1)%nat with (S i) in * by lia. replace (S i - 1)%nat with i in * by lia. dec.
    rewrite Hx1. lra.
  - pose proof (H k Hk) as Hp. unfold put. dec. rewrite Hp.
    destruct Far as [Far|Far]; dec; try lra.
    destruct (Nat.eqb_spec (S k) i) as [<-|]; dec; [rewrite H0|]; lra.
Qed.

(* the change of sign of a column that ends a block *)
Lemma flip_plain : forall m d e i x y, e 0%nat = 0 -> e (S i) = 0 -> plain m d e x y ->
  plain m d (put e i (- e i)) (put x i (- x i)) (put y i (- y i)).
Proof.
  intros m d e i x y Z H0 H k Hk. pose proof (H k Hk) as Hp. unfold put.
  assert (Cases : k = i \/ k = S i \/ (S k = i)%nat \/ (k <> i /\ k <> S i /\ S k <> i)) by lia.
  destruct Cases as [->|[->|[<-|Far]]].
  - destruct i as [|i].
    + simpl in *. rewrite Hp, H0, Z. lra.
    + dec. rewrite Hp, H0. lra.
  - dec. replace (S i - 1)%nat with i in * by lia. rewrite Hp, H0. lra.
  - dec. destruct (Nat.eqb_spec (k - 1)%nat (S k)); [lia|]. rewrite Hp. lra.
  - dec. destruct k as [|k].
    + rewrite Hp. simpl. dec. 
      destruct (Nat.eqb_spec 0 i); [lia|]. lra.
    + dec. rewrite Hp. lra.
Qed.

(* ---- rows of Q and of (tridiagonal matrix) * Q ---- *)

Definition hq (m : nat) (d0 b0 : nat -> R) (q : nat -> nat -> R) (r : nat) : nat -> R :=
  fun c => eff m b0 r * q (r - 1)%nat c + d0 r * q r c + eff m b0 (S r) * q (S r) c.

Definition gram (m : nat) (q : nat -> nat -> R) (a b : nat) : R := sum m (fun r => q r a * q r b).

(* columns before i have bandwidth S j, the others j *)
Definition banded (m j i : nat) (q : nat -> nat -> R) : Prop :=
  forall r c, (r < m)%nat -> (c < m)%nat ->
    (c + (if Nat.ltb c i then S j else j) < r)%nat -> q r c = 0.

Lemma rot_q_full : forall m j i c s q, banded m j i q -> (S i < m)%nat ->
  forall r k, (r < m)%nat -> rot_q (Nat.min (S i + S j) m) i c s q r k = turned i c s (q r) k.
Proof.
  intros m j i c s q H Hi r k Hr. unfold rot_q.
  destruct (Nat.ltb_spec r (Nat.min (S i + S j) m)); [reflexivity|].
  assert (q r i = 0).
  { apply H; try lia. destruct (Nat.ltb_spec i i); lia. }
  assert (q r (S i) = 0).
  { apply H; try lia. destruct (Nat.ltb_spec (S i) i); lia. }
  unfold turned, put. destruct (Nat.eqb_spec k i); [subst; rewrite H1, H2; lra|].
  destruct (Nat.eqb_spec k (S i)); [subst; rewrite H1, H2; lra|reflexivity].
Qed.

Lemma turned_banded : forall m j i c s q q', banded m j i q -> (S i < m)%nat ->
  (forall r k, (r < m)%nat -> q' r k = turned i c s (q r) k) -> banded m j (S i) q'.
Proof.
  intros m j i c s q q' H Hi E r k Hr Hk L. rewrite E by auto. unfold turned, put.
  destruct (Nat.eqb_spec k i) as [->|].
  - destruct (Nat.ltb_spec i (S i)); [|lia].
    rewrite (H r i), (H r (S i)); try lia; try lra.
    + destruct (Nat.ltb_spec (S i) i); lia.
    + destruct (Nat.ltb_spec i i); lia.
  - destruct (Nat.eqb_spec k (S i)) as [->|].
    + destruct (Nat.ltb_spec (S i) (S i)); [lia|].
      rewrite (H r i), (H r (S i)); try lia; try lra.
      * destruct (Nat.ltb_spec (S i) i); lia.
      * destruct (Nat.ltb_spec i i); lia.
    + apply H; auto. destruct (Nat.ltb_spec k (S i)), (Nat.ltb_spec k i); lia.
Qed.

Lemma turned_gram : forall m i c s q q', c * c + s * s = 1 -> (S i < m)%nat ->
  (forall r k, (r < m)%nat -> q' r k = turned i c s (q r) k) ->
  (forall a b, (a < m)%nat -> (b < m)%nat -> gram m q a b = if Nat.eqb a b then 1 else 0) ->
  (forall a b, (a < m)%nat -> (b < m)%nat -> gram m q' a b = if Nat.eqb a b then 1 else 0).
Proof.
  intros m i c s q q' H1 Hi E G a b Ha Hb.
  assert (L : forall x y k l a1 a2 b1 b2, (forall r, (r < m)%nat -> q' r k = x * q r a1 + y * q r a2) ->
     forall x' y', (forall r, (r < m)%nat -> q' r l = x' * q r b1 + y' * q r b2) ->
     gram m q' k l = x * x' * gram m q a1 b1 + x * y' * gram m q a1 b2
                     + y * x' * gram m q a2 b1 + y * y' * gram m q a2 b2).
  { intros x y k l a1 a2 b1 b2 E1 x' y' E2. unfold gram.
    rewrite <- !sum_scal, <- !sum_plus. apply sum_ext. intros r Hr. rewrite E1, E2 by auto. ring. }
  assert (Ei : forall r, (r < m)%nat -> q' r i = c * q r i + s * q r (S i)).
  { intros r Hr. rewrite E by auto. unfold turned. rewrite put_same. reflexivity. }
  assert (Ej : forall r, (r < m)%nat -> q' r (S i) = - s * q r i + c * q r (S i)).
  { intros r Hr. rewrite E by auto. unfold turned. rewrite put_other, put_same by lia. reflexivity. }
  assert (Eo : forall k, k <> i -> k <> S i -> forall r, (r < m)%nat -> q' r k = 1 * q r k + 0 * q r k).
  { intros k N1 N2 r Hr. rewrite E by auto. unfold turned. rewrite !put_other by lia. ring. }
  assert (D : forall k, (k < m)%nat -> k = i \/ k = S i \/ (k <> i /\ k <> S i)) by lia.
  destruct (D a Ha) as [->|[->|[Na1 Na2]]], (D b Hb) as [->|[->|[Nb1 Nb2]]];
    dec;
    (erewrite L; [|first [exact Ei | exact Ej | apply Eo; assumption]
                  |first [exact Ei | exact Ej | apply Eo; assumption]]);
    rewrite !G by lia; dec; try lra.
Qed.

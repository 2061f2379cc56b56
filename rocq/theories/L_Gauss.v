(* The Gaussian rationals, a field of complex numbers with a nontrivial
   conjugation: examples of the properties of complex numbers. *)
From Coq Require Import QArith Qcanon Lqa.
From Verif Require Import Base Spec S_Expm L_Expm.
Local Open Scope Qc_scope.

Definition GQ := (Qc * Qc)%type.
Definition GQnum : numops GQ :=
  mkNum (Q2Qc 0, Q2Qc 0) (Q2Qc 1, Q2Qc 0)
    (fun x y => (fst x + fst y, snd x + snd y))
    (fun x y => (fst x * fst y - snd x * snd y, fst x * snd y + snd x * fst y))
    (fun x => (fst x, - snd x)).
Definition GQfield : fieldops GQ :=
  mkField (fun x y => (fst x - fst y, snd x - snd y))
    (fun x y => let d := fst y * fst y + snd y * snd y in
                ((fst x * fst y + snd x * snd y) / d, (snd x * fst y - fst x * snd y) / d))
    (fun n => (Q2Qc (inject_Z (Z.of_nat n)), Q2Qc 0)).

Lemma Qc_squares (x y : Qc) : x * x + y * y = Q2Qc 0 -> x = Q2Qc 0 /\ y = Q2Qc 0.
Proof.
  intros H. apply (f_equal this) in H. unfold Qcplus, Qcmult, Q2Qc in H; cbn [this] in H.
  assert (E : (this x * this x + this y * this y == 0)%Q).
  { rewrite <- (Qred_correct (this x * this x)), <- (Qred_correct (this y * this y)), <- (Qred_correct (_ + _)), H. reflexivity. }
  split; apply Qc_is_canon; change (this (Q2Qc 0)) with 0%Q; nra.
Qed.
Lemma GQnum_laws : numlaws GQnum.
Proof.
  constructor; intros; repeat match goal with x : GQ |- _ => destruct x end;
    cbv beta iota delta [GQnum fst snd nadd nmul nconj nzero none_]; f_equal; ring.
Qed.
Lemma GQfield_laws : fieldlaws GQnum GQfield.
Proof.
  constructor; [exact GQnum_laws|..]; cbn [GQnum GQfield nadd nmul nzero none_ fsub fdiv fnat].
  - intros [x x'] [y y']. cbn. f_equal; ring.
  - intros [x x'] [y y'] Hy. cbn [fst snd].
    assert (D : y * y + y' * y' <> Q2Qc 0) by (intros E; apply Hy; destruct (Qc_squares _ _ E) as [-> ->]; reflexivity).
    f_equal; field; exact D.
  - reflexivity.
  - intros n. cbn [fst snd]. f_equal. apply (f_nat_S _ _ Qcfield_laws).
  - intros n E. apply (f_char _ _ Qcfield_laws n). exact (f_equal fst E).
Qed.

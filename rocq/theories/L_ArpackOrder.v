(* The comparisons of the sorting routines of ARPACK in terms of real numbers *)
From Coq Require Import String List Reals Permutation Lia Lra.
From Flocq Require Import BinarySingleNaN Core.
From Verif Require Import Base M_Double S_Double M_DoubleReduce S_DoubleReduce L_DoubleReduce M_ArpackSort S_ArpackSort L_ArpackSort.
Import ListNotations.
Local Open Scope R_scope.

Lemma spot_place x : spot x = place x.
Proof. reflexivity. Qed.
Lemma spot_dabs x : spot (dabs x) = Rabs (spot x).
Proof.
  pose proof (bpow_gt_0 radix2 1024) as P.
  destruct x as [s|[|]| |s m e Hm]; cbn [dabs Babs spot].
  - unfold value. cbn. rewrite Rabs_R0. reflexivity.
  - rewrite Rabs_Ropp, Rabs_pos_eq by lra. reflexivity.
  - rewrite Rabs_pos_eq by lra. reflexivity.
  - unfold value. cbn. rewrite Rabs_R0. reflexivity.
  - unfold value, dabs. exact (B2R_Babs 53 1024 (B754_finite s m e Hm)).
Qed.
Lemma dlt_spot x y : is_number x -> is_number y -> dlt x y = Rlt_bool (spot x) (spot y).
Proof. apply dlt_place. Qed.

Lemma code_cases w : known_code w -> w = "LM"%string \/ w = "SM"%string \/ w = "LA"%string \/ w = "SA"%string.
Proof. intros [H|[H|[H|[H|[]]]]]; auto. Qed.
(* the comparison of a code is that of the wish *)
Lemma wrong_wish w : known_code w ->
  exists wrong, wrong_order w = Some wrong /\ forall x y, is_number x -> is_number y -> wrong x y = Rlt_bool (wish w y) (wish w x).
Proof.
  assert (N : forall x y : R, Rlt_bool (- x) (- y) = Rlt_bool y x).
  { intros x y. destruct (Rlt_bool_spec y x); [apply Rlt_bool_true|apply Rlt_bool_false]; lra. }
  intros H. destruct (code_cases w H) as [-> | [-> | [-> | ->]]]; eexists; (split; [reflexivity|]); intros x y Hx Hy; cbn;
    rewrite dlt_spot by (rewrite ?dabs_number; assumption); rewrite ?spot_dabs; unfold wish; cbn; rewrite ?N; reflexivity.
Qed.

Section Order.
Context {A : Type} (f : A -> R) (good : A -> Prop) (wrong : A -> A -> bool).
Context (W : forall x y, good x -> good y -> wrong x y = Rlt_bool (f y) (f x)).
Lemma w_asym x y : good x -> good y -> wrong x y = true -> wrong y x = false.
Proof. intros Hx Hy. rewrite !W by auto. destruct (Rlt_bool_spec (f y) (f x)); [|discriminate]. intros _. apply Rlt_bool_false. lra. Qed.
Lemma w_trans x y z : good x -> good y -> good z -> wrong x y = false -> wrong y z = false -> wrong x z = false.
Proof.
  intros Hx Hy Hz. rewrite !W by auto. destruct (Rlt_bool_spec (f y) (f x)), (Rlt_bool_spec (f z) (f y)); try discriminate. intros _ _. apply Rlt_bool_false. lra.
Qed.
Lemma w_increasing n y : Forall good (firstn n y) -> in_order wrong n y -> increasing f n y.
Proof.
  intros G O i j u v Hij Hu Hv.
  destruct (Nat.eq_dec i j) as [->|Hne]; [assert (u = v) by congruence; subst; lra|].
  specialize (O i j u v ltac:(lia) Hu Hv).
  assert (Gx : forall k x, (k < n)%nat -> nth_error y k = Some x -> good x).
  { intros k x Hk Hx. rewrite Forall_forall in G. apply G. apply (nth_error_In _ k). rewrite nth_error_firstn.
    replace (k <? n)%nat with true by (symmetry; apply Nat.ltb_lt; exact Hk). exact Hx. }
  rewrite W in O by (eapply Gx; [|eassumption]; lia). destruct (Rlt_bool_spec (f v) (f u)); [discriminate|assumption].
Qed.
End Order.

Lemma rearranged_keys {A B} n (x1 : list A) (x2 : list B) y1 y2 : (n <= length x1)%nat -> (n <= length x2)%nat ->
  rearranged n x1 x2 y1 y2 -> Permutation (firstn n x1) (firstn n y1) /\ Permutation (firstn n x2) (firstn n y2).
Proof.
  intros H1 H2 (P & L1 & L2 & _).
  assert (E1 : length (firstn n x1) = length (firstn n x2)) by (rewrite !firstn_length; lia).
  assert (E2 : length (firstn n y1) = length (firstn n y2)) by (rewrite !firstn_length; lia).
  split.
  - apply (Permutation_map fst) in P. rewrite !combine_fst in P by assumption. exact P.
  - apply (Permutation_map snd) in P. rewrite !combine_snd in P by assumption. exact P.
Qed.

Lemma code_cases_c w : known_ccode w -> w = "LM"%string \/ w = "SM"%string \/ w = "LR"%string \/ w = "SR"%string \/ w = "LI"%string \/ w = "SI"%string.
Proof. intros [H|[H|[H|[H|[H|[H|[]]]]]]]; auto 10. Qed.
(* what is compared is a number *)
Definition cnumber (lapy2 : double -> double -> double) (z : double * double) : Prop :=
  is_number (fst z) /\ is_number (snd z) /\ is_number (lapy2 (fst z) (snd z)).
Lemma wrong_cwish lapy2 w : known_ccode w ->
  exists wrong, wrong_corder lapy2 w = Some wrong /\
    forall x y, cnumber lapy2 x -> cnumber lapy2 y -> wrong x y = Rlt_bool (cwish lapy2 w y) (cwish lapy2 w x).
Proof.
  assert (N : forall x y : R, Rlt_bool (- x) (- y) = Rlt_bool y x).
  { intros x y. destruct (Rlt_bool_spec y x); [apply Rlt_bool_true|apply Rlt_bool_false]; lra. }
  intros H. destruct (code_cases_c w H) as [-> | [-> | [-> | [-> | [-> | ->]]]]]; eexists; (split; [reflexivity|]);
    intros x y (X1 & X2 & X3) (Y1 & Y2 & Y3); cbn;
    rewrite dlt_spot by assumption; unfold cwish; cbn; rewrite ?N; reflexivity.
Qed.
Lemma good_firstn {A} (good : A -> Prop) l l' : Permutation l l' -> Forall good l -> Forall good l'.
Proof. intros H G. rewrite Forall_forall in *. intros x Hx. apply G. eapply Permutation_in; [symmetry; exact H|exact Hx]. Qed.

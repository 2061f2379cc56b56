(* Lemmas of C97. *)
From Verif Require Import Base Spec S_Arpack M_Tensor M_Eig M_Arpack S_ArpackParams M_ArpackParams L_Lin L_Arpack.
From Coq Require Import ZArith List String Lia.
Import ListNotations.
Local Open Scope nat_scope.

Lemma codes_of {T} rp (p : problem T) : legal rp p ->
  if rp then In (p_which p) ["LM"; "SM"; "LA"; "SA"; "BE"]%string else In (p_which p) ["LM"; "SM"; "LR"; "SR"; "LI"; "SI"]%string.
Proof. intros (_ & _ & _ & _ & H). destruct rp; tauto. Qed.

Section Keep.
Context {E S T : Type} (N : numops E) (aupd : problem T -> io E S -> io E S).
Definition keeps (step : @object E S T -> outcome (@object E S T)) : Prop := forall o o', step o = Ok o' -> ob_problem o' = ob_problem o.

Lemma update_keeps : keeps (update aupd).
Proof.
  intros o o' H. unfold update in H.
  destruct (status_lt (ob_status o) Initialized); [injection H as <-; reflexivity|].
  destruct (status_lt Running (ob_status o)); [injection H as <-; reflexivity|].
  apply bind_ok in H as (st & _ & H). injection H as <-. reflexivity.
Qed.
Lemma dense_keeps n A : keeps (dense_step N n A).
Proof.
  intros o o' H. unfold dense_step in H. apply bind_ok in H as (x & _ & H). apply bind_ok in H as (y & _ & H). apply bind_ok in H as (w & _ & H).
  injection H as <-. reflexivity.
Qed.
Lemma map_keeps f : keeps (map_step f).
Proof.
  intros o o' H. unfold map_step in H. apply bind_ok in H as (x & _ & H). apply bind_ok in H as (y & _ & H).
  unfold set_y in H. apply bind_ok in H as (off & _ & H). apply bind_ok in H as (w & _ & H). injection H as <-. reflexivity.
Qed.
Lemma drive_keeps step : keeps step -> forall fuel o o', drive aupd fuel step o = Ok o' -> ob_problem o' = ob_problem o.
Proof.
  intros K. induction fuel as [|fuel IH]; intros o o' H; [discriminate|]. cbn [drive] in H.
  apply bind_ok in H as (o1 & H1 & H). pose proof (update_keeps _ _ H1) as E1.
  destruct (status_lt (ob_status o1) Finished); [|injection H as <-; auto].
  apply bind_ok in H as (o2 & H2 & H). rewrite (IH _ _ H), (K _ _ H2). auto.
Qed.
End Keep.

Lemma raise_0 c e i : (e <> 0)%Z -> ((raise c e i = 0)%Z <-> c = false /\ (i = 0)%Z).
Proof. unfold raise. destruct c; intuition congruence. Qed.
Lemma if_0 (c : bool) (e i : Z) : (e <> 0)%Z -> ((if c then e else i) = 0%Z <-> c = false /\ (i = 0)%Z).
Proof. destruct c; intuition congruence. Qed.
Lemma is_t a b : is a b = true <-> a = b.
Proof. unfold is. apply String.eqb_eq. Qed.
Lemma is_f a b : is a b = false <-> a <> b.
Proof. unfold is. apply String.eqb_neq. Qed.
Lemma real_which_f w : negb (real_which w) = false <-> In w ["LM"; "SM"; "LA"; "SA"; "BE"]%string.
Proof. unfold real_which. rewrite Bool.negb_false_iff, !Bool.orb_true_iff, !is_t. cbn. intuition congruence. Qed.
Lemma complex_which_f w : negb (complex_which w) = false <-> In w ["LM"; "SM"; "LR"; "SR"; "LI"; "SI"]%string.
Proof. unfold complex_which. rewrite Bool.negb_false_iff, !Bool.orb_true_iff, !is_t. cbn. intuition congruence. Qed.
Lemma bmat_f b : (negb (is b "I") && negb (is b "G"))%bool = false <-> b = "I"%string \/ b = "G"%string.
Proof. rewrite Bool.andb_false_iff, !Bool.negb_false_iff, !is_t. tauto. Qed.
Lemma ncv_f a b c : ((a <=? b) || (c <? a))%Z%bool = false <-> (b < a /\ a <= c)%Z.
Proof. rewrite Bool.orb_false_iff. lia. Qed.
Lemma mode1_f m b : ((m =? 1)%Z && is b "G")%bool = false <-> (m <> 1)%Z \/ b <> "G"%string.
Proof. rewrite Bool.andb_false_iff, is_f. destruct (Z.eqb_spec m 1); intuition congruence. Qed.
Lemma ends_f m b : ((m =? 1)%Z && is b "BE")%bool = false <-> ~ (m = 1%Z /\ b = "BE"%string).
Proof. rewrite Bool.andb_false_iff, is_f. destruct (Z.eqb_spec m 1); intuition congruence. Qed.
Lemma range_f m k : ((m <? 1)%Z || (k <? m)%Z)%bool = false <-> (1 <= m <= k)%Z.
Proof. rewrite Bool.orb_false_iff. lia. Qed.
Lemma modes5_f m : negb ((m =? 1) || (m =? 2) || (m =? 3) || (m =? 4) || (m =? 5))%Z%bool = false <-> (1 <= m <= 5)%Z.
Proof. rewrite Bool.negb_false_iff, !Bool.orb_true_iff. lia. Qed.
Lemma modes3_f m : negb ((m =? 1) || (m =? 2) || (m =? 3))%Z%bool = false <-> (1 <= m <= 3)%Z.
Proof. rewrite Bool.negb_false_iff, !Bool.orb_true_iff. lia. Qed.
Lemma ishift_f m : ((m <? 0)%Z || (1 <? m)%Z)%bool = false <-> (0 <= m <= 1)%Z.
Proof. rewrite Bool.orb_false_iff. lia. Qed.
Lemma howmny_f h r : (negb (is h "A") && negb (is h "P") && negb (is h "S") && r)%bool = false <-> (r = true -> In h ["A"; "P"; "S"]%string).
Proof. rewrite !Bool.andb_false_iff, !Bool.negb_false_iff, !is_t. destruct r; cbn; intuition congruence. Qed.
Lemma skip_f h r : (r && is h "S")%bool = false <-> (r = true -> h <> "S"%string).
Proof. rewrite Bool.andb_false_iff, is_f. destruct r; intuition congruence. Qed.
Lemma room_f (r : bool) a b : (r && (a <? b)%Z)%bool = false <-> (r = true -> (b <= a)%Z).
Proof. rewrite Bool.andb_false_iff. destruct r; intuition (try lia; try congruence). Qed.

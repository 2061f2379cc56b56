(* Lemmas on the selection of eigenvalues: sorting as a choice of places that does
   not depend on the companions *)
From Coq Require Import String List Reals Permutation Lia Lra ZArith.
From Verif Require Import Base M_Double S_Double M_DoubleReduce S_DoubleReduce M_ArpackSort S_ArpackSort L_ArpackSort L_ArpackOrder S_ArpackSelect M_ArpackSelect.
Import ListNotations.
Local Open Scope nat_scope.

Lemma F2_length {A B} (Q : A -> B -> Prop) x y : Forall2 Q x y -> length x = length y.
Proof. induction 1; cbn; congruence. Qed.

(* two runs that differ in the companions *)
Definition orel {S1 S2} (R : S1 -> S2 -> Prop) (x : outcome S1) (y : outcome S2) : Prop :=
  match x, y with Ok a, Ok b => R a b | Abort, Abort | UB, UB | Hang, Hang => True | _, _ => False end.
Lemma orel_bind {S1 S2 T1 T2} (R : S1 -> S2 -> Prop) (Q : T1 -> T2 -> Prop) x y f g :
  orel R x y -> (forall a b, R a b -> orel Q (f a) (g b)) -> orel Q (bind x f) (bind y g).
Proof. destruct x, y; cbn; try tauto. intros H F. apply F, H. Qed.

Section ShellRel.
Context {S1 S2 : Type} (R : S1 -> S2 -> Prop).
Context (t1 : S1 -> Z -> Z -> outcome bool) (w1 : S1 -> Z -> Z -> outcome S1).
Context (t2 : S2 -> Z -> Z -> outcome bool) (w2 : S2 -> Z -> Z -> outcome S2).
Context (Ht : forall a b j k, R a b -> t1 a j k = t2 b j k) (Hw : forall a b j k, R a b -> orel R (w1 a j k) (w2 b j k)).
Lemma sift_rel fuel g : forall j a b, R a b -> orel R (sift t1 w1 fuel g j a) (sift t2 w2 fuel g j b).
Proof.
  induction fuel as [|fuel IH]; intros j a b H; [exact I|]. cbn [sift]. destruct (j <? 0)%Z; [exact H|].
  rewrite (Ht a b j (j + g)%Z H). destruct (t2 b j (j + g)%Z) as [c| | |]; cbn [bind]; try exact I. destruct c; [|exact H].
  eapply orel_bind; [apply Hw, H|]. intros; apply IH; assumption.
Qed.
Lemma pass_rel fuel g n : forall i a b, R a b -> orel R (pass t1 w1 fuel g n i a) (pass t2 w2 fuel g n i b).
Proof.
  induction fuel as [|fuel IH]; intros i a b H; [exact I|]. cbn [pass]. destruct (i <=? n - 1)%Z; [|exact H].
  eapply orel_bind; [apply sift_rel, H|]. intros; apply IH; assumption.
Qed.
Lemma gaps_rel fuel n : forall g a b, R a b -> orel R (gaps t1 w1 fuel g n a) (gaps t2 w2 fuel g n b).
Proof.
  induction fuel as [|fuel IH]; intros g a b H; [exact I|]. cbn [gaps]. destruct (g =? 0)%Z; [exact H|].
  eapply orel_bind; [apply pass_rel, H|]. intros; apply IH; assumption.
Qed.
End ShellRel.

Section Rel2.
Context {B C : Type} (Q : B -> C -> Prop).
Lemma rdZ_rel x y i : Forall2 Q x y -> orel Q (rdZ x i) (rdZ y i).
Proof.
  intros H. unfold rdZ, rd. destruct (i <? 0)%Z; [exact I|]. generalize (Z.to_nat i). induction H as [|u v x y Huv H IH]; intros [|j]; cbn; auto.
Qed.
Lemma upd_rel x y i u v : Forall2 Q x y -> Q u v -> Forall2 Q (upd x i u) (upd y i v).
Proof. intros H Huv. revert i. induction H as [|a b x y Hab H IH]; intros [|j]; cbn; constructor; auto. Qed.
Lemma wrZ_rel x y i u v : Forall2 Q x y -> Q u v -> orel (Forall2 Q) (wrZ x i u) (wrZ y i v).
Proof.
  intros H Huv. unfold wrZ, wr. destruct (i <? 0)%Z; [exact I|]. rewrite (F2_length _ _ _ H).
  destruct (Z.to_nat i <? length y); [apply upd_rel; assumption|exact I].
Qed.
Lemma exchange_rel x y j k : Forall2 Q x y -> orel (Forall2 Q) (exchange x j k) (exchange y j k).
Proof.
  intros H. unfold exchange. eapply orel_bind; [apply rdZ_rel, H|]. intros u u' Hu. eapply orel_bind; [apply rdZ_rel, H|]. intros v v' Hv.
  eapply orel_bind; [apply wrZ_rel; eassumption|]. intros; apply wrZ_rel; assumption.
Qed.
Lemma dswap_rel na j k x y : Forall2 Q x y -> orel (Forall2 Q) (dswap na x j k) (dswap na y j k).
Proof.
  intros H. unfold dswap. induction na as [|na IH]; [exact H|]. rewrite !for_S. eapply orel_bind; [exact IH|].
  intros; apply exchange_rel; assumption.
Qed.
Lemma sort_arrays_rel {A} (wrong : A -> A -> bool) fuel n x1 x y : Forall2 Q x y ->
  orel (fun s s' => fst s = fst s' /\ Forall2 Q (snd s) (snd s')) (sort_arrays wrong true fuel n x1 x) (sort_arrays wrong true fuel n x1 y).
Proof.
  intros H. unfold sort_arrays, shell. apply gaps_rel; [| |split; [reflexivity|exact H]].
  - intros a b j k [E _]. rewrite E. reflexivity.
  - intros a b j k [E F]. rewrite E. destruct (exchange (fst b) j k) as [z| | |]; cbn [bind]; try exact I.
    eapply orel_bind; [apply exchange_rel, F|]. intros; cbn. auto.
Qed.
End Rel2.

(* picks *)
Lemma picks_length {A} p (l l' : list A) : picks p l l' -> length p = length l'.
Proof. apply F2_length. Qed.
Lemma picks_app {A} p q (l a b : list A) : picks p l a -> picks q l b -> picks (p ++ q) l (a ++ b).
Proof. apply Forall2_app. Qed.
Lemma picks_firstn {A} n p (l l' : list A) : picks p l l' -> picks (firstn n p) l (firstn n l').
Proof. intros H. revert n. induction H; intros [|n]; cbn; constructor; auto; apply IHForall2. Qed.
Lemma picks_skipn {A} n p (l l' : list A) : picks p l l' -> picks (skipn n p) l (skipn n l').
Proof. intros H. revert n. induction H; intros [|n]; cbn; try constructor; auto; apply IHForall2. Qed.
Lemma picks_nth {A} p (l l' : list A) k i x : picks p l l' -> nth_error p k = Some i -> nth_error l' k = Some x -> nth_error l i = Some x.
Proof. intros H. revert k. induction H; intros [|k] H1 H2; cbn in *; try discriminate; [congruence|eauto]. Qed.
Lemma picks_seq {A} (l : list A) : picks (seq 0 (length l)) l l.
Proof.
  assert (G : forall (r : list A) k, (forall i x, nth_error r i = Some x -> nth_error l (k + i) = Some x) -> picks (seq k (length r)) l r).
  { induction r as [|x r IH]; intros k H; cbn; constructor.
    - specialize (H 0 x eq_refl). rewrite Nat.add_0_r in H. exact H.
    - apply IH. intros i y Hi. replace (S k + i) with (k + S i) by lia. apply H. exact Hi. }
  apply (G l 0). auto.
Qed.
(* a choice of a choice *)
Lemma picks_trans {A} q p p' (l l' l'' : list A) : picks p l l' -> picks q p p' -> picks q l' l'' -> picks p' l l''.
Proof.
  intros H H1. revert l''. induction H1 as [|k i q p' Hk H1 IH]; intros l'' H2; inversion H2; subst; constructor; auto.
  - eapply picks_nth; eassumption.
  - apply IH. assumption.
Qed.
Lemma picks_fun {A} p (l a b : list A) : picks p l a -> picks p l b -> a = b.
Proof. intros H. revert b. induction H; intros b Hb; inversion Hb; subst; [reflexivity|]. f_equal; [congruence|auto]. Qed.
Lemma picks_permuted {A} (p : list A) r r' : Permutation r r' -> forall x, picks r p x -> exists y, picks r' p y /\ Permutation x y.
Proof.
  induction 1 as [|i r r' _ IH|i j r|r1 r2 r3 _ IH1 _ IH2]; intros y Hy.
  - inversion Hy; subst. exists []. split; constructor.
  - inversion Hy as [|? u ? y' H1 H2]; subst. destruct (IH _ H2) as (z & P1 & P2). exists (u :: z). split; constructor; auto.
  - inversion Hy as [|? u ? y' H1 H2]; subst. inversion H2 as [|? v ? y'' H3 H4]; subst. exists (v :: u :: y''). split; [repeat constructor; auto|constructor].
  - destruct (IH1 _ Hy) as (z & P1 & P2). destruct (IH2 _ P1) as (z' & P3 & P4). exists z'. split; [exact P3|etransitivity; eassumption].
Qed.
Lemma picks_perm {A} q (p p' : list A) : Permutation q (seq 0 (length p)) -> picks q p p' -> Permutation p' p.
Proof.
  intros H1 H2. destruct (picks_permuted p _ _ H1 _ H2) as (y & Py & Pe). rewrite Pe.
  rewrite (picks_fun _ _ _ _ Py (picks_seq p)). reflexivity.
Qed.
Lemma picks_exists {A} p (l : list A) : (forall i, In i p -> i < length l) -> exists l', picks p l l'.
Proof.
  induction p as [|i p IH]; intros H; [exists []; constructor|].
  destruct (nth_error_lt l i) as [x Hx]; [apply H; left; reflexivity|]. destruct IH as [l' Hl]; [intros; apply H; right; assumption|].
  exists (x :: l'). constructor; assumption.
Qed.
Lemma picks_below {A} p (l l' : list A) i : picks p l l' -> In i p -> i < length l.
Proof. intros H. induction H; intros Hi; [destruct Hi|]. destruct Hi as [->|Hi]; [apply nth_error_Some; congruence|auto]. Qed.
Lemma picks_in {A} p (l l' : list A) x : picks p l l' -> In x l' -> exists i, In i p /\ nth_error l i = Some x.
Proof. intros H. induction H; intros Hi; [destruct Hi|]. destruct Hi as [->|Hi]; [eexists; split; [left; reflexivity|assumption]|]. destruct (IHForall2 Hi) as (k & K1 & K2). exists k. split; [right|]; assumption. Qed.
Lemma picks_in_l {A} p (l l' : list A) i : picks p l l' -> In i p -> exists x, In x l' /\ nth_error l i = Some x.
Proof. intros H. induction H; intros Hi; [destruct Hi|]. destruct Hi as [->|Hi]; [eexists; split; [left; reflexivity|assumption]|]. destruct (IHForall2 Hi) as (k & K1 & K2). exists k. split; [right|]; assumption. Qed.

Section Index.
Context {A : Type} (wrong : A -> A -> bool).
(* the places to which sorting leads, the same for all companions *)
Lemma sort_places fuel n (x1 : list A) : n <= length x1 -> 3 * n + 2 < fuel ->
  exists p, Permutation p (seq 0 n) /\ exists y1, picks p x1 y1 /\
    forall B (x2 : list B), length x2 = length x1 ->
      exists y2, picks p x2 y2 /\ sort_arrays wrong true fuel (Z.of_nat n) x1 x2 = Ok (y1 ++ skipn n x1, y2 ++ skipn n x2).
Proof.
  intros Hn Hf. set (m := length x1) in *.
  destruct (sort_arrays_rearranges wrong n fuel x1 (seq 0 m) Hn ltac:(rewrite seq_length; exact Hn) Hf) as (z1 & z2 & E & Rr).
  pose proof (rearranged_keys n x1 (seq 0 m) z1 z2 Hn ltac:(rewrite seq_length; exact Hn) Rr) as [_ P2].
  destruct Rr as (P & L1 & L2 & K1 & K2). rewrite seq_length in L2.
  assert (F : firstn n (seq 0 m) = seq 0 n).
  { replace m with (n + (m - n)) by lia. rewrite seq_app. apply firstn_prefix, seq_length. }
  rewrite F in P2, P. set (p := firstn n z2) in *.
  exists p. split; [symmetry; exact P2|].
  assert (Lp : length p = n) by (unfold p; rewrite firstn_length; lia).
  assert (Lz : length (firstn n z1) = n) by (rewrite firstn_length; fold m in L1; lia).
  exists (firstn n z1). split.
  - (* each pair is one of those at the start *)
    assert (G : forall k i x, nth_error p k = Some i -> nth_error (firstn n z1) k = Some x -> nth_error x1 i = Some x).
    { intros k i x Hi Hx. assert (I : In (x, i) (combine (firstn n z1) p)).
      { apply (nth_error_In _ k). revert Hi Hx. generalize (firstn n z1) p. clear. induction k as [|k IH]; intros [|u a] [|v b] H1 H2; cbn in *; try discriminate; [congruence|auto]. }
      apply (Permutation_in _ (Permutation_sym P)) in I. apply (In_nth_error) in I. destruct I as [q Hq].
      assert (Q : nth_error (firstn n x1) q = Some x /\ nth_error (seq 0 n) q = Some i).
      { revert Hq. generalize (firstn n x1) (seq 0 n). clear. induction q as [|q IH]; intros [|u a] [|v b] H; cbn in *; try discriminate; [split; congruence|auto]. }
      destruct Q as [Q1 Q2]. assert (Hqn : q < n) by (rewrite <- (seq_length n 0); apply nth_error_Some; congruence).
      rewrite nth_error_seq0 in Q2 by exact Hqn. injection Q2 as <-. rewrite nth_error_firstn in Q1.
      replace (q <? n) with true in Q1 by lia. exact Q1. }
    clear -G Lp Lz. revert G. assert (L : length p = length (firstn n z1)) by lia. clear Lp Lz. revert L.
    generalize (firstn n z1). generalize p. clear. intros p. induction p as [|i p IH]; intros [|x l] L G; cbn in L; try discriminate; constructor.
    + apply (G 0); reflexivity.
    + apply IH; [lia|]. intros k. apply (G (S k)).
  - intros B x2 L.
    pose proof (sort_arrays_rel (fun i x => nth_error x2 i = Some x) wrong fuel (Z.of_nat n) x1 (seq 0 m) x2) as Q.
    assert (Q0 : Forall2 (fun i x => nth_error x2 i = Some x) (seq 0 m) x2) by (rewrite <- L; apply picks_seq).
    specialize (Q Q0). rewrite E in Q. cbn in Q.
    destruct (sort_arrays_rearranges wrong n fuel x1 x2 Hn ltac:(rewrite L; exact Hn) Hf) as (y1 & y2 & E2 & _ & _ & L2' & _ & K2').
    rewrite E2 in Q. cbn [fst snd] in Q. destruct Q as [<- Q].
    exists (firstn n y2). split; [apply picks_firstn; exact Q|]. rewrite E2. rewrite <- K1, <- K2', !firstn_skipn. reflexivity.
Qed.
Context (f : A -> R) (good : A -> Prop) (W : forall x y, good x -> good y -> wrong x y = Flocq.Core.Raux.Rlt_bool (f y) (f x)).
Lemma sort_places_order fuel n (x1 : list A) : n <= length x1 -> 3 * n + 2 < fuel -> Forall good (firstn n x1) ->
  exists p, Permutation p (seq 0 n) /\ exists y1, picks p x1 y1 /\ increasing f n y1 /\
    forall B (x2 : list B), length x2 = length x1 ->
      exists y2, picks p x2 y2 /\ sort_arrays wrong true fuel (Z.of_nat n) x1 x2 = Ok (y1 ++ skipn n x1, y2 ++ skipn n x2).
Proof.
  intros Hn Hf G. destruct (sort_places fuel n x1 Hn Hf) as (p & Pp & y1 & P1 & H).
  exists p. split; [exact Pp|]. exists y1. split; [exact P1|]. split; [|exact H].
  destruct (H _ x1 eq_refl) as (y2 & _ & E).
  destruct (sort_arrays_orders wrong n good (w_asym _ _ _ W) (w_trans _ _ _ W) fuel x1 x1 Hn Hn Hf G) as (z1 & z2 & E2 & Rr & O).
  rewrite E in E2. injection E2 as <- <-.
  assert (Ly : length y1 = n) by (rewrite <- (picks_length _ _ _ P1), (Permutation_length Pp), seq_length; reflexivity).
  assert (I : increasing f n (y1 ++ skipn n x1)).
  { apply (w_increasing f good wrong W); [|exact O]. apply (good_firstn good (firstn n x1)); [|exact G].
    apply (rearranged_keys n x1 x1 _ _ Hn Hn Rr). }
  intros i j x y Hij Hx Hy. apply (I i j x y Hij); rewrite nth_error_app1 by lia; assumption.
Qed.
End Index.

(* the exchange of two blocks *)
Lemma dswap_blocks {B} (a b c d e : list B) : length b = length d ->
  dswap (length b) (a ++ b ++ c ++ d ++ e) (Z.of_nat (length a)) (Z.of_nat (length a + length b + length c)) = Ok (a ++ d ++ c ++ b ++ e).
Proof.
  intros H. destruct (dswap_nth (length b) (a ++ b ++ c ++ d ++ e) (length a) (length a + length b + length c)) as (l & E & L & N);
    [lia|rewrite !app_length; lia|]. rewrite E. f_equal. apply list_eq_nth. intros i. rewrite N. unfold moved.
  rewrite !app_length in L.
  destruct (Nat.lt_ge_cases i (length a)) as [H1|H1].
  { replace (length a + length b + length c <=? i) with false by lia. replace (length a <=? i) with false by lia. cbn [andb].
    rewrite !nth_error_app1 by exact H1. reflexivity. }
  rewrite (nth_error_app2 a (d ++ c ++ b ++ e)) by exact H1.
  destruct (Nat.lt_ge_cases i (length a + length b)) as [H2|H2].
  { replace (length a + length b + length c <=? i) with false by lia. replace (length a <=? i) with true by lia.
    replace (i <? length a + length b) with true by lia. cbn [andb].
    rewrite (nth_error_app1 d) by lia. rewrite !nth_error_app2 by lia. rewrite nth_error_app1 by lia. f_equal. lia. }
  rewrite (nth_error_app2 d) by lia.
  destruct (Nat.lt_ge_cases i (length a + length b + length c)) as [H3|H3].
  { replace (length a + length b + length c <=? i) with false by lia. replace (i <? length a + length b) with false by lia. rewrite !Bool.andb_false_r. cbn [andb].
    rewrite !nth_error_app2 by lia. rewrite !nth_error_app1 by lia. f_equal. lia. }
  rewrite (nth_error_app2 c) by lia. replace (length a + length b + length c <=? i) with true by lia.
  destruct (Nat.lt_ge_cases i (length a + length b + length c + length b)) as [H4|H4].
  { replace (i <? length a + length b + length c + length b) with true by lia. cbn [andb].
    rewrite (nth_error_app1 b) by lia. rewrite nth_error_app2 by lia. rewrite nth_error_app1 by lia. f_equal. lia. }
  replace (i <? length a + length b + length c + length b) with false by lia. replace (i <? length a + length b) with false by lia. rewrite !Bool.andb_false_r. cbn [andb].
  rewrite !nth_error_app2 by lia. f_equal. lia.
Qed.

(* Lemmas about printing. *)
From Coq Require Import Ascii String Decimal DecimalString DecimalNat.
From Verif Require Import Base Spec S_Print M_Tensor S_Sparse M_Sparse M_Print L_Lin L_Tensor L_Fold.
Local Open Scope nat_scope.

Lemma list_ascii_inj s t : list_ascii_of_string s = list_ascii_of_string t -> s = t.
Proof. intros H. rewrite <- (string_of_list_ascii_of_string s), H. apply string_of_list_ascii_of_string. Qed.

Lemma app_split {B} (a b c d : list B) : a ++ b = c ++ d -> exists k, (a = c ++ k /\ d = k ++ b) \/ (c = a ++ k /\ b = k ++ d).
Proof.
  revert c. induction a as [|x a IH]; intros c H.
  - exists c. right. auto.
  - destruct c as [|y c].
    + exists (x :: a). left. auto.
    + injection H as -> H. destruct (IH c H) as (k & [[-> ->]|[-> ->]]); exists k; [left|right]; auto.
Qed.

(* a text without c, before the first c *)
Lemma cut_at {B} (c : B) a b r q : ~ In c a -> ~ In c b -> a ++ c :: r = b ++ c :: q -> a = b /\ r = q.
Proof.
  intros Ha Hb H. destruct (app_split _ _ _ _ H) as (k & [[-> E]|[-> E]]); destruct k as [|x k]; cbn in E; injection E; intros; subst.
  - rewrite app_nil_r. auto.
  - exfalso. apply Ha. apply in_or_app. right. left. auto.
  - rewrite app_nil_r. auto.
  - exfalso. apply Hb. apply in_or_app. right. left. auto.
Qed.

Definition tail_ok (c1 c2 : ascii) (r : text) : Prop := r = [] \/ exists q, r = c1 :: c2 :: q.
Definition free_of (c1 c2 : ascii) (t : text) : Prop := t <> [] /\ forall u v, t <> u ++ c1 :: c2 :: v.

Lemma clean_half c1 c2 t t' k r r' : c1 <> c2 -> free_of c1 c2 t -> tail_ok c1 c2 r -> tail_ok c1 c2 r' -> t = t' ++ k -> r' = k ++ r -> k = [].
Proof.
  intros Hc [_ F] Hr Hr' -> E. destruct Hr' as [->|(q & ->)].
  - destruct k; [auto|discriminate].
  - destruct k as [|x k]; auto. exfalso. injection E as <- E. destruct k as [|y k]; cbn in E.
    + destruct Hr as [->|(q' & ->)]; [discriminate|]. injection E. intros. congruence.
    + injection E as <- E. apply (F t' k). reflexivity.
Qed.
Lemma clean_cut c1 c2 t t' r r' : c1 <> c2 -> free_of c1 c2 t -> free_of c1 c2 t' -> tail_ok c1 c2 r -> tail_ok c1 c2 r' ->
  t ++ r = t' ++ r' -> t = t' /\ r = r'.
Proof.
  intros Hc F F' Hr Hr' E. destruct (app_split _ _ _ _ E) as (k & [[Et Er]|[Et Er]]).
  - assert (k = []) by (eapply (clean_half c1 c2); [exact Hc|exact F|exact Hr|exact Hr'|exact Et|exact Er]). subst k. rewrite app_nil_r in Et. auto.
  - assert (k = []) by (eapply (clean_half c1 c2); [exact Hc|exact F'|exact Hr'|exact Hr|exact Et|exact Er]). subst k. rewrite app_nil_r in Et. auto.
Qed.

Definition rest (sep : text) (ls : list text) : text := match ls with [] => [] | _ => sep ++ join sep ls end.
Lemma join_cons sep x ls : join sep (x :: ls) = x ++ rest sep ls.
Proof. destruct ls; cbn; [rewrite app_nil_r|]; reflexivity. Qed.

Lemma join_inj c1 c2 : c1 <> c2 -> forall ls ls', Forall (free_of c1 c2) ls -> Forall (free_of c1 c2) ls' ->
  join [c1; c2] ls = join [c1; c2] ls' -> ls = ls'.
Proof.
  intros Hc. assert (Hrest : forall ls, tail_ok c1 c2 (rest [c1; c2] ls)) by (intros [|]; [left; reflexivity|right; eexists; reflexivity]).
  induction ls as [|x ls IH]; intros [|y ls'] F F' E; auto.
  - exfalso. inversion F' as [|? ? [H _] _]; subst. rewrite join_cons in E. symmetry in E. apply app_eq_nil in E as [E _]. auto.
  - exfalso. inversion F as [|? ? [H _] _]; subst. rewrite join_cons in E. apply app_eq_nil in E as [E _]. auto.
  - inversion F; inversion F'; subst. rewrite !join_cons in E. destruct (clean_cut c1 c2 x y (rest [c1; c2] ls) (rest [c1; c2] ls')) as [-> Er]; auto.
    f_equal. apply IH; auto. destruct ls as [|u ls], ls' as [|u' ls']; cbn [rest] in Er; try discriminate; auto. injection Er. auto.
Qed.

Lemma join_free sep (ls : list text) c : ~ In c sep -> Forall (fun t => ~ In c t) ls -> ~ In c (join sep ls).
Proof.
  intros Hs F. induction F as [|x ls Hx F IH]; [auto|]. rewrite join_cons. intros H. apply in_app_or in H as [H|H]; auto.
  destruct ls; [destruct H|]. cbn [rest] in H. apply in_app_or in H as [H|H]; auto.
Qed.

(* what the loop writes *)
Lemma write_from_false {A} (show : A -> text) l s : write_from show false l s = s ++ rest (lit ", ") (map show l).
Proof.
  revert s. induction l as [|x l IH]; intros s; cbn [write_from map].
  - rewrite app_nil_r. reflexivity.
  - rewrite IH. cbn [rest]. rewrite join_cons, <- !app_assoc. reflexivity.
Qed.
Lemma write_to_stream_ok {A} (show : A -> text) s l : write_to_stream show s l = s ++ join (lit ", ") (map show l).
Proof.
  destruct l as [|x l]; unfold write_to_stream; cbn [write_from map].
  - rewrite app_nil_r. reflexivity.
  - rewrite write_from_false, join_cons, <- app_assoc. reflexivity.
Qed.
Lemma print_vector_ok {A} (show : A -> text) s l : print_vector show s l = s ++ lit "[" ++ join (lit ", ") (map show l) ++ lit "]".
Proof. unfold print_vector. rewrite write_to_stream_ok, <- !app_assoc. reflexivity. Qed.
Lemma print_tensor_ok {A} showi (show : A -> text) s t :
  print_tensor showi show s t = s ++ lit "([" ++ join (lit ", ") (map showi (dims t)) ++ lit "])/[" ++ join (lit ", ") (map show (data t)) ++ lit "]".
Proof. unfold print_tensor. rewrite write_to_stream_ok, print_vector_ok, <- !app_assoc. reflexivity. Qed.

(* decimal digits *)
Definition digit (c : ascii) : Prop := 48 <= nat_of_ascii c <= 57.
Lemma string_of_uint_digits d : Forall digit (lit (NilEmpty.string_of_uint d)).
Proof. induction d; cbn; constructor; auto; unfold digit; cbn; lia. Qed.
Lemma decimal_digits n : Forall digit (decimal n) /\ decimal n <> [].
Proof.
  unfold decimal, NilZero.string_of_uint. destruct (Nat.to_uint n) eqn:E; (split; [try apply (string_of_uint_digits (_ _))|cbn; discriminate]).
  repeat constructor; cbn; lia.
Qed.
Lemma to_uint_nonnil n : Nat.to_uint n <> Nil.
Proof.
  intros E. pose proof (Unsigned.of_to n) as H. rewrite E in H. cbn in H. subst n. cbn in E. discriminate.
Qed.
Lemma decimal_inj m n : decimal m = decimal n -> m = n.
Proof.
  unfold decimal, lit. intros H. apply list_ascii_inj in H. apply (f_equal NilZero.uint_of_string) in H.
  rewrite !NilZero.usu in H by apply to_uint_nonnil. injection H as H. rewrite <- (Unsigned.of_to m), H. apply Unsigned.of_to.
Qed.
Lemma decimal_not_in n c : ~ digit c -> ~ In c (decimal n).
Proof. intros H Hin. destruct (decimal_digits n) as [F _]. rewrite Forall_forall in F. auto. Qed.
Lemma map_inj {B C} (f : B -> C) : (forall x y, f x = f y -> x = y) -> forall l l', map f l = map f l' -> l = l'.
Proof. intros Hf. induction l as [|x l IH]; intros [|y l'] E; cbn in E; try discriminate; auto. injection E as E1 E2. f_equal; auto. Qed.
Lemma decimal_free n : free_of ","%char " "%char (decimal n).
Proof.
  split; [apply decimal_digits|]. intros u v E. apply (decimal_not_in n ","%char); [unfold digit; cbn; lia|]. rewrite E. apply in_or_app. right. left. reflexivity.
Qed.
Lemma clean_free c1 c2 t : clean (String c1 (String c2 "")) t <-> free_of c1 c2 t.
Proof. reflexivity. Qed.

Lemma print_tensor_inj {A} (show : A -> text) s (a b : tensor A) :
  (forall x, In x (data a ++ data b) -> clean ", " (show x)) ->
  print_tensor decimal show s a = print_tensor decimal show s b -> dims a = dims b /\ map show (data a) = map show (data b).
Proof.
  intros Hc. rewrite !print_tensor_ok. intros E. apply app_inv_head in E. cbn [lit list_ascii_of_string List.app] in E. injection E as E.
  assert (Hd : forall l, ~ In "]"%char (join [","%char; " "%char] (map decimal l))).
  { intros l. apply join_free.
    - cbn. intuition discriminate.
    - apply Forall_forall. intros t Ht. apply in_map_iff in Ht as (n & <- & _). apply decimal_not_in. unfold digit. cbn. lia. }
  apply cut_at in E as [E1 E2]; [|apply Hd|apply Hd]. injection E2 as E2. apply app_inv_tail in E2.
  split.
  - apply (map_inj decimal); [exact decimal_inj|]. apply (join_inj ","%char " "%char); auto; try discriminate; apply Forall_forall; intros t Ht; apply in_map_iff in Ht as (n & <- & _); apply decimal_free.
  - apply (join_inj ","%char " "%char); auto; try discriminate; apply Forall_forall; intros t Ht; apply in_map_iff in Ht as (x & <- & Hx); apply clean_free, Hc, in_or_app; auto.
Qed.

(* ---- matrix_form ---- *)
Lemma elt_none {A} (t : tensor A) ix : ~ valid (dims t) ix -> elt t ix = None.
Proof. intros H. destruct (elt t ix) eqn:E; auto. exfalso. apply H. eapply L_Lin.elt_some_valid; eauto. Qed.
Notation newline := [ascii_of_nat 10; " "%char].
Lemma app_rest sep ls x : rest sep (ls ++ [x]) = rest sep ls ++ sep ++ x.
Proof.
  induction ls as [|y ls IH]; cbn [List.app].
  - cbn. reflexivity.
  - destruct ls as [|z ls]; cbn [List.app] in *.
    + cbn [rest join]. rewrite <- !app_assoc. reflexivity.
    + cbn [rest] in *. cbn [join] in *. rewrite <- !app_assoc. f_equal. f_equal. rewrite IH. rewrite <- ?app_assoc. reflexivity.
Qed.
Lemma join_snoc sep ls x : join sep (ls ++ [x]) = match ls with [] => x | _ => join sep ls ++ sep ++ x end.
Proof. destruct ls as [|y ls]; cbn [List.app]; [reflexivity|]. rewrite !join_cons, app_rest, <- app_assoc. reflexivity. Qed.

Section Display.
Context {A : Type} (show : A -> text).
Definition row_text (t : tensor A) (i c : nat) : list text := map (fun j => match elt t [i; j] with Some x => show x | None => [] end) (seq 0 c).

Lemma row_ok t r c i s : wf t -> dims t = [r; c] -> i < r -> forall n, n <= c ->
  for_ n (fun j s => let s := if j =? 0 then s else s ++ lit ", " in x <- get2 t (Z.of_nat i) (Z.of_nat j) ;; Ok (s ++ show x)) s
  = Ok (s ++ join (lit ", ") (row_text t i n)).
Proof.
  intros Wt Dt Hi. induction n as [|n IH]; intros Hn.
  - cbn. rewrite app_nil_r. reflexivity.
  - rewrite for_S, IH by lia. cbn [bind].
    assert (exists x, elt t [i; n] = Some x /\ get2 t (Z.of_nat i) (Z.of_nat n) = Ok x) as (x & Ex & ->).
    { destruct (c05_get t [Z.of_nat i; Z.of_nat n] Wt ltac:(cbn; lia)) as [H _]. destruct (H [i; n]) as (x & Ex & Gx); [|eauto].
      rewrite Dt. repeat constructor; lia. }
    cbn [bind]. f_equal. unfold row_text. rewrite seq_S, map_app. cbn [map plus]. rewrite Ex, join_snoc.
    destruct n as [|n]; cbn [Nat.eqb]; [cbn [map seq join]; rewrite app_nil_r; reflexivity|].
    cbn [seq map]. rewrite <- !app_assoc. reflexivity.
Qed.

Lemma display2_ok s t r c : wf t -> dims t = [r; c] ->
  display show s t = Ok (s ++ match r with 0 => [] | _ => lit "[" end ++ join newline (map (fun i => join (lit ", ") (row_text t i c)) (seq 0 r)) ++ lit "]").
Proof.
  intros Wt Dt. unfold display. rewrite (dimension_ok t [] r [c] 0 Dt eq_refl : dimension t 0 = Ok r), (dimension_ok t [r] c [] 1 Dt eq_refl : dimension t 1 = Ok c).
  rewrite Dt. cbn [List.length Nat.ltb Nat.leb Nat.eqb bind].
  match goal with |- context [for_ r ?b s] => assert (H : forall n, n <= r -> for_ n b s = Ok (s ++ match n with 0 => [] | _ => lit "[" end ++ join newline (map (fun i => join (lit ", ") (row_text t i c)) (seq 0 n)))) end.
  - induction n as [|n IH]; intros Hn; [cbn; rewrite app_nil_r; reflexivity|]. rewrite for_S, IH by lia. cbn [bind].
    etransitivity; [apply (row_ok t r c n _ Wt Dt ltac:(lia) c ltac:(lia))|].
    f_equal. rewrite seq_S, map_app. cbn [map plus]. rewrite join_snoc. destruct n as [|n]; cbn [Nat.eqb seq map].
    + rewrite <- !app_assoc. reflexivity.
    + rewrite <- !app_assoc. reflexivity.
  - rewrite H by lia. cbn [bind]. rewrite <- !app_assoc. reflexivity.
Qed.

Lemma display1_ok s t n : wf t -> dims t = [n] ->
  display show s t = Ok (s ++ match n with 0 => [] | _ => lit "[" end ++ join (lit ", ") (map show (data t)) ++ lit "]").
Proof.
  intros Wt Dt. unfold display. assert (Hl : List.length (data t) = n) by (rewrite Wt, Dt; cbn; lia).
  rewrite Dt. cbn [List.length Nat.ltb Nat.leb Nat.eqb bind]. rewrite Hl.
  match goal with |- context [for_ n ?b s] => assert (H : forall m, m <= n -> for_ m b s = Ok (s ++ match m with 0 => [] | _ => lit "[" end ++ join (lit ", ") (map show (firstn m (data t))))) end.
  - induction m as [|m IH]; intros Hm; [cbn; rewrite app_nil_r; reflexivity|]. rewrite for_S, IH by lia. cbn [bind].
    destruct (nth_error_lt (data t) m ltac:(lia)) as [x Hx]. rewrite (rd_ok _ _ _ Hx). cbn [bind]. f_equal.
    replace (firstn (S m) (data t)) with (firstn m (data t) ++ [x]) by (symmetry; clear - Hx; revert m Hx; induction (data t) as [|y l IH]; intros [|m] Hx; cbn in *; try discriminate; [congruence|f_equal; auto]).
    rewrite map_app. cbn [map]. rewrite join_snoc. destruct m as [|m]; cbn [Nat.eqb].
    + cbn [firstn map]. rewrite <- !app_assoc. reflexivity.
    + destruct (data t) as [|y l]; [cbn in Hl; lia|]. cbn [firstn map]. rewrite <- !app_assoc. reflexivity.
  - rewrite H by lia. cbn [bind]. rewrite firstn_all2 by lia. rewrite <- !app_assoc. reflexivity.
Qed.

Lemma map_seq_inj {B} (f g : nat -> B) r r' : map f (seq 0 r) = map g (seq 0 r') -> r = r' /\ forall i, i < r -> f i = g i.
Proof.
  intros E. assert (r = r') by (apply (f_equal (@List.length B)) in E; rewrite !map_length, !seq_length in E; exact E). subst r'. split; auto.
  intros i Hi. pose proof (f_equal (fun l => nth_error l i) E) as H. cbn beta in H. rewrite !nth_error_map in H.
  rewrite (nth_error_nth' (seq 0 r) 0) in H by (rewrite seq_length; auto). rewrite seq_nth in H by auto. cbn in H. congruence.
Qed.

Lemma display2_inj s (t u : tensor A) r c r' c' w : wf t -> wf u -> dims t = [r; c] -> dims u = [r'; c'] -> 0 < r -> 0 < c -> 0 < r' -> 0 < c' ->
  (forall x, In x (data t ++ data u) -> clean ", " (show x) /\ ~ In (ascii_of_nat 10) (show x)) ->
  display show s t = Ok w -> display show s u = Ok w -> dims t = dims u /\ forall ix, option_map show (elt t ix) = option_map show (elt u ix).
Proof.
  intros Wt Wu Dt Du Hr Hc Hr' Hc' Hx Et Eu. rewrite (display2_ok s t r c) in Et by auto. rewrite (display2_ok s u r' c') in Eu by auto.
  rewrite <- Eu in Et. injection Et as E. destruct r as [|r]; [lia|]. destruct r' as [|r']; [lia|]. apply app_inv_head in E. apply app_inv_head in E. apply app_inv_tail in E.
  assert (Hrow : forall (v : tensor A) rr cc i, wf v -> dims v = [rr; cc] -> i < rr -> (forall x, In x (data v) -> clean ", " (show x) /\ ~ In (ascii_of_nat 10) (show x)) ->
     Forall (fun z => free_of ","%char " "%char z /\ ~ In (ascii_of_nat 10) z) (row_text v i cc)).
  { intros v rr cc i Wv Dv Hi Hv. apply Forall_forall. intros z Hz. apply in_map_iff in Hz as (j & <- & Hj). apply in_seq in Hj.
    destruct (elt_some v [i; j] Wv) as [x Ex]; [rewrite Dv; discriminate|rewrite Dv; constructor; [lia|constructor; [lia|constructor]]|]. rewrite Ex.
    apply Hv. unfold elt in Ex. destruct (validb _ _); [|discriminate]. eapply nth_error_In; eauto. }
  assert (Hne : forall (v : tensor A) rr cc i, wf v -> dims v = [rr; cc] -> i < rr -> 0 < cc -> (forall x, In x (data v) -> clean ", " (show x) /\ ~ In (ascii_of_nat 10) (show x)) ->
     free_of (ascii_of_nat 10) " "%char (join (lit ", ") (row_text v i cc))).
  { intros v rr cc i Wv Dv Hi Hcc Hv. pose proof (Hrow v rr cc i Wv Dv Hi Hv) as F. split.
    - destruct cc as [|cc]; [lia|]. unfold row_text in *. cbn [seq map] in *. rewrite join_cons. inversion F as [|? ? [[H _] _] _]. intros E0. apply app_eq_nil in E0 as [E0 _]. auto.
    - intros a b E0. assert (Hn : ~ In (ascii_of_nat 10) (join (lit ", ") (row_text v i cc))).
      { apply join_free; [cbn; intuition discriminate|]. eapply Forall_impl; [|exact F]. cbn. tauto. }
      apply Hn. rewrite E0. apply in_or_app. right. left. reflexivity. }
  apply join_inj in E.
  - apply map_seq_inj in E as [Er E]. injection Er as Er. subst r'.
    assert (Erow : forall i, i < S r -> row_text t i c = row_text u i c').
    { intros i Hi. apply (join_inj ","%char " "%char); [discriminate| | |apply E; auto].
      - eapply Forall_impl; [|apply (Hrow t (S r) c i); auto]; [cbn; tauto|]. intros x Hin. apply Hx, in_or_app. auto.
      - eapply Forall_impl; [|apply (Hrow u (S r) c' i); auto]; [cbn; tauto|]. intros x Hin. apply Hx, in_or_app. auto. }
    assert (c = c') by (pose proof (Erow 0 ltac:(lia)) as H0; apply map_seq_inj in H0 as [H0 _]; auto). subst c'.
    split; [congruence|]. intros ix. destruct (list_eq_dec Nat.eq_dec ix [nth 0 ix 0; nth 1 ix 0]) as [->|Hix].
    + set (i := nth 0 ix 0). set (j := nth 1 ix 0). destruct (lt_dec i (S r)) as [Hi|Hi]; [destruct (lt_dec j c) as [Hj|Hj]|].
      * pose proof (Erow i Hi) as H0. apply map_seq_inj in H0 as [_ H0]. specialize (H0 j Hj). cbn beta in H0.
        destruct (elt_some t [i; j] Wt) as [x Ex]; [rewrite Dt; discriminate|rewrite Dt; constructor; [lia|constructor; [lia|constructor]]|].
        destruct (elt_some u [i; j] Wu) as [y Ey]; [rewrite Du; discriminate|rewrite Du; constructor; [lia|constructor; [lia|constructor]]|].
        rewrite Ex, Ey in *. cbn. congruence.
      * rewrite !elt_none; auto; rewrite ?Dt, ?Du; intros Hv; inversion Hv as [|? ? ? ? ? Hv']; subst; inversion Hv'; subst; lia.
      * rewrite !elt_none; auto; rewrite ?Dt, ?Du; intros Hv; inversion Hv; subst; lia.
    + rewrite !elt_none; auto; rewrite ?Dt, ?Du; intros Hv; apply Hix; inversion Hv as [|? ? ? ? ? Hv']; subst; inversion Hv' as [|? ? ? ? ? Hv'']; subst; inversion Hv''; subst; reflexivity.
  - discriminate.
  - apply Forall_forall. intros z Hz. apply in_map_iff in Hz as (i & <- & Hi). apply in_seq in Hi. apply (Hne t (S r) c i); auto; [lia|]. intros x Hin. apply Hx, in_or_app. auto.
  - apply Forall_forall. intros z Hz. apply in_map_iff in Hz as (i & <- & Hi). apply in_seq in Hi. apply (Hne u (S r') c' i); auto; [lia|]. intros x Hin. apply Hx, in_or_app. auto.
Qed.
End Display.

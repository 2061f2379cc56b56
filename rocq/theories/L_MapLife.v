From Coq Require Import Permutation Lia.
From Verif Require Import Base M_RefCount S_RefCount L_RefCount M_MapLife S_MapLife.

(* ---- erasing ---- *)
Definition erase {X} (hs : list nat) (l : list (option X)) : list (option X) := fold_right (fun h l => upd l h None) l hs.
Lemma erase_length {X} hs (l : list (option X)) : length (erase hs l) = length l.
Proof. induction hs as [|h hs IH]; cbn; [reflexivity|]. rewrite length_upd. exact IH. Qed.
Lemma upd_nth {X} (l : list X) i x j : nth_error (upd l i x) j = if Nat.eq_dec i j then (if j <? length l then Some x else None) else nth_error l j.
Proof.
  revert i j. induction l as [|y l IH]; intros [|i] [|j]; cbn [upd nth_error].
  - reflexivity.
  - destruct (Nat.eq_dec 0 (S j)); [lia|reflexivity].
  - destruct (Nat.eq_dec (S i) 0); [lia|reflexivity].
  - destruct (Nat.eq_dec (S i) (S j)); reflexivity.
  - reflexivity.
  - destruct (Nat.eq_dec 0 (S j)); [lia|reflexivity].
  - destruct (Nat.eq_dec (S i) 0); [lia|reflexivity].
  - rewrite IH. destruct (Nat.eq_dec i j), (Nat.eq_dec (S i) (S j)); try lia; reflexivity.
Qed.
Lemma erase_nth {X} hs (l : list (option X)) j :
  nth_error (erase hs l) j = if in_dec Nat.eq_dec j hs then (if j <? length l then Some None else None) else nth_error l j.
Proof.
  induction hs as [|h hs IH]; cbn [erase fold_right]; [reflexivity|]. change (fold_right (fun h l => upd l h None) l hs) with (erase hs l).
  rewrite upd_nth, erase_length, IH. destruct (Nat.eq_dec h j) as [->|N], (in_dec Nat.eq_dec j hs) as [I|I], (in_dec Nat.eq_dec j (_ :: hs)) as [I'|I']; try reflexivity;
    exfalso; cbn in I'; tauto.
Qed.
Lemma list_ext {X} (l m : list X) : (forall i, nth_error l i = nth_error m i) -> l = m.
Proof.
  revert m. induction l as [|x l IH]; intros [|y m] H; [reflexivity|specialize (H 0); discriminate|specialize (H 0); discriminate|].
  f_equal; [specialize (H 0); cbn in H; congruence|]. apply IH. intros i. exact (H (S i)).
Qed.
Lemma nth_repeat {X} (x : X) k i : nth_error (repeat x k) i = if i <? k then Some x else None.
Proof. revert i. induction k as [|k IH]; intros [|i]; cbn; try reflexivity. rewrite IH. reflexivity. Qed.
Lemma erase_mid {X} (l m r : list (option X)) : erase (seq (length l) (length m)) (l ++ m ++ r) = l ++ repeat None (length m) ++ r.
Proof.
  apply list_ext. intros i. rewrite erase_nth. rewrite !app_length.
  destruct (in_dec Nat.eq_dec i _) as [I|I]; rewrite in_seq in I.
  - destruct (Nat.ltb_spec i (length l + (length m + length r))); [|lia]. rewrite nth_error_app2 by lia. rewrite nth_error_app1 by (rewrite repeat_length; lia).
    rewrite nth_repeat. destruct (Nat.ltb_spec (i - length l) (length m)); [reflexivity|lia].
  - destruct (Nat.lt_ge_cases i (length l)) as [C|C]; [rewrite !nth_error_app1 by lia; reflexivity|]. rewrite !(nth_error_app2 l) by lia.
    rewrite !nth_error_app2 by (rewrite ?repeat_length; lia). rewrite repeat_length. reflexivity.
Qed.
Lemma erase_end {X} (l m : list (option X)) : erase (seq (length l) (length m)) (l ++ m) = l ++ repeat None (length m).
Proof. pose proof (erase_mid l m []) as E. rewrite !app_nil_r in E. exact E. Qed.

(* ---- lists of lists ---- *)
Lemma concat_upd {X} (f : X -> list nat) (l : list X) i x y : nth_error l i = Some x -> f y = [] ->
  Permutation (concat (map f l)) (f x ++ concat (map f (upd l i y))).
Proof.
  revert i. induction l as [|z l IH]; intros [|i] E Fy; try discriminate.
  - cbn in *. injection E as ->. rewrite Fy. reflexivity.
  - cbn [nth_error upd map concat] in *. rewrite (IH i E Fy). rewrite !app_assoc. apply Permutation_app_tail. apply Permutation_app_comm.
Qed.
Lemma NoDup_parts {X} (l m : list X) : NoDup (l ++ m) -> NoDup l /\ NoDup m /\ forall x, In x l -> ~ In x m.
Proof.
  induction l as [|x l IH]; cbn; intros H; [split; [constructor|split; [exact H|tauto]]|]. inversion H as [|? ? N D]; subst. destruct (IH D) as (A & B & C).
  rewrite in_app_iff in N. split; [constructor; tauto|]. split; [exact B|]. intros y [->|Hy]; [tauto|apply C, Hy].
Qed.
Lemma NoDup_join {X} (l m : list X) : NoDup l -> NoDup m -> (forall x, In x l -> ~ In x m) -> NoDup (l ++ m).
Proof.
  induction l as [|x l IH]; cbn; intros A B C; [exact B|]. inversion A as [|? ? N D]; subst. constructor.
  - rewrite in_app_iff. intros [H|H]; [tauto|]. exact (C x (or_introl eq_refl) H).
  - apply IH; auto.
Qed.

Section Life.
Context {A : Type}.
Implicit Types (s : state A) (w : world A).

Lemma vars_seen s : length (vars s) = length (seen s).
Proof. unfold seen. rewrite map_length. reflexivity. Qed.
Lemma alive_lt s h : alive s h -> h < length (seen s).
Proof. intros (b & E). apply nth_error_Some. rewrite E. discriminate. Qed.

Lemma copies_ok hs : forall s, Inv s -> Forall (alive s) hs ->
  exists s', copies s hs = Ok (s', seq (length (seen s)) (length hs)) /\ Inv s' /\ ext s' = ext s /\ seen s' = seen s ++ map (fun h => nth h (seen s) None) hs.
Proof.
  induction hs as [|h hs IH]; intros s I H.
  - exists s. cbn. rewrite app_nil_r. auto.
  - inversion H as [|? ? Hh Hr]; subst. cbn [copies].
    destruct (step_ok s (OCopy h) I Hh) as (s1 & x & E1 & I1 & (b & Eb & S1 & X1 & _)). rewrite E1. cbn [bind].
    destruct (IH s1 I1) as (s2 & E2 & I2 & X2 & S2).
    { rewrite Forall_forall in Hr |- *. intros g Hg. destruct (Hr g Hg) as (c & Ec). exists c. rewrite S1, nth_error_app1; [exact Ec|]. apply nth_error_Some. rewrite Ec. discriminate. }
    rewrite E2. cbn [bind fst snd]. exists s2. split; [|split; [exact I2|split; [congruence|]]].
    + rewrite vars_seen, S1, app_length. cbn [length seq]. rewrite Nat.add_1_r. reflexivity.
    + rewrite S2, S1, <- app_assoc. f_equal. cbn [app map]. f_equal.
      * symmetry. apply (nth_error_nth _ _ None) in Eb. exact Eb.
      * apply map_ext_in. intros g Hg. rewrite Forall_forall in Hr. pose proof (alive_lt _ _ (Hr g Hg)). rewrite app_nth1 by lia. reflexivity.
Qed.

Lemma destroys_ok hs : forall s, Inv s -> NoDup hs -> Forall (alive s) hs ->
  exists s', destroys s hs = Ok s' /\ Inv s' /\ ext s' = ext s /\ seen s' = erase hs (seen s).
Proof.
  induction hs as [|h hs IH]; intros s I N H.
  - exists s. cbn. auto.
  - inversion H as [|? ? Hh Hr]; subst. inversion N as [|? ? Nh Nr]; subst. cbn [destroys].
    destruct (IH s I Nr Hr) as (s1 & E1 & I1 & X1 & S1). rewrite E1. cbn [bind].
    assert (Ha : alive s1 h). { destruct Hh as (b & Eb). exists b. rewrite S1, erase_nth. destruct (in_dec Nat.eq_dec h hs); [contradiction|exact Eb]. }
    destruct (step_ok s1 (ODestroy h) I1 Ha) as (s2 & x & E2 & I2 & (S2 & X2 & _)). rewrite E2. cbn [bind]. exists s2. split; [reflexivity|]. split; [exact I2|].
    split; [congruence|]. rewrite S2, S1. reflexivity.
Qed.

Lemma read_all_ok s h : Inv s -> alive s h -> exists l, read_all s h = Ok l /\ holds s h l.
Proof.
  intros I (b & Eb). destruct (seen_inv _ _ _ Eb) as (a & p & Ev & Ep & Ebp). destruct (Inv_var _ _ _ I Ev) as (p' & Ep' & _ & B). assert (p' = p) by congruence. subst p'.
  destruct (buf_contents _ _ B) as (l & El). exists l. unfold read_all. rewrite (var_ok _ _ _ Ev). cbn [bind]. rewrite (get_ok _ _ _ Ep). cbn [bind]. split; [exact El|].
  exists b. split; [exact Eb|]. congruence.
Qed.
Lemma reads_all s vs : Inv s -> Forall (alive s) vs -> exists x, mapM (read_all s) vs = Ok x /\ Forall2 (holds s) vs x.
Proof.
  intros I H. induction H as [|h vs Hh _ IH]; [exists []; split; [reflexivity|constructor]|]. destruct (read_all_ok s h I Hh) as (l & El & Hl). destruct IH as (x & Ex & Hx).
  exists (l :: x). cbn [mapM]. rewrite El. cbn [bind]. rewrite Ex. cbn [bind]. split; [reflexivity|constructor; assumption].
Qed.

Definition Good w : Prop := Inv (mem w) /\ NoDup (owned w) /\ forall h, In h (owned w) -> alive (mem w) h.

Lemma good_start bufs : Good (start bufs).
Proof. split; [apply Inv_init|]. split; [constructor|]. intros h []. Qed.

Lemma fun_alive w f vs : Good w -> nth_error (funs w) f = Some (Some vs) -> Forall (alive (mem w)) vs /\ NoDup vs.
Proof.
  intros (_ & N & H) E. pose proof (concat_upd inside (funs w) f (Some vs) None E eq_refl) as P. cbn [inside] in P. split.
  - rewrite Forall_forall. intros h Hh. apply H. unfold owned. rewrite in_app_iff. left. rewrite P, in_app_iff. tauto.
  - unfold owned in N. apply NoDup_parts in N. destruct N as (N & _). apply (Permutation_NoDup P) in N. apply NoDup_parts in N. apply N.
Qed.
Lemma map_alive w m vs k : Good w -> nth_error (maps w) m = Some (Some (MMatrix vs, k)) -> Forall (alive (mem w)) vs /\ NoDup vs.
Proof.
  intros (_ & N & H) E. pose proof (concat_upd within (maps w) m (Some (MMatrix vs, k)) None E eq_refl) as P. cbn [within] in P. split.
  - rewrite Forall_forall. intros h Hh. apply H. unfold owned. rewrite in_app_iff. right. rewrite P, in_app_iff. tauto.
  - unfold owned in N. apply NoDup_parts in N. destruct N as (_ & N & _). apply (Permutation_NoDup P) in N. apply NoDup_parts in N. apply N.
Qed.

(* owned vectors after something is added or removed *)
Lemma good_more w s' F M vs : Good w -> Inv s' -> (forall h, h < length (seen (mem w)) -> nth_error (seen s') h = nth_error (seen (mem w)) h) ->
  Permutation (owned (mkW s' F M)) (owned w ++ vs) -> NoDup vs -> (forall h, In h vs -> length (seen (mem w)) <= h /\ alive s' h) -> Good (mkW s' F M).
Proof.
  intros (_ & N & H) I K P Nv Hv. split; [exact I|]. split.
  - apply (Permutation_NoDup (Permutation_sym P)). apply NoDup_join; [exact N|exact Nv|]. intros h Hh Hx. apply Hv in Hx. apply H in Hh. apply alive_lt in Hh. lia.
  - intros h Hh. rewrite P, in_app_iff in Hh. destruct Hh as [Hh|Hh]; [|apply Hv, Hh]. apply H in Hh. pose proof (alive_lt _ _ Hh). destruct Hh as (b & Eb). exists b.
    cbn [mem]. rewrite K by assumption. exact Eb.
Qed.
Lemma good_less w s' F M vs : Good w -> Inv s' -> seen s' = erase vs (seen (mem w)) -> Permutation (owned w) (vs ++ owned (mkW s' F M)) -> Good (mkW s' F M).
Proof.
  intros (_ & N & H) I S P. pose proof (Permutation_NoDup P N) as N'. apply NoDup_parts in N'. destruct N' as (_ & N' & D). split; [exact I|]. split; [exact N'|].
  intros h Hh. destruct (H h) as (b & Eb); [rewrite P, in_app_iff; tauto|]. exists b. cbn [mem]. rewrite S, erase_nth. destruct (in_dec Nat.eq_dec h vs); [|exact Eb]. exfalso. eapply D; eassumption.
Qed.
Lemma good_same w s' : Good w -> Inv s' -> (forall h, In h (owned w) -> alive s' h) -> Good (mkW s' (funs w) (maps w)).
Proof. intros (_ & N & _) I H. split; [exact I|]. split; [exact N|exact H]. Qed.

(* ---- the operators ---- *)
Definition made w (src : source) : operator := match src with FromMatrix hs => MMatrix (seq (length (seen (mem w))) (length hs)) | FromFunction f => MFunction f end.
Definition added w (src : source) : list (option (buffer A)) := match src with FromMatrix hs => map (fun h => nth h (seen (mem w)) None) hs | FromFunction _ => [] end.
Lemma new_map_ok w src k : Good w -> usable w src ->
  exists s', new_map w src k = Ok (mkW s' (funs w) (maps w ++ [Some (made w src, k)]), length (maps w)) /\
    Good (mkW s' (funs w) (maps w ++ [Some (made w src, k)])) /\ ext s' = ext (mem w) /\ seen s' = seen (mem w) ++ added w src.
Proof.
  intros G U. destruct src as [hs|f]; cbn [new_map made added usable] in *.
  - destruct (copies_ok hs (mem w) (proj1 G) U) as (s' & E & I & X & S). rewrite E. cbn [bind fst snd]. exists s'. split; [reflexivity|]. split; [|auto].
    apply (good_more w s' _ _ (seq (length (seen (mem w))) (length hs)) G I).
    + intros h Hh. rewrite S, nth_error_app1 by exact Hh. reflexivity.
    + unfold owned. cbn [funs maps]. rewrite map_app, concat_app. cbn [map concat within]. rewrite app_nil_r, app_assoc. reflexivity.
    + apply seq_NoDup.
    + intros h Hh. rewrite in_seq in Hh. split; [lia|]. assert (Hk : h - length (seen (mem w)) < length hs) by lia.
      destruct (nth_error hs (h - length (seen (mem w)))) as [g|] eqn:Eg; [|apply nth_error_None in Eg; lia].
      rewrite Forall_forall in U. destruct (U g (nth_error_In _ _ Eg)) as (b & Eb). exists b. rewrite S, nth_error_app2 by lia. rewrite nth_error_map, Eg. cbn. f_equal.
      apply (nth_error_nth _ _ None) in Eb. exact Eb.
  - exists (mem w). split; [reflexivity|]. rewrite app_nil_r. split; [|auto]. apply (good_more w (mem w) _ _ [] G (proj1 G)).
    + auto.
    + unfold owned. cbn [funs maps]. rewrite map_app, concat_app. cbn [map concat within]. rewrite !app_nil_r. reflexivity.
    + constructor.
    + intros h [].
Qed.
Lemma delete_map_ok w m p k : Good w -> nth_error (maps w) m = Some (Some (p, k)) ->
  exists s', delete_map w m = Ok (mkW s' (funs w) (upd (maps w) m None)) /\ Good (mkW s' (funs w) (upd (maps w) m None)) /\ ext s' = ext (mem w) /\
    seen s' = erase (within (Some (p, k))) (seen (mem w)).
Proof.
  intros G E. unfold delete_map. rewrite E. pose proof (concat_upd within (maps w) m _ None E eq_refl) as P. destruct p as [vs|f]; cbn [within] in *.
  - destruct (map_alive w m vs k G E) as (H & N). destruct (destroys_ok vs (mem w) (proj1 G) N H) as (s' & Es & I & X & S). rewrite Es. cbn [bind]. exists s'. split; [reflexivity|]. split; [|auto].
    apply (good_less w s' _ _ vs G I S). unfold owned. cbn [funs maps]. rewrite P. rewrite !app_assoc. apply Permutation_app_tail. apply Permutation_app_comm.
  - exists (mem w). split; [reflexivity|]. split; [|auto]. apply (good_less w (mem w) _ _ [] G (proj1 G)); [reflexivity|]. unfold owned. cbn [funs maps app] in *. rewrite P. reflexivity.
Qed.
Lemma apply_ok w m p k : Good w -> nth_error (maps w) m = Some (Some (p, k)) -> match p with MMatrix _ => True | MFunction f => exists_fun w f end ->
  exists x, apply w m = Ok x /\ match p with MMatrix vs => Forall2 (holds (mem w)) vs x | MFunction f => forall vs, nth_error (funs w) f = Some (Some vs) -> Forall2 (holds (mem w)) vs x end.
Proof.
  intros G E H. unfold apply. rewrite E. destruct p as [vs|f].
  - destruct (map_alive w m vs k G E) as (L & _). exact (reads_all _ _ (proj1 G) L).
  - destruct H as (vs & Ef). rewrite Ef. destruct (fun_alive w f vs G Ef) as (L & _). destruct (reads_all _ _ (proj1 G) L) as (x & Ex & Hx). exists x. split; [exact Ex|].
    intros us Eu. assert (us = vs) by congruence. subst us. exact Hx.
Qed.
Lemma drop_fun_ok w f vs : Good w -> nth_error (funs w) f = Some (Some vs) ->
  exists s', drop_fun w f = Ok (mkW s' (upd (funs w) f None) (maps w)) /\ Good (mkW s' (upd (funs w) f None) (maps w)) /\ ext s' = ext (mem w) /\ seen s' = erase vs (seen (mem w)).
Proof.
  intros G E. unfold drop_fun. rewrite E. pose proof (concat_upd inside (funs w) f _ None E eq_refl) as P. cbn [inside] in P. destruct (fun_alive w f vs G E) as (H & N).
  destruct (destroys_ok vs (mem w) (proj1 G) N H) as (s' & Es & I & X & S). rewrite Es. cbn [bind]. exists s'. split; [reflexivity|]. split; [|auto].
  apply (good_less w s' _ _ vs G I S). unfold owned. cbn [funs maps]. rewrite P, <- app_assoc. reflexivity.
Qed.
Lemma with_args_ok w hs : Good w -> Forall (alive (mem w)) hs ->
  let n := length (seen (mem w)) in let k := length hs in
  exists s', with_args w hs = Ok (mkW s' (funs w ++ [Some (seq (n + k) k)]) (maps w), length (funs w)) /\ Good (mkW s' (funs w ++ [Some (seq (n + k) k)]) (maps w)) /\
    ext s' = ext (mem w) /\ seen s' = seen (mem w) ++ repeat None k ++ map (fun h => nth h (seen (mem w)) None) hs.
Proof.
  intros G U n k. unfold with_args. destruct (copies_ok hs (mem w) (proj1 G) U) as (s1 & E1 & I1 & X1 & S1). rewrite E1. cbn [bind fst snd]. fold n k. fold n k in E1.
  set (c := map (fun h => nth h (seen (mem w)) None) hs) in *.
  assert (Lc : length c = k) by apply map_length.
  assert (Nc : forall i, i < k -> exists b, nth_error c i = Some (Some b)).
  { intros i Hi. destruct (nth_error hs i) as [g|] eqn:Eg; [|apply nth_error_None in Eg; unfold k in Hi; lia]. rewrite Forall_forall in U. destruct (U g (nth_error_In _ _ Eg)) as (b & Eb). exists b.
    unfold c. rewrite nth_error_map, Eg. cbn. f_equal. apply (nth_error_nth _ _ None) in Eb. exact Eb. }
  assert (U1 : Forall (alive s1) (seq n k)).
  { rewrite Forall_forall. intros h Hh. rewrite in_seq in Hh. destruct (Nc (h - n) ltac:(lia)) as (b & Eb). exists b. rewrite S1, nth_error_app2 by (fold n; lia). exact Eb. }
  destruct (copies_ok (seq n k) s1 I1 U1) as (s2 & E2 & I2 & X2 & S2). rewrite E2. cbn [bind fst snd]. rewrite seq_length in *.
  assert (C2 : map (fun h => nth h (seen s1) None) (seq n k) = c).
  { apply list_ext. intros i. rewrite nth_error_map. destruct (Nat.lt_ge_cases i k) as [Hi|Hi].
    - rewrite nth_error_nth' with (d := 0) by (rewrite seq_length; exact Hi). rewrite seq_nth by exact Hi. cbn. rewrite S1, app_nth2 by (fold n; lia). fold n. replace (n + i - n) with i by lia.
      destruct (Nc i Hi) as (b & Eb). rewrite Eb. f_equal. apply (nth_error_nth _ _ None) in Eb. exact Eb.
    - replace (nth_error (seq n k) i) with (@None nat) by (symmetry; apply nth_error_None; rewrite seq_length; exact Hi). symmetry. apply nth_error_None. lia. }
  rewrite C2, S1 in S2. rewrite S1, app_length in E2 |- *. fold n in E2 |- *. rewrite Lc in E2 |- *.
  assert (U2 : Forall (alive s2) (seq n k)).
  { rewrite Forall_forall in U1 |- *. intros h Hh. destruct (U1 h Hh) as (b & Eb). exists b. rewrite S2. rewrite S1 in Eb. rewrite nth_error_app1; [exact Eb|]. apply nth_error_Some. rewrite Eb. discriminate. }
  destruct (destroys_ok (seq n k) s2 I2 (seq_NoDup k n) U2) as (s3 & E3 & I3 & X3 & S3). rewrite E3. cbn [bind]. exists s3.
  assert (S4 : seen s3 = seen (mem w) ++ repeat None k ++ c).
  { rewrite S3, S2, <- app_assoc. rewrite <- Lc at 1. unfold n. rewrite erase_mid, Lc. reflexivity. }
  split; [reflexivity|]. split; [|split; [congruence|exact S4]].
  apply (good_more w s3 _ _ (seq (n + k) k) G I3).
  - intros h Hh. rewrite S4, nth_error_app1 by exact Hh. reflexivity.
  - unfold owned. cbn [funs maps]. rewrite map_app, concat_app. cbn [map concat inside]. rewrite app_nil_r, <- !app_assoc. apply Permutation_app_head. apply Permutation_app_comm.
  - apply seq_NoDup.
  - intros h Hh. rewrite in_seq in Hh. fold n. split; [lia|]. destruct (Nc (h - n - k) ltac:(lia)) as (b & Eb). exists b. rewrite S4, nth_error_app2 by (fold n; lia). fold n.
    rewrite nth_error_app2 by (rewrite repeat_length; lia). rewrite repeat_length. exact Eb.
Qed.
End Life.

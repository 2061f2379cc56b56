(* Lemmas for P_Matsdf. *)
From Verif Require Import Base Spec S_Reduce L_Reduce S_Sdf S_Pysdf S_Matsdf M_Sdf L_Sdf L_Sdf2 M_Pysdf L_Pysdf M_Matsdf.
Import S_Matsdf.
Local Open Scope Z_scope.

Notation M b := (mkM b 8 (Some false) false).

Lemma words_prefix ws b : Forall is_word ws -> words (length ws) (write_words ws ++ b) = ws.
Proof.
  induction 1 as [|w ws Hw H IH]; [reflexivity|]. cbn [length words]. unfold write_words. cbn [flat_map]. rewrite <- app_assoc.
  rewrite firstn_app, skipn_app, le_length, Nat.sub_diag, firstn_all2, skipn_all2 by (rewrite le_length; lia).
  rewrite firstn_O, app_nil_r. simpl skipn. rewrite of_le_word by auto. f_equal. exact IH.
Qed.
Lemma fread_words ws b : Forall is_word ws -> fread_numbers 8 (Z.of_nat (length ws)) (M (write_words ws ++ b)) = Ok (ws, M b).
Proof.
  intros H. unfold fread_numbers. cbn [big_endian mrest tag_type at_eof]. replace (Z.of_nat (length ws) <? 0) with false by lia.
  assert (L : length (write_words ws ++ b) = (8 * length ws + length b)%nat) by (rewrite app_length, write_words_length; lia).
  rewrite L. assert (D : (length ws <= (8 * length ws + length b) / 8)%nat) by (apply Nat.div_le_lower_bound; lia).
  rewrite Z.min_l by lia. rewrite Nat2Z.id.
  replace (Z.of_nat (8 * length ws + length b) <? Z.of_nat 8 * Z.of_nat (length ws)) with false by lia.
  rewrite elements_words, words_prefix by auto. rewrite <- write_words_length, skipn_app, skipn_all, Nat.sub_diag. reflexivity.
Qed.
Definition small (w : Z) : Prop := Z.abs (to_signed w) <= 2 ^ 53.
Lemma mat_longs_ok ws b : Forall is_word ws -> Forall small ws ->
  mat_longs (Z.of_nat (length ws)) (M (write_words ws ++ b)) = Ok (map to_signed ws, M b).
Proof.
  intros H S. unfold mat_longs. cbn [tag_type]. rewrite fread_words by auto. cbn [bind]. rewrite Z.ltb_irrefl. do 2 f_equal.
  clear H. induction S as [|w ws Hw S IH]; [reflexivity|]. cbn [map]. rewrite IH. f_equal. change (signed 8 w) with (to_signed w). apply round_small. exact Hw.
Qed.
Lemma mat_long_ok w b : is_word w -> small w -> mat_long (M (write_words [w] ++ b)) = Ok (to_signed w, M b).
Proof. intros H S. unfold mat_long. rewrite (mat_longs_ok [w]) by auto. reflexivity. Qed.
Lemma nat_small n : Z.of_nat n < 2 ^ 53 -> is_word (Z.of_nat n) /\ small (Z.of_nat n) /\ to_signed (Z.of_nat n) = Z.of_nat n.
Proof.
  intros H. assert (E : to_signed (Z.of_nat n) = Z.of_nat n) by (unfold to_signed; replace (Z.of_nat n <? 2 ^ 63) with true by lia; reflexivity).
  split; [unfold is_word; lia|]. split; [|exact E]. unfold small. rewrite E. lia.
Qed.

(* ---- sizes ---- *)
Lemma strip_ones_one l : strip_ones (l ++ [1%nat]) = strip_ones l.
Proof. induction l as [|d l IH]; [reflexivity|]. cbn. rewrite IH. reflexivity. Qed.
Lemma strip_one ds : (2 <= length ds)%nat -> strip (ds ++ [1%nat]) = strip ds.
Proof. destruct ds as [|a [|b ds]]; cbn [length]; try lia. intros _. cbn [app strip]. rewrite strip_ones_one. reflexivity. Qed.
Lemma strip_ones_nth l i : nth i (strip_ones l) 1%nat = nth i l 1%nat.
Proof.
  revert i. induction l as [|d l IH]; intros i; [reflexivity|]. cbn [strip_ones].
  destruct (strip_ones l) as [|e l'] eqn:E.
  - destruct (Nat.eqb_spec d 1) as [->|N].
    + destruct i as [|i]; [reflexivity|]. cbn [nth]. rewrite <- IH. destruct i; reflexivity.
    + destruct i as [|i]; [reflexivity|]. cbn [nth]. rewrite <- IH. destruct i; reflexivity.
  - destruct i as [|i]; [reflexivity|]. cbn [nth]. apply IH.
Qed.
Lemma strip_nth ds i : nth i (strip ds) 1%nat = nth i ds 1%nat.
Proof. destruct ds as [|a [|b ds]]; try reflexivity. destruct i as [|[|i]]; try reflexivity. cbn [strip nth]. apply strip_ones_nth. Qed.
Lemma strip_ones_le l : (length (strip_ones l) <= length l)%nat.
Proof. induction l as [|d l IH]; [auto|]. cbn [strip_ones]. destruct (strip_ones l) as [|e l']; [destruct (d =? 1)%nat|]; cbn [length] in *; lia. Qed.
Lemma strip_le ds : (length (strip ds) <= length ds)%nat.
Proof. destruct ds as [|a [|b ds]]; auto. cbn [strip length]. assert (H := strip_ones_le ds). lia. Qed.
Lemma strip_ones_nil l k : strip_ones (l ++ [k]) = [] -> strip_ones l = [].
Proof.
  induction l as [|d l IH]; [reflexivity|]. cbn [app strip_ones]. destruct (strip_ones (l ++ [k])) as [|e l'] eqn:E; [|discriminate].
  rewrite (IH eq_refl). auto.
Qed.
Lemma strip_zero ds k : (2 <= length ds)%nat -> strip (ds ++ [k]) = [0; 0]%nat -> strip ds = [0; 0]%nat.
Proof.
  destruct ds as [|a [|b ds]]; cbn [length]; try lia. intros _. cbn [app strip]. intros H. inversion H as [[H1 H2 H3]]. subst. rewrite (strip_ones_nil ds k); auto.
Qed.
Lemma map_seq_nth (l : list nat) d : map (fun i => nth i l d) (seq 0 (length l)) = l.
Proof.
  induction l as [|a l IH]; [reflexivity|]. cbn [length seq map nth]. f_equal. rewrite <- seq_shift, map_map. exact IH.
Qed.
Lemma forallb_in {T} (f : T -> bool) l : (forall x, In x l -> f x = true) -> forallb f l = true.
Proof. intros H. apply forallb_forall. exact H. Qed.

(* one more object along the new dimension *)
Definition last_dim (ds b : list nat) : nat :=
  if ((1 <? length ds) || (1 <? nth 0 b 0))%nat then S (length ds) else length ds.
Lemma cat_dims_stack ds k : (0 < k)%nat -> ds <> [] -> stack_dims ds k <> [0; 0]%nat ->
  cat_dims (last_dim ds (stack_dims ds 1)) (stack_dims ds k) (stack_dims ds 1) = Ok (stack_dims ds (S k)).
Proof.
  intros Hk Hn Hz. destruct ds as [|n [|m ds]]; [contradiction| |].
  - destruct n as [|[|n]]; cbn [stack_dims] in *; [contradiction| |].
    + unfold last_dim, cat_dims. cbn. rewrite Nat.add_1_r. reflexivity.
    + unfold last_dim, cat_dims. cbn. rewrite Nat.eqb_refl. rewrite Nat.add_1_r. reflexivity.
  - remember (n :: m :: ds) as l eqn:El. assert (Hl : (2 <= length l)%nat) by (subst l; cbn; lia).
    assert (E : forall j, stack_dims l j = if list_eq_dec Nat.eq_dec (strip l) [0; 0]%nat then [0; 0]%nat else strip (l ++ [j])) by (intros j; subst l; destruct n as [|[|n]]; reflexivity).
    rewrite !E in *. destruct (list_eq_dec Nat.eq_dec (strip l) [0; 0]%nat) as [Ez|Nz]; [contradiction|].
    unfold last_dim. replace (1 <? length l)%nat with true by lia. cbn [orb]. rewrite strip_one by auto.
    unfold cat_dims. assert (L1 := strip_le (l ++ [k])). assert (L2 := strip_le l). rewrite app_length in L1. cbn [length] in L1.
    replace (Nat.max (S (length l)) (Nat.max (length (strip (l ++ [k]))) (length (strip l)))) with (S (length l)) by lia.
    replace (S (length l) - 1)%nat with (length l) by lia.
    rewrite forallb_in.
    + f_equal. f_equal. rewrite seq_S, map_app. cbn [map Nat.add]. rewrite Nat.eqb_refl, !strip_nth.
      rewrite app_nth2, Nat.sub_diag by lia. rewrite (nth_overflow l) by lia. cbn [nth]. rewrite Nat.add_1_r. f_equal.
      transitivity (map (fun i => nth i l 1%nat) (seq 0 (length l))); [|apply map_seq_nth]. apply map_ext_in. intros i Hi. apply in_seq in Hi.
      destruct (Nat.eqb_spec i (length l)); [lia|]. rewrite strip_nth, app_nth1 by lia. reflexivity.
    + intros i Hi. apply in_seq in Hi. destruct (Nat.eqb_spec i (length l)); [reflexivity|]. cbn [orb]. rewrite !strip_nth, app_nth1 by lia. apply Nat.eqb_refl.
Qed.

(* ---- values ---- *)
Lemma fold_mul_zero ds : In 0 ds -> fold_right Z.mul 1 ds = 0.
Proof. induction ds as [|d ds IH]; [contradiction|]. cbn. intros [->|H]; [lia|rewrite IH by auto; lia]. Qed.
Lemma nonneg_exists ds : Forall (fun d => 0 <= d < 2 ^ 48) ds -> existsb (fun d => d <? 0) ds = false.
Proof. induction 1 as [|d l H _ IH]; [reflexivity|]. cbn. rewrite IH. replace (d <? 0) with false by lia. reflexivity. Qed.
Lemma tensor_len {E} (Pe : E -> Prop) (t : stored E) : ok_tensor Pe t -> mat_shape t -> sdims t <> [] ->
  Z.of_nat (length (selts t)) = fold_right Z.mul 1 (sdims t).
Proof.
  intros (_ & _ & H & _) (S & _) N. unfold size_of in H. rewrite nonneg_exists in H by auto. destruct (sdims t); [contradiction|exact H].
Qed.
Lemma tensor_nil {E} (Pe : E -> Prop) (t : stored E) : ok_tensor Pe t -> mat_shape t -> stack_dims (map Z.to_nat (sdims t)) 1 = [0; 0]%nat -> selts t = [].
Proof.
  intros H S Z0. apply length_zero_iff_nil. destruct (sdims t) as [|d ds] eqn:Ed.
  - destruct H as (_ & _ & H & _). rewrite Ed in H. cbn in H. lia.
  - assert (L := tensor_len Pe t H S). rewrite Ed in L. specialize (L ltac:(discriminate)).
    rewrite fold_mul_zero in L; [lia|]. destruct S as (S & _). rewrite Ed in S. inversion S as [|? ? Hd Sd]; subst.
    assert (d = 0); [|left; auto]. destruct ds as [|e ds].
    + cbn [map stack_dims] in Z0. destruct (Z.to_nat d) as [|[|n]] eqn:En; [lia|discriminate|discriminate].
    + assert (E0 : hd 1%nat (stack_dims (map Z.to_nat (d :: e :: ds)) 1) = 0%nat) by (rewrite Z0; reflexivity).
      cbn [map] in E0. unfold stack_dims in E0. destruct (Z.to_nat d) as [|[|n]] eqn:En; [lia| |];
        destruct (list_eq_dec Nat.eq_dec _ _) as [Ez|Nz] in E0; try (cbn in Ez; discriminate); cbn in E0; discriminate.
Qed.
Lemma value_nil v : ok_value v -> mat_value v -> stack_dims (shape_of v) 1 = [0; 0]%nat -> reals_of double_bits v = [] /\ complexes_of v = [].
Proof.
  intros H S E. destruct v as [v|v|w|re im|t|t|l|l]; cbn [shape_of reals_of complexes_of ok_value mat_value] in *; try discriminate; auto.
  - split; [|reflexivity]. eapply tensor_nil; eauto.
  - split; [reflexivity|]. eapply tensor_nil; eauto.
Qed.
Lemma stack_zero ds j k : (0 < j)%nat -> (0 < k)%nat -> stack_dims ds j = [0; 0]%nat -> stack_dims ds k = [0; 0]%nat.
Proof.
  intros Hj Hk. destruct ds as [|n [|m ds]]; [auto| |].
  - destruct n as [|[|n]]; cbn; auto; intros H; inversion H; lia.
  - remember (n :: m :: ds) as l eqn:El. assert (Hl : (2 <= length l)%nat) by (subst l; cbn; lia).
    assert (E : forall j, stack_dims l j = if list_eq_dec Nat.eq_dec (strip l) [0; 0]%nat then [0; 0]%nat else strip (l ++ [j])) by (intros i; subst l; destruct n as [|[|n]]; reflexivity).
    rewrite !E. destruct (list_eq_dec Nat.eq_dec (strip l) [0; 0]%nat) as [Ez|Nz]; [auto|]. intros H. apply strip_zero in H; auto. contradiction.
Qed.
Lemma msize_of v vs : msize (matlab_of double_bits (v :: vs)) = stack_dims (shape_of v) (length (v :: vs)).
Proof. cbn [matlab_of]. destruct (existsb is_complex (v :: vs)); reflexivity. Qed.

Definition good (v : value) : Prop := ok_value v /\ mat_value v.
Lemma concat_nil {T} (f : value -> list T) l : (forall v, In v l -> f v = []) -> concat (map f l) = [].
Proof. induction l as [|v l IH]; intros H; [reflexivity|]. cbn. rewrite H by (left; auto). rewrite IH by (intros; apply H; right; auto). reflexivity. Qed.
Lemma complexes_app vs : existsb is_complex vs = false -> map (fun w => (w, 0)) (concat (map (reals_of double_bits) vs)) = concat (map (as_complexes double_bits) vs).
Proof.
  induction vs as [|v vs IH]; [reflexivity|]. cbn [existsb map concat]. intros H. apply orb_false_iff in H as [H1 H2]. rewrite map_app, IH by auto. unfold as_complexes at 2. rewrite H1. reflexivity.
Qed.
Lemma mat_cat_ok v vs w :
  Forall good (v :: vs) -> good w -> Forall (fun w => shape_of w = shape_of v /\ (is_complex w = is_complex v \/ stack_dims (shape_of v) 1 <> [0; 0]%nat)) vs ->
  shape_of w = shape_of v -> (is_complex w = is_complex v \/ stack_dims (shape_of v) 1 <> [0; 0]%nat) -> shape_of v <> [] ->
  mat_cat (last_dim (shape_of w) (msize (matlab_of double_bits [w]))) (matlab_of double_bits (v :: vs)) (matlab_of double_bits [w])
  = Ok (matlab_of double_bits ((v :: vs) ++ [w])).
Proof.
  intros G Gw A Sw Cw N.
  assert (L0 : (last_dim (shape_of w) (msize (matlab_of double_bits [w])) =? 0)%nat = false).
  { unfold last_dim. rewrite Sw. destruct (shape_of v); [contradiction|]. destruct ((1 <? length (n :: l)) || _)%nat; reflexivity. }
  unfold mat_cat. rewrite L0. rewrite !msize_of. cbn [length]. rewrite Sw.
  assert (Hk : (0 < S (length vs))%nat) by lia. assert (H1 : (0 < 1)%nat) by lia.
  destruct (list_eq_dec Nat.eq_dec (stack_dims (shape_of v) (S (length vs))) [0; 0]%nat) as [Ez|Nz].
  - (* nothing to store *)
    assert (Z1 := stack_zero _ _ 1 Hk H1 Ez).
    assert (Z2 : stack_dims (shape_of v) (length ((v :: vs) ++ [w])) = [0; 0]%nat) by (apply (stack_zero _ (S (length vs))); auto; rewrite app_length; cbn; lia).
    assert (Q : forall x, In x ((v :: vs) ++ [w]) -> (reals_of double_bits x = [] /\ as_complexes double_bits x = []) /\ is_complex x = is_complex v).
    { intros x Ix. assert (Hx : good x /\ shape_of x = shape_of v /\ is_complex x = is_complex v).
      { apply in_app_or in Ix. destruct Ix as [[<-|Ix]|[<-|[]]]; [inversion G; auto| |].
        - inversion G; subst. rewrite Forall_forall in A, H3. destruct (A x Ix) as [A1 [A2|A2]]; [auto|contradiction].
        - destruct Cw as [Cw|Cw]; [auto|contradiction]. }
      destruct Hx as [[g1 g2] [E Ec]]. split; [|exact Ec]. destruct (value_nil x g1 g2) as [q1 q2]; [rewrite E; auto|]. split; [exact q1|]. unfold as_complexes. rewrite q1, q2. destruct (is_complex x); reflexivity. }
    assert (Ex : existsb is_complex ((v :: vs) ++ [w]) = is_complex w).
    { assert (Hw : is_complex w = is_complex v) by (apply Q, in_or_app; right; left; auto). rewrite Hw. destruct (is_complex v) eqn:Ev; [cbn; rewrite Ev; reflexivity|].
      destruct (existsb is_complex ((v :: vs) ++ [w])) eqn:Ee; [|reflexivity]. apply existsb_exists in Ee as (x & Ix & Hx). rewrite (proj2 (Q x Ix)) in Hx. discriminate. }
    f_equal. destruct (Q w) as [[q1 q2] _]; [apply in_or_app; right; left; auto|]. unfold matlab_of. cbn [app]. change (v :: vs ++ [w]) with ((v :: vs) ++ [w]). rewrite Ex, Sw, Z2. cbn [existsb]. rewrite orb_false_r. change (length [w]) with 1%nat. rewrite Z1.
    rewrite (concat_nil (as_complexes double_bits) ((v :: vs) ++ [w])) by (intros x Ix; apply Q; auto). rewrite (concat_nil (reals_of double_bits) ((v :: vs) ++ [w])) by (intros x Ix; apply Q; auto).
    cbn [map concat]. rewrite q1, q2. reflexivity.
  - destruct (list_eq_dec Nat.eq_dec (stack_dims (shape_of v) 1) [0; 0]%nat) as [Ez|_].
    { exfalso. apply Nz. apply (stack_zero _ 1); auto. }
    rewrite cat_dims_stack by auto. cbn [bind]. assert (Ex : existsb is_complex ((v :: vs) ++ [w]) = existsb is_complex (v :: vs) || is_complex w) by (rewrite existsb_app; cbn; rewrite orb_false_r; reflexivity).
    assert (E1 : existsb is_complex [w] = is_complex w) by (cbn; apply orb_false_r).
    assert (LL : length ((v :: vs) ++ [w]) = S (S (length vs))) by (rewrite app_length; cbn; lia).
    unfold matlab_of.
    cbn [app]. change (v :: vs ++ [w]) with ((v :: vs) ++ [w]). rewrite Ex, E1, LL.
    destruct (existsb is_complex (v :: vs)) eqn:Ev, (is_complex w) eqn:Ew; cbn [orb mcomplex data]; do 3 f_equal; rewrite map_app, concat_app; f_equal; try (apply complexes_app; exact Ev); cbn [map concat]; rewrite ?app_nil_r; unfold as_complexes; rewrite ?Ew; reflexivity.
Qed.

(* ---- records ---- *)
Lemma pow48 : 2 ^ 48 < 2 ^ 53. Proof. reflexivity. Qed.
Lemma dims_words ds : Forall is_long ds -> Forall (fun d => 0 <= d < 2 ^ 48) ds ->
  Forall small (map to_word ds) /\ map to_signed (map to_word ds) = ds.
Proof.
  intros H1 H2. induction H2 as [|d l Hd H2 IH]; inversion H1; subst; [split; [constructor|reflexivity]|].
  destruct IH as [IH1 IH2]; auto. cbn [map]. rewrite IH2, signed_word by auto. split; [|reflexivity]. constructor; auto. unfold small. rewrite signed_word by auto. lia.
Qed.
Lemma array_ok {E} (Pe : E -> Prop) (t : stored E) : ok_tensor Pe t -> mat_shape t ->
  (if 1 <? Z.of_nat (length (sdims t)) then reshape (sdims t) (selts t) else Ok (column (selts t)))
  = Ok (mkT (stack_dims (map Z.to_nat (sdims t)) 1) (selts t)).
Proof.
  intros H Sh. destruct (sdims t) as [|d [|e ds]] eqn:Ed; cbn [length].
  - destruct H as (_ & _ & H & _). rewrite Ed in H. cbn in H. destruct (selts t) as [|x l]; [reflexivity|cbn in H; lia].
  - assert (L := tensor_len Pe t H Sh). rewrite Ed in L. specialize (L ltac:(discriminate)). cbn in L. cbn [Z.of_nat Z.ltb Z.compare Pos.of_succ_nat Pos.compare Pos.compare_cont].
    f_equal. unfold column. assert (En : Z.to_nat d = length (selts t)) by lia. cbn [map]. rewrite En. f_equal.
    destruct (length (selts t)) as [|[|n]]; reflexivity.
  - replace (1 <? Z.of_nat (S (S (length ds)))) with true by lia. assert (L := tensor_len Pe t H Sh). rewrite Ed in L. specialize (L ltac:(discriminate)).
    unfold reshape. replace (existsb (fun d => (d <? 0) || (2 ^ 48 <=? d)) (d :: e :: ds)) with false.
    2:{ destruct Sh as (Sh & _). rewrite Ed in Sh. clear - Sh. symmetry. induction Sh as [|x l Hx Sh IH]; [reflexivity|]. cbn [existsb]. rewrite IH. replace (x <? 0) with false by lia. replace (2 ^ 48 <=? x) with false by lia. reflexivity. }
    rewrite <- L, Z.eqb_refl. cbn [negb]. f_equal. f_equal. cbn [map].
    assert (E0 : forall a b l, stack_dims (a :: b :: l) 1 = if list_eq_dec Nat.eq_dec (strip (a :: b :: l)) [0; 0]%nat then [0; 0]%nat else strip ((a :: b :: l) ++ [1%nat])) by (intros [|[|a]] b l; reflexivity).
    rewrite E0, strip_one by (cbn; lia). destruct (list_eq_dec Nat.eq_dec _ _) as [<-|]; reflexivity.
Qed.
Lemma mat_tensor_R t b : ok_tensor is_word t -> mat_shape t ->
  mat_tensor false (M (concat (dump_vector (length (sdims t)) (map to_word (sdims t)) ++ dump_vector (length (selts t)) (selts t)) ++ b))
  = Ok (MReal (mkT (stack_dims (map Z.to_nat (sdims t)) 1) (selts t)), sdims t, M b).
Proof.
  intros H S. assert (N := array_ok _ t H S). destruct H as (H1 & H2 & H3 & H4 & H5). destruct S as (S1 & S2 & S3).
  destruct (dims_words _ H1 S1) as [D1 D2]. destruct (nat_small (length (sdims t))) as (n1 & n2 & n3); [lia|]. destruct (nat_small (length (selts t))) as (m1 & m2 & m3); [lia|].
  unfold mat_tensor, dump_vector. cbn [concat app]. rewrite app_nil_r, <- !app_assoc.
  rewrite mat_long_ok by auto. cbn [bind]. rewrite n3. rewrite <- (map_length to_word (sdims t)) at 1.
  rewrite mat_longs_ok; [|apply Forall_map, Forall_forall; intros; apply to_word_word|auto]. cbn [bind]. rewrite mat_long_ok by auto. cbn [bind]. rewrite m3.
  rewrite fread_words by auto. cbn [bind]. rewrite D2, N. reflexivity.
Qed.
Lemma mat_tensor_C t b : ok_tensor is_cword t -> mat_shape t ->
  mat_tensor true (M (concat (dump_vector (length (sdims t)) (map to_word (sdims t)) ++ dump_vector (length (selts t)) (complex_words (selts t))) ++ b))
  = Ok (MComplex (mkT (stack_dims (map Z.to_nat (sdims t)) 1) (selts t)), sdims t, M b).
Proof.
  intros H S. assert (N := array_ok _ t H S). destruct H as (H1 & H2 & H3 & H4 & H5). destruct S as (S1 & S2 & S3).
  destruct (dims_words _ H1 S1) as [D1 D2]. destruct (nat_small (length (sdims t))) as (n1 & n2 & n3); [lia|]. destruct (nat_small (length (selts t))) as (m1 & m2 & m3); [lia|].
  unfold mat_tensor, dump_vector. cbn [concat app]. rewrite app_nil_r, <- !app_assoc.
  rewrite mat_long_ok by auto. cbn [bind]. rewrite n3. rewrite <- (map_length to_word (sdims t)) at 1.
  rewrite mat_longs_ok; [|apply Forall_map, Forall_forall; intros; apply to_word_word|auto]. cbn [bind]. rewrite mat_long_ok by auto. cbn [bind]. rewrite m3.
  replace (2 * Z.of_nat (length (selts t))) with (Z.of_nat (length (complex_words (selts t)))) by (rewrite complex_words_length; lia).
  rewrite fread_words by (apply complex_words_ok; auto). cbn [bind].
  replace (Nat.odd (length (complex_words (selts t)))) with false.
  2:{ rewrite complex_words_length. symmetry. rewrite <- Nat.negb_even, Nat.even_mul. reflexivity. }
  rewrite pairs_complex, D2, N. reflexivity.
Qed.

Lemma fread_block a b k e : length a = 64%nat -> fread_chars 64 (mkM (a ++ b) k e false) = (a, mkM b k e false).
Proof.
  intros H. unfold fread_chars. cbn [mrest tag_type big_endian at_eof]. replace (length (a ++ b) <? 64)%nat with false by (rewrite app_length; lia).
  rewrite <- H. rewrite firstn_app, skipn_app, Nat.sub_diag, firstn_all, skipn_all, firstn_O, app_nil_r. reflexivity.
Qed.
Lemma filter_block name : ok_name name -> filter (fun c => negb (c =? 0)) (name_block name) = name.
Proof.
  intros [_ H]. unfold name_block. rewrite filter_app.
  assert (E : forall n, filter (fun c => negb (c =? 0)) (repeat 0 n) = []) by (induction n; auto). rewrite E, app_nil_r.
  induction H as [|c l [_ Hc] H IH]; [reflexivity|]. cbn [filter]. replace (c =? 0) with false by lia. cbn [negb]. rewrite IH. reflexivity.
Qed.
Lemma block_first name : ok_name name -> firstn 3 name <> [115; 100; 102] -> firstn 3 (name_block name) <> [115; 100; 102].
Proof.
  intros [H1 _] H. unfold name_block. destruct name as [|a [|b [|c name]]]; cbn [length] in *; cbn; try discriminate; try (intros E; inversion E); auto.
Qed.
Lemma code_small type : 0 <= type < 4 -> is_word (to_word type) /\ small (to_word type) /\ to_signed (to_word type) = type.
Proof.
  intros H. assert (E : to_signed (to_word type) = type) by (apply signed_word; unfold is_long; lia).
  split; [apply to_word_word|]. split; [|exact E]. unfold small. rewrite E. lia.
Qed.
Lemma mat_tag_ok name type b : ok_name name -> firstn 3 name <> [115; 100; 102] -> 0 <= type < 4 ->
  mat_tag (M (concat (write_tag name type) ++ b)) = Ok (name, type, M b).
Proof.
  intros H1 H2 Ht. destruct (code_small type Ht) as (c1 & c2 & c3). unfold mat_tag, write_tag. rewrite concat_app, wvn_block, <- app_assoc by auto.
  rewrite fread_block by (apply block_length; auto). unfold mat_header. rewrite block_length by auto. cbn [Nat.eqb Nat.ltb Nat.leb].
  destruct (list_eq_dec Z.eq_dec (firstn 3 (name_block name)) [115; 100; 102]) as [E|_]; [apply block_first in E; auto; contradiction|].
  cbn [bind at_eof concat]. rewrite app_nil_r. rewrite mat_long_ok by auto. cbn [bind]. rewrite c3, filter_block by auto. reflexivity.
Qed.
Lemma mat_tag_first name type b k e : ok_name name -> 0 <= type < 4 ->
  mat_tag (mkM (header ++ concat (write_tag name type) ++ b) k e false) = Ok (name, type, M b).
Proof.
  intros H1 Ht. destruct (code_small type Ht) as (c1 & c2 & c3). unfold mat_tag, write_tag. rewrite fread_block by reflexivity.
  change (mat_header header) with (@Ok bool true). cbn [bind]. change (mchar header 5) with (@Ok Z 56). change (mchar header 6) with (@Ok Z 49). cbn [bind mrest at_eof].
  change (56 =? 52) with false. change (56 =? 56) with true. change (49 =? 49) with true. cbv iota. cbn [bind negb].
  rewrite concat_app, wvn_block, <- app_assoc by auto. rewrite fread_block by (apply block_length; auto). cbn [bind at_eof concat]. rewrite app_nil_r.
  rewrite mat_long_ok by auto. cbn [bind]. rewrite c3, filter_block by auto. reflexivity.
Qed.

(* dims as sdf_load_record returns them *)
Definition read_dims (v : value) : list Z :=
  match v with VR t => sdims t | VC t => sdims t | VRs _ | VCs _ => [0] | _ => [1] end.
Lemma read_dims_length v : length (read_dims v) = length (shape_of v).
Proof. destruct v; cbn; rewrite ?map_length; reflexivity. Qed.
Definition after (depth : nat) (name : list Z) (code : Z) (s : mst) : outcome (mobj * list Z * list Z * mst) :=
  if code =? -1 then Ok (mnil, [], [0], s)
  else if code =? 0 then '(obj, ds, s) <- mat_tensor false s ;; Ok (obj, name, ds, s)
  else if code =? 1 then '(obj, ds, s) <- mat_tensor true s ;; Ok (obj, name, ds, s)
  else if (code =? 2) || (code =? 3) then
    '(L, s) <- mat_long s ;;
    s <- mat_repeat (mat_record_load depth) (Z.to_nat L) s ;;
    Ok (mnil, name, [0], s)
  else Abort.
Lemma record_after depth s : mat_record_load (S depth) s = ('(name, code, s) <- mat_tag s ;; after depth name code s).
Proof. reflexivity. Qed.
Lemma repeat_ok {T} (Q : T -> Prop) (dp : T -> list chunk) load1 l b :
  (forall t b, Q t -> exists o n d, load1 (M (concat (dp t) ++ b)) = Ok (o, n, d, M b)) -> Forall Q l ->
  mat_repeat load1 (length l) (M (concat (flat_map dp l) ++ b)) = Ok (M b).
Proof.
  intros H1 H. induction H as [|t l Ht H IH]; [reflexivity|]. cbn [length mat_repeat flat_map]. rewrite concat_app, <- app_assoc.
  destruct (H1 t (concat (flat_map dp l) ++ b) Ht) as (o & n & d & E). rewrite E. cbn [bind]. exact IH.
Qed.
Lemma inner_R depth t b : ok_tensor is_word t -> mat_shape t ->
  exists o n d, mat_record_load (S depth) (M (concat (dump_R t []) ++ b)) = Ok (o, n, d, M b).
Proof.
  intros H S. unfold dump_R. rewrite concat_app, <- app_assoc, record_after. rewrite mat_tag_ok; [|apply nil_name|discriminate|unfold TAG_RTENSOR; lia]. cbn [bind].
  unfold after, TAG_RTENSOR. cbn [Z.eqb]. rewrite mat_tensor_R by auto. cbn [bind]. eauto.
Qed.
Lemma inner_C depth t b : ok_tensor is_cword t -> mat_shape t ->
  exists o n d, mat_record_load (S depth) (M (concat (dump_C t []) ++ b)) = Ok (o, n, d, M b).
Proof.
  intros H S. unfold dump_C. rewrite concat_app, <- app_assoc, record_after. rewrite mat_tag_ok; [|apply nil_name|discriminate|unfold TAG_CTENSOR; lia]. cbn [bind].
  unfold after, TAG_CTENSOR. cbn [Z.eqb Pos.eqb]. rewrite mat_tensor_C by auto. cbn [bind]. eauto.
Qed.
Lemma after_ok depth name v b : ok_value v -> mat_value v ->
  after (S depth) name (tag_of v) (M (body v ++ b)) = Ok (matlab_of double_bits [v], name, read_dims v, M b).
Proof.
  intros Hv Hm. assert (one : forall {E} (x : E), mat_shape (mkST [1] [x])).
  { intros E x. split; [repeat constructor; lia|]. cbn. split; reflexivity. }
  destruct v as [v|v|w|re im|t|t|l|l]; cbn [ok_value mat_value tag_of read_dims] in *; unfold after; cbn [Z.eqb Pos.eqb orb].
  - change (body (VInt v)) with (concat (dump_vector 1 (map to_word [1]) ++ dump_vector 1 [double_bits v])).
    assert (E := mat_tensor_R (mkST [1] [double_bits v]) b). cbn [sdims selts length] in E. rewrite E; [reflexivity|apply one_tensor_ok, double_int; lia|apply one].
  - change (body (VSize v)) with (concat (dump_vector 1 (map to_word [1]) ++ dump_vector 1 [double_bits v])).
    assert (E := mat_tensor_R (mkST [1] [double_bits v]) b). cbn [sdims selts length] in E. rewrite E; [reflexivity|apply one_tensor_ok, double_int; lia|apply one].
  - change (body (VDouble w)) with (concat (dump_vector 1 (map to_word [1]) ++ dump_vector 1 [w])).
    assert (E := mat_tensor_R (mkST [1] [w]) b). cbn [sdims selts length] in E. rewrite E; [reflexivity|apply one_tensor_ok; auto|apply one].
  - change (body (VComplex re im)) with (concat (dump_vector 1 (map to_word [1]) ++ dump_vector 1 (complex_words [(re, im)]))).
    assert (E := mat_tensor_C (mkST [1] [(re, im)]) b). cbn [sdims selts length] in E. rewrite E; [reflexivity|apply one_tensor_ok; split; tauto|apply one].
  - change (body (VR t)) with (concat (dump_vector (length (sdims t)) (map to_word (sdims t)) ++ dump_vector (length (selts t)) (selts t))).
    rewrite mat_tensor_R by auto. cbn [bind matlab_of is_complex existsb orb shape_of length map concat reals_of]. rewrite app_nil_r. reflexivity.
  - change (body (VC t)) with (concat (dump_vector (length (sdims t)) (map to_word (sdims t)) ++ dump_vector (length (selts t)) (complex_words (selts t)))).
    rewrite mat_tensor_C by auto. cbn [bind matlab_of is_complex existsb orb shape_of length map concat]. unfold as_complexes. cbn [is_complex complexes_of]. rewrite app_nil_r. reflexivity.
  - change (body (VRs l)) with (concat ([write_words [Z.of_nat (length l)]] ++ flat_map (fun t => dump_R t []) l)). rewrite concat_app, <- app_assoc. cbn [concat]. rewrite app_nil_r.
    destruct (nat_small (length l)) as (n1 & n2 & n3); [lia|]. rewrite mat_long_ok by auto. cbn [bind]. rewrite n3, Nat2Z.id.
    rewrite (repeat_ok (fun t => ok_tensor is_word t /\ mat_shape t)).
    + reflexivity.
    + intros t b' [h1 h2]. apply inner_R; auto.
    + destruct Hv as [Hv _], Hm as [Hm _]. clear - Hv Hm. induction Hv; inversion Hm; subst; constructor; auto.
  - change (body (VCs l)) with (concat ([write_words [Z.of_nat (length l)]] ++ flat_map (fun t => dump_C t []) l)). rewrite concat_app, <- app_assoc. cbn [concat]. rewrite app_nil_r.
    destruct (nat_small (length l)) as (n1 & n2 & n3); [lia|]. rewrite mat_long_ok by auto. cbn [bind]. rewrite n3, Nat2Z.id.
    rewrite (repeat_ok (fun t => ok_tensor is_cword t /\ mat_shape t)).
    + reflexivity.
    + intros t b' [h1 h2]. apply inner_C; auto.
    + destruct Hv as [Hv _], Hm as [Hm _]. clear - Hv Hm. induction Hv; inversion Hm; subst; constructor; auto.
Qed.
Lemma tag_range v : 0 <= tag_of v < 4. Proof. destruct v; cbn; lia. Qed.
Lemma record_ok depth name v b : ok_name name -> firstn 3 name <> [115; 100; 102] -> good v ->
  mat_record_load (S (S depth)) (M (concat (dump v name) ++ b)) = Ok (matlab_of double_bits [v], name, read_dims v, M b).
Proof.
  intros H1 H2 [g1 g2]. rewrite record_after, dump_body, <- app_assoc by auto. rewrite mat_tag_ok by (auto using tag_range). cbn [bind]. apply after_ok; auto.
Qed.
Lemma record_first depth name v b k e : ok_name name -> good v ->
  mat_record_load (S (S depth)) (mkM (header ++ concat (dump v name) ++ b) k e false) = Ok (matlab_of double_bits [v], name, read_dims v, M b).
Proof.
  intros H1 [g1 g2]. rewrite record_after, dump_body, <- app_assoc by auto. rewrite mat_tag_first by (auto using tag_range). cbn [bind]. apply after_ok; auto.
Qed.

(* ---- the struct ---- *)
Definition holds (d : struct) (rs : list (list Z * value)) : Prop :=
  forall name, get_item d name = match values_of rs name with [] => None | vs => Some (matlab_of double_bits vs) end.
Lemma values_app a b name : values_of (a ++ b) name = values_of a name ++ values_of b name.
Proof. unfold values_of. rewrite filter_app, map_app. reflexivity. Qed.
Lemma values_in rs name v : In v (values_of rs name) -> In (name, v) rs.
Proof.
  unfold values_of. intros H. apply in_map_iff in H. destruct H as ([n w] & E & H). cbn in E. subst. apply filter_In in H. destruct H as [H1 H2]. cbn [fst] in H2.
  revert H2. destruct (list_eq_dec Z.eq_dec n name); intros H2; [subst; auto|discriminate].
Qed.
Lemma store_ok d rs r rest : holds d rs -> Forall mat_record (rs ++ r :: rest) -> consistent (rs ++ r :: rest) ->
  exists d', mat_store d (fst r) (read_dims (snd r)) (matlab_of double_bits [snd r]) = Ok d' /\ holds d' (rs ++ [r]).
Proof.
  intros Hd G C. assert (Gr : mat_record r) by (rewrite Forall_forall in G; apply G, in_or_app; right; left; auto).
  destruct Gr as (g1 & (g2 & g3) & g4 & g5). destruct r as [name v]. cbn [fst snd] in *. unfold mat_store.
  assert (V : values_of (rs ++ [(name, v)]) name = values_of rs name ++ [v]).
  { rewrite values_app. f_equal. unfold values_of. cbn [filter fst]. destruct (list_eq_dec Z.eq_dec name name); [reflexivity|contradiction]. }
  assert (O : forall n, n <> name -> values_of (rs ++ [(name, v)]) n = values_of rs n).
  { intros n Hn. rewrite values_app. unfold values_of at 2. cbn [filter fst]. destruct (list_eq_dec Z.eq_dec name n); [congruence|]. apply app_nil_r. }
  assert (K : forall o, o = matlab_of double_bits (values_of rs name ++ [v]) -> holds (set_item d name o) (rs ++ [(name, v)])).
  { intros o -> n. rewrite get_set. destruct (list_eq_dec Z.eq_dec name n) as [<-|Hn].
    - rewrite V. destruct (values_of rs name ++ [v]) eqn:E; [destruct (values_of rs name); discriminate|reflexivity].
    - rewrite O by auto. apply Hd. }
  rewrite Hd. destruct (values_of rs name) as [|w vs] eqn:Ev.
  - cbn [bind]. rewrite g2. eexists. split; [reflexivity|]. apply K. reflexivity.
  - assert (CC : values_of (rs ++ (name, v) :: rest) name = w :: vs ++ v :: values_of rest name).
    { rewrite values_app, Ev. cbn [app]. do 2 f_equal. unfold values_of. cbn [filter fst]. destruct (list_eq_dec Z.eq_dec name name); [reflexivity|contradiction]. }
    destruct (C name w _ CC) as [C1 C2]. assert (Nw : shape_of w <> []) by (apply C2; destruct vs; discriminate).
    rewrite Forall_app in C1. destruct C1 as [C1 C3]. inversion C3 as [|? ? [C4 C5] _]; subst.
    assert (Gv : Forall good (w :: vs)).
    { apply Forall_forall. intros x Hx. rewrite <- Ev in Hx. apply values_in in Hx. rewrite Forall_forall in G. destruct (G (name, x)) as (_ & _ & q1 & q2); [apply in_or_app; left; auto|]. split; auto. }
    assert (E := mat_cat_ok w vs v Gv (conj g4 g5) C1 C4 C5 Nw). unfold last_dim in E. rewrite <- read_dims_length in E. rewrite E. cbn [bind]. rewrite g2.
    eexists. split; [reflexivity|]. apply K. reflexivity.
Qed.
Lemma nonempty_name name : valid_field name = true -> exists c cs, name = c :: cs.
Proof. destruct name; [discriminate|eauto]. Qed.
Lemma loop_ok depth rest : forall rs d fuel tail, holds d rs -> Forall mat_record (rs ++ rest) -> consistent (rs ++ rest) ->
  exists d', holds d' (rs ++ rest) /\
  mat_loop (S (S depth)) (length rest + fuel) d (M (records rest ++ tail)) = mat_loop (S (S depth)) fuel d' (M tail).
Proof.
  induction rest as [|r rest IH]; intros rs d fuel tail Hd G C.
  - rewrite app_nil_r in *. exists d. split; auto.
  - destruct (store_ok d rs r rest Hd G C) as (d1 & E1 & Hd1).
    assert (G' : Forall mat_record ((rs ++ [r]) ++ rest)) by (rewrite <- app_assoc; exact G).
    assert (C' : consistent ((rs ++ [r]) ++ rest)) by (rewrite <- app_assoc; exact C).
    destruct (IH (rs ++ [r]) d1 fuel tail Hd1 G' C') as (d' & Hd' & E'). exists d'. split; [rewrite <- app_assoc in Hd'; exact Hd'|].
    rewrite <- E'. cbn [length Nat.add mat_loop at_eof]. unfold records. cbn [flat_map]. rewrite concat_app, <- app_assoc.
    assert (Gr : mat_record r) by (rewrite Forall_forall in G; apply G, in_or_app; right; left; auto).
    destruct Gr as (g1 & (g2 & g3) & g4 & g5). rewrite record_ok by (auto; split; auto). cbn [bind].
    destruct (nonempty_name _ g2) as (c & cs & En). rewrite En at 1. rewrite E1. reflexivity.
Qed.
Lemma loop_end depth fuel d k e : mat_loop (S depth) (S fuel) d (mkM [] k e false) = Ok d.
Proof. reflexivity. Qed.

(* the records rs and then whatever follows *)
Lemma load_prefix tag e depth rs tail : (2 <= depth)%nat -> rs <> [] -> Forall mat_record rs -> consistent rs ->
  exists d fuel, holds d rs /\ mat_load tag e depth (header ++ records rs ++ tail) = mat_loop depth (S (fuel + length tail)) d (M tail).
Proof.
  intros Hd N G C. destruct depth as [|[|depth]]; try lia. destruct rs as [|r rs]; [contradiction|].
  assert (H0 : holds [] []) by (intros n; reflexivity).
  destruct (store_ok [] [] r rs H0 G C) as (d1 & E1 & Hd1).
  assert (L := records_length rs). assert (L2 := records_length [r]).
  assert (Lf : length (header ++ records (r :: rs) ++ tail) = (64 + length (records [r]) + length (records rs) + length tail)%nat).
  { rewrite !app_length. change (length header) with 64%nat. replace (records (r :: rs)) with (records [r] ++ records rs) by (unfold records; cbn [flat_map]; rewrite app_nil_r, concat_app; reflexivity). rewrite app_length. lia. }
  destruct (loop_ok depth rs [r] d1 (S (63 + length (records [r]) + (length (records rs) - length rs) + length tail)) tail Hd1 G C) as (d' & Hd' & E').
  exists d', (63 + length (records [r]) + (length (records rs) - length rs))%nat. split; [exact Hd'|]. rewrite <- E'. unfold mat_load. rewrite Lf.
  replace (64 + length (records [r]) + length (records rs) + length tail)%nat with (length rs + S (63 + length (records [r]) + (length (records rs) - length rs) + length tail))%nat by lia.
  set (F := (length rs + S _)%nat). clearbody F. cbn [mat_loop at_eof].
  replace (records (r :: rs)) with (concat (dump (snd r) (fst r)) ++ records rs) by (unfold records; cbn [flat_map]; rewrite concat_app; reflexivity). rewrite <- app_assoc.
  assert (Gr : mat_record r) by (inversion G; auto). destruct Gr as (g1 & (g2 & g3) & g4 & g5). rewrite record_first by (auto; split; auto). cbn [bind].
  destruct (nonempty_name _ g2) as (c & cs & En). rewrite En at 1. rewrite E1. reflexivity.
Qed.

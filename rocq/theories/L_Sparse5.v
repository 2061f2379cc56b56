(* Sparse Kronecker products. *)
From Verif Require Import Base Spec S_Fold S_Reduce S_Sparse M_Tensor M_Arith M_Fold M_Sparse
  L_Lin L_Tensor L_Arith L_Fold L_Kron L_Scale L_Trace L_Reduce L_Sparse L_Sparse2 L_Sparse3.
From Coq Require Import Sorted.

Section SKron.
Context {A : Type} (N : numops A).
Notation z := (nzero N).
Notation row := (list (nat * A)).

Definition kpart (C1 : nat) (q : nat * A) (r1 : row) : row := map (fun p => (fst p + C1 * fst q, nmul N (snd p) (snd q))) r1.
Definition krow (C1 : nat) (r2 r1 : row) : row := concat (map (fun q => kpart C1 q r1) r2).

Lemma krow_cons C1 q r2 r1 : krow C1 (q :: r2) r1 = kpart C1 q r1 ++ krow C1 r2 r1.
Proof. reflexivity. Qed.
Lemma kpart_len C1 q r1 : length (kpart C1 q r1) = length r1.
Proof. apply map_length. Qed.
Lemma krow_len C1 r2 r1 : length (krow C1 r2 r1) = length r2 * length r1.
Proof. induction r2 as [|q r2 IH]; [reflexivity|]. rewrite krow_cons, app_length, IH, kpart_len. simpl. lia. Qed.

Lemma in_krow C1 r2 r1 p : In p (krow C1 r2 r1) <-> exists q s, In q r2 /\ In s r1 /\ p = (fst s + C1 * fst q, nmul N (snd s) (snd q)).
Proof.
  unfold krow. rewrite in_concat. split.
  - intros (l & Hl & Hp). apply in_map_iff in Hl. destruct Hl as (q & <- & Hq). apply in_map_iff in Hp. destruct Hp as (s & <- & Hs). eauto.
  - intros (q & s & Hq & Hs & ->). exists (kpart C1 q r1). split; [apply in_map_iff; eauto|]. apply in_map_iff. eauto.
Qed.

Lemma ss_app (l1 l2 : list nat) : StronglySorted lt l1 -> StronglySorted lt l2 -> (forall x y, In x l1 -> In y l2 -> x < y) -> StronglySorted lt (l1 ++ l2).
Proof.
  intros H1 H2 H. induction H1 as [|a l1 H1 IH Ha]; [auto|]. simpl. constructor.
  - apply IH. intros x y Hx Hy. apply H; simpl; auto.
  - rewrite Forall_forall in *. intros y Hy. apply in_app_or in Hy. destruct Hy; auto. apply H; simpl; auto.
Qed.
Lemma ss_map (f : nat -> nat) l : (forall x y, x < y -> f x < f y) -> StronglySorted lt l -> StronglySorted lt (map f l).
Proof.
  intros Hf H. induction H as [|a l H IH Ha]; [constructor|]. simpl. constructor; auto. rewrite Forall_forall in *. intros y Hy. apply in_map_iff in Hy.
  destruct Hy as (x & <- & Hx). auto.
Qed.

Lemma krow_good C1 C2 r2 r1 : good_row C2 r2 -> good_row C1 r1 -> good_row (C1 * C2) (krow C1 r2 r1).
Proof.
  intros H2 H1. split.
  - induction r2 as [|q r2 IH]; [constructor|]. destruct (sorted_in _ _ _ H2) as (Hg & Hb & Hlt). rewrite krow_cons, map_app. apply ss_app; auto.
    + unfold kpart. rewrite map_map. cbn [fst]. rewrite <- (map_map fst (fun x => x + C1 * fst q)). apply ss_map; [intros; lia|]. apply H1.
    + intros x y Hx Hy. apply in_map_iff in Hx. destruct Hx as (p & <- & Hp). apply in_map_iff in Hp. destruct Hp as (s & <- & Hs).
      apply in_map_iff in Hy. destruct Hy as (p' & <- & Hp'). apply in_krow in Hp'. destruct Hp' as (q' & s' & Hq' & Hs' & ->). cbn [fst].
      specialize (Hlt q' Hq'). assert (fst s < C1) by (apply H1; auto). nia.
  - intros p Hp. apply in_krow in Hp. destruct Hp as (q & s & Hq & Hs & ->). cbn [fst].
    assert (fst s < C1) by (apply H1; auto). assert (fst q < C2) by (apply H2; auto). nia.
Qed.

Lemma krow_lookup (L : numlaws N) C1 C2 r2 r1 ci cj : good_row C2 r2 -> good_row C1 r1 -> ci < C1 ->
  lookup z (ci + C1 * cj) (krow C1 r2 r1) = nmul N (lookup z ci r1) (lookup z cj r2).
Proof.
  intros H2 H1 Hci. induction r2 as [|q r2 IH].
  - unfold lookup at 1 3. simpl. rewrite (mul_comm _ L), (mul_0_l _ L). reflexivity.
  - destruct (sorted_in _ _ _ H2) as (Hg & Hb & Hlt). rewrite krow_cons, lookup_app, (lookup_cons z cj).
    assert (Hpart : fst q = cj -> lookup z (ci + C1 * cj) (kpart C1 q r1) = nmul N (lookup z ci r1) (snd q) /\
      (existsb (fun p => fst p =? ci + C1 * cj) (kpart C1 q r1) = false -> lookup z ci r1 = z)).
    { intros <-. unfold kpart. clear -L. induction r1 as [|p r1 IH].
      - unfold lookup. simpl. rewrite (mul_0_l _ L). auto.
      - simpl map. rewrite !lookup_cons. cbn [fst snd]. destruct IH as [I1 I2].
        replace (fst p + C1 * fst q =? ci + C1 * fst q) with (fst p =? ci) by (destruct (Nat.eqb_spec (fst p) ci), (Nat.eqb_spec (fst p + C1 * fst q) (ci + C1 * fst q)); auto; lia).
        simpl existsb. replace (fst p + C1 * fst q =? ci + C1 * fst q) with (fst p =? ci) by (destruct (Nat.eqb_spec (fst p) ci), (Nat.eqb_spec (fst p + C1 * fst q) (ci + C1 * fst q)); auto; lia).
        destruct (fst p =? ci); [split; [auto|discriminate]|]. simpl. auto. }
    destruct (Nat.eqb_spec (fst q) cj) as [E|E].
    + destruct (Hpart E) as [P1 P2]. destruct (existsb _ (kpart C1 q r1)) eqn:Ex; [exact P1|]. rewrite (P2 eq_refl), (mul_0_l _ L).
      apply lookup_out. intros p Hp. apply in_krow in Hp. destruct Hp as (q' & s' & Hq' & Hs' & ->). cbn [fst]. specialize (Hlt q' Hq').
      assert (fst s' < C1) by (apply H1; auto). nia.
    + assert (Ex : existsb (fun p => fst p =? ci + C1 * cj) (kpart C1 q r1) = false).
      { apply Bool.not_true_is_false. intros H. apply existsb_exists in H. destruct H as (p & Hp & Hq). apply in_map_iff in Hp. destruct Hp as (s & <- & Hs).
        cbn [fst] in Hq. apply Nat.eqb_eq in Hq. assert (fst s < C1) by (apply H1; auto). apply E. nia. }
      rewrite Ex. apply IH; auto.
Qed.

(* rows of the product, in order *)
Definition kr (C1 : nat) (R2 R1 : list row) (m : nat) : row :=
  krow C1 (nth (m / length R1) R2 []) (nth (m mod length R1) R1 []).
Definition krows C1 R2 R1 n := map (kr C1 R2 R1) (seq 0 n).

Lemma krows_S C1 R2 R1 n : krows C1 R2 R1 (S n) = krows C1 R2 R1 n ++ [kr C1 R2 R1 n].
Proof. unfold krows. rewrite seq_S, map_app. reflexivity. Qed.
Lemma concat_krows_S C1 R2 R1 n : concat (krows C1 R2 R1 (S n)) = concat (krows C1 R2 R1 n) ++ kr C1 R2 R1 n.
Proof. rewrite krows_S, concat_app. simpl. rewrite app_nil_r. reflexivity. Qed.
Lemma kr_at C1 R2 R1 l k r2 r1 : nth_error R2 l = Some r2 -> nth_error R1 k = Some r1 -> kr C1 R2 R1 (l * length R1 + k) = krow C1 r2 r1.
Proof.
  intros H2 H1. assert (Hk := nth_error_lt_inv _ _ _ H1). unfold kr.
  rewrite Nat.div_add_l, (Nat.div_small k), Nat.add_0_r by lia.
  rewrite Nat.add_comm, Nat.mod_add, Nat.mod_small by lia. rewrite (nth_error_nth _ _ _ H2), (nth_error_nth _ _ _ H1). reflexivity.
Qed.

Lemma krows_len C1 R2 R1 l r2 : nth_error R2 l = Some r2 -> length (concat (krows C1 R2 R1 (l * length R1))) = offs R2 l * length (concat R1) ->
  forall k, k <= length R1 ->
  length (concat (krows C1 R2 R1 (l * length R1 + k))) = offs R2 l * length (concat R1) + length r2 * offs R1 k.
Proof.
  intros H2 H. induction k as [|k IH]; intros Hk; [rewrite Nat.add_0_r, H; replace (offs R1 0) with 0 by reflexivity; lia|].
  rewrite Nat.add_succ_r, concat_krows_S, app_length, IH by lia.
  destruct (nth_error_lt R1 k Hk) as [r1 H1]. rewrite (kr_at C1 R2 R1 l k r2 r1 H2 H1), krow_len, (offs_S _ _ _ H1). lia.
Qed.
Lemma krows_len0 C1 R2 R1 l : l <= length R2 -> length (concat (krows C1 R2 R1 (l * length R1))) = offs R2 l * length (concat R1).
Proof.
  induction l as [|l IH]; intros Hl; [reflexivity|]. destruct (nth_error_lt R2 l Hl) as [r2 H2].
  replace (S l * length R1) with (l * length R1 + length R1) by lia. rewrite (krows_len C1 R2 R1 l r2 H2 (IH ltac:(lia)) (length R1) (le_n _)).
  rewrite offs_all, (offs_S _ _ _ H2). lia.
Qed.
Lemma krows_offs C1 R2 R1 n k : k <= n -> offs (krows C1 R2 R1 n) k = length (concat (krows C1 R2 R1 k)).
Proof. intros H. unfold offs, krows. rewrite firstn_map_seq by auto. reflexivity. Qed.

Lemma slength_pack c (rws : list row) : slength (pack c rws) = Ok (length (concat rws)).
Proof.
  unfold slength. replace (srows (pack c rws)) with (length rws) by reflexivity. destruct (Nat.eqb_spec (length rws) 0) as [E|E].
  - destruct rws; [reflexivity|discriminate].
  - rewrite rd_rs, offs_all by lia. reflexivity.
Qed.

Lemma concat_nil_rows (rws : list row) : length (concat rws) = 0 -> rws = repeat [] (length rws).
Proof.
  induction rws as [|r rws IH]; intros H; [reflexivity|]. simpl in H. rewrite app_length in H. destruct r; [|simpl in H; lia]. simpl. f_equal. apply IH. lia.
Qed.

Lemma kron_empty C1 (R2 R1 : list row) : length (concat R1) * length (concat R2) = 0 ->
  krows C1 R2 R1 (length R1 * length R2) = repeat [] (length R1 * length R2).
Proof.
  intros H. apply list_eq_nth_len; [unfold krows; rewrite map_length, seq_length, repeat_length; reflexivity|].
  unfold krows. rewrite map_length, seq_length. intros i Hi. rewrite nth_error_map_seq, nth_error_repeat by auto. f_equal.
  unfold kr. assert (Hl := krow_len C1 (nth (i / length R1) R2 []) (nth (i mod length R1) R1 [])).
  assert (nth (i / length R1) R2 [] = [] \/ nth (i mod length R1) R1 [] = []).
  { apply Nat.mul_eq_0 in H. destruct H as [H|H]; apply concat_nil_rows in H; rewrite H; [right|left]; apply nth_repeat. }
  assert (length (nth (i / length R1) R2 []) * length (nth (i mod length R1) R1 []) = 0) by (destruct H0 as [->| ->]; simpl; lia).
  destruct (krow _ _ _); [reflexivity|simpl in Hl; lia].
Qed.

Lemma sdo_kron_ok jrs jcol jdata C2 C1 (R2 R1 : list row) :
  sdo_kron N jrs jcol jdata (pack C2 R2) (pack C1 R1) = Ok (pack (C1 * C2) (krows C1 R2 R1 (length R1 * length R2))).
Proof.
  unfold sdo_kron. rewrite !slength_pack. cbn [bind].
  replace (srows (pack C1 R1)) with (length R1) by reflexivity. replace (srows (pack C2 R2)) with (length R2) by reflexivity.
  replace (scols (pack C1 R1)) with C1 by reflexivity. replace (scols (pack C2 R2)) with C2 by reflexivity.
  set (n1 := length R1). set (n2 := length R2). set (M := length (concat R1) * length (concat R2)).
  destruct (Nat.eqb_spec M 0) as [E0|E0].
  { assert (Hb := kron_empty C1 R2 R1 E0). fold n1 n2 in Hb. rewrite Hb, pack_empty. unfold new_sparse, safe_size.
    destruct ((n1 * n2 =? 0) || (C1 * C2 =? 0)); [reflexivity|]. replace (0 / (n1 * n2) <=? C1 * C2) with true; [reflexivity|].
    symmetry. apply Nat.leb_le. destruct (n1 * n2); [simpl; lia|]. rewrite Nat.div_0_l by lia. lia. }
  set (T := n1 * n2).
  assert (Hal : forall B (j : nat -> B) n, length (alloc j n) = n) by (intros; unfold alloc; rewrite map_length, seq_length; auto).
  destruct (buf_push (T + 1) (alloc jrs (T + 1)) [] 0 (buf_nil _ _ (Hal _ _ _))) as [Ew Bw]; [simpl; lia|]. simpl length in Ew, Bw. rewrite Ew. cbn [bind].
  set (KR := krows C1 R2 R1).
  set (Inv := fun m (st : list nat * nat * list nat * list A * nat) => exists rs col d, st = (rs, S m, col, d, length (concat (KR m))) /\
     buf (T + 1) rs (map (fun k => length (concat (KR k))) (seq 0 (S m))) /\
     buf M col (map fst (concat (KR m))) /\ buf M d (map snd (concat (KR m)))).
  match goal with |- context [for_ n2 ?b ?s] => destruct (for_inv (fun l st => Inv (l * n1) st) n2 b s) as (st & E & P) end.
  - simpl. unfold Inv. exists (upd (alloc jrs (T + 1)) 0 0), (alloc jcol M), (alloc jdata M). split; [reflexivity|]. split; [exact Bw|]. split; apply buf_nil, Hal.
  - intros l st Hl Hst. destruct (nth_error_lt R2 l Hl) as [r2 H2]. assert (Ho2 := offs_le _ _ _ H2).
    match goal with |- exists s'', for_ n1 ?b ?s = _ /\ _ => destruct (for_inv (fun k st => Inv (l * n1 + k) st) n1 b s) as (st' & E & P) end.
    + rewrite Nat.add_0_r. exact Hst.
    + intros k st' Hk (rs & col & d & -> & Brs & Bc & Bd). destruct (nth_error_lt R1 k Hk) as [r1 H1]. assert (Ho1 := offs_le _ _ _ H1).
      rewrite !rd_rs by (fold n2; lia). cbn [bind]. rewrite (offs_S _ _ _ H2). replace (offs R2 l + length r2 - offs R2 l) with (length r2) by lia.
      set (m := l * n1 + k) in *. assert (Hm : length (concat (KR m)) = offs R2 l * length (concat R1) + length r2 * offs R1 k).
      { apply krows_len; auto; [apply krows_len0; fold n2; lia|fold n1; lia]. }
      assert (Hcap : length (concat (KR m)) + length r2 * length r1 <= M) by (rewrite Hm; unfold M; nia).
      assert (HmT : S m <= T) by (unfold m, T; nia).
      match goal with |- context [for_ (length r2) ?b ?s] => destruct (for_inv (fun t (st : list nat * list A * nat) => exists col d,
        let L := concat (KR m) ++ krow C1 (firstn t r2) r1 in st = (col, d, length L) /\ buf M col (map fst L) /\ buf M d (map snd L)) (length r2) b s) as (st2 & E2 & P2) end.
      * exists col, d. simpl. unfold krow. simpl. rewrite app_nil_r. auto.
      * intros t st2 Ht (col2 & d2 & -> & Bc2 & Bd2).
        rewrite (offs_S _ _ _ H1). replace (offs R1 k + length r1 - offs R1 k) with (length r1) by lia.
        destruct (nth_error_lt r2 t Ht) as [[cj y] Hq].
        assert (Hqc : nth_error (concat R2) (offs R2 l + t) = Some (cj, y)) by (rewrite (nth_concat _ _ _ _ H2) by auto; auto).
        set (L2 := concat (KR m) ++ krow C1 (firstn t r2) r1) in *.
        assert (HL2 : length L2 = length (concat (KR m)) + t * length r1) by (unfold L2; rewrite app_length, krow_len, firstn_length; lia).
        match goal with |- exists s'', for_ (length r1) ?b ?s = _ /\ _ => destruct (for_inv (fun u (st : list nat * list A * nat) => exists col d,
          let L := L2 ++ kpart C1 (cj, y) (firstn u r1) in st = (col, d, length L) /\ buf M col (map fst L) /\ buf M d (map snd L)) (length r1) b s) as (st3 & E3 & P3) end.
        -- exists col2, d2. simpl. rewrite app_nil_r. auto.
        -- intros u st3 Hu (col3 & d3 & -> & Bc3 & Bd3). destruct (nth_error_lt r1 u Hu) as [[ci x] Hp].
           assert (Hpc : nth_error (concat R1) (offs R1 k + u) = Some (ci, x)) by (rewrite (nth_concat _ _ _ _ H1) by auto; auto).
           rewrite (rd_dt C1 R1 _ _ _ Hpc), (rd_dt C2 R2 _ _ _ Hqc), (rd_col C1 R1 _ _ _ Hpc), (rd_col C2 R2 _ _ _ Hqc). cbn [bind].
           set (L3 := L2 ++ kpart C1 (cj, y) (firstn u r1)) in *.
           assert (HL3 : length L3 < M) by (unfold L3; rewrite app_length, kpart_len, firstn_length, HL2; nia).
           destruct (buf_push M d3 _ (nmul N x y) Bd3) as [Ed Bd']; [rewrite map_length; auto|].
           destruct (buf_push M col3 _ (ci + C1 * cj) Bc3) as [Ec Bc']; [rewrite map_length; auto|].
           rewrite map_length in Ed, Ec, Bd', Bc'. rewrite Ed. cbn [bind]. rewrite Ec. cbn [bind]. eexists; split; [reflexivity|].
           assert (HL : L2 ++ kpart C1 (cj, y) (firstn (S u) r1) = L3 ++ [(ci + C1 * cj, nmul N x y)]).
           { unfold L3. rewrite (firstn_S_snoc _ _ _ Hp). unfold kpart. rewrite map_app, app_assoc. reflexivity. }
           eexists _, _. rewrite HL, !map_app, app_length. split; [rewrite Nat.add_1_r; reflexivity|]. split; [exact Bc'|exact Bd'].
        -- rewrite E3. eexists; split; [reflexivity|]. destruct P3 as (col4 & d4 & -> & Bc4 & Bd4). rewrite firstn_all in *. exists col4, d4.
           assert (HL : concat (KR m) ++ krow C1 (firstn (S t) r2) r1 = L2 ++ kpart C1 (cj, y) r1).
           { unfold L2. rewrite (firstn_S_snoc _ _ _ Hq). unfold krow. rewrite map_app, concat_app, app_assoc. simpl. rewrite app_nil_r. reflexivity. }
           cbv zeta. rewrite HL. auto.
      * rewrite E2. cbn [bind]. destruct P2 as (col2 & d2 & -> & Bc2 & Bd2). rewrite firstn_all in *.
        assert (HK : concat (KR (S m)) = concat (KR m) ++ krow C1 r2 r1) by (unfold KR; rewrite concat_krows_S; unfold m, n1; rewrite (kr_at C1 R2 R1 l k r2 r1 H2 H1); reflexivity).
        rewrite <- HK in *.
        destruct (buf_push (T + 1) rs _ (length (concat (KR (S m)))) Brs) as [Er Br]; [rewrite map_length, seq_length; lia|]. rewrite map_length, seq_length in Er, Br.
        rewrite Er. cbn [bind]. eexists; split; [reflexivity|]. unfold Inv. replace (l * n1 + S k) with (S m) by (unfold m; lia).
        eexists _, _, _. split; [reflexivity|]. split; [|split; [exact Bc2|exact Bd2]].
        rewrite (seq_S (S m)), map_app. exact Br.
    + rewrite E. eexists; split; [reflexivity|]. replace (S l * n1) with (l * n1 + n1) by lia. exact P.
  - rewrite E. cbn [bind]. destruct P as (rs & col & d & -> & Brs & Bc & Bd). replace (n2 * n1) with T in * by (unfold T; lia).
    assert (HM : length (concat (KR T)) = M).
    { unfold KR, T, n1, n2. rewrite Nat.mul_comm, krows_len0, offs_all by lia. unfold M. lia. }
    apply buf_full in Brs; [|rewrite map_length, seq_length; lia]. apply buf_full in Bc; [|rewrite map_length; auto]. apply buf_full in Bd; [|rewrite map_length; auto].
    subst rs col d. unfold from_parts. rewrite map_length, seq_length. replace (S T =? T + 1) with true by lia. cbn [assert_ bind].
    unfold pack. f_equal. f_equal.
    + unfold KR, krows. rewrite map_length, seq_length. reflexivity.
    + assert (HlT : length (KR T) = T) by (unfold KR, krows; rewrite map_length, seq_length; reflexivity). rewrite HlT. apply map_ext_in. intros k Hk. apply in_seq in Hk. unfold KR. rewrite krows_offs by lia. reflexivity.
Qed.

Lemma krows_good C1 C2 R2 R1 n : good C2 R2 -> good C1 R1 -> good (C1 * C2) (krows C1 R2 R1 n).
Proof.
  unfold good. rewrite !Forall_forall. intros H2 H1 r Hr. apply in_map_iff in Hr. destruct Hr as (m & <- & _). unfold kr.
  assert (Hn : forall (R0 : list row) c i, (forall x, In x R0 -> good_row c x) -> good_row c (nth i R0 [])).
  { intros R0 c i H0. destruct (nth_in_or_default i R0 []) as [H|H]; [auto|]. rewrite H. apply good_row_nil. }
  apply krow_good; auto.
Qed.
Lemma krows_entry (L : numlaws N) C1 C2 R2 R1 l k ci cj r2 r1 : good C2 R2 -> good C1 R1 -> nth_error R2 l = Some r2 -> nth_error R1 k = Some r1 -> ci < C1 ->
  entry z (pack (C1 * C2) (krows C1 R2 R1 (length R1 * length R2))) (l * length R1 + k) (cj * C1 + ci) = nmul N (lookup z ci r1) (lookup z cj r2).
Proof.
  intros G2 G1 H2 H1 Hci. assert (Hl := nth_error_lt_inv _ _ _ H2). assert (Hk := nth_error_lt_inv _ _ _ H1).
  rewrite (entry_pack z (C1 * C2) _ (l * length R1 + k) _ (krow C1 r2 r1)).
  - replace (cj * C1 + ci) with (ci + C1 * cj) by lia. unfold good in G1, G2. rewrite Forall_forall in G1, G2.
    apply (krow_lookup L C1 C2); auto; [apply G2|apply G1]; eapply nth_error_In; eauto.
  - unfold krows. rewrite nth_error_map_seq by nia. rewrite (kr_at C1 R2 R1 l k r2 r1 H2 H1). reflexivity.
Qed.
End SKron.

(* Sparse arithmetic. *)
From Verif Require Import Base Spec S_Fold S_Reduce S_Sparse M_Tensor M_Arith M_Fold M_Sparse
  L_Lin L_Tensor L_Arith L_Fold L_Kron L_Scale L_Trace L_Reduce L_Sparse L_Sparse2.
From Coq Require Import Sorted.

(* maps over the elements *)
Section Map.
Context {A B : Type}.
Definition map_row (f : A -> B) (r : list (nat * A)) : list (nat * B) := map (fun p => (fst p, f (snd p))) r.

Lemma offs_map (f : A -> B) rws k : offs (map (map_row f) rws) k = offs rws k.
Proof. unfold offs. rewrite firstn_map. unfold map_row. rewrite <- concat_map, map_length. reflexivity. Qed.

Lemma smap_ok junk (f : A -> B) c rws : smap junk f (pack c rws) = Ok (pack c (map (map_row f) rws)).
Proof.
  unfold smap, unop. cbn [data dims].
  rewrite (seq_write_opt_map f) by (rewrite new_tensor_len; unfold nelem; rewrite prod_cons; replace (prod []) with 1 by reflexivity; lia).
  cbn [bind data]. unfold pack. cbn [row_start srows scols column sdata]. rewrite map_length, seq_length, Nat.add_1_r, Nat.eqb_refl.
  cbn [assert_ bind]. do 2 f_equal.
  - rewrite map_length. reflexivity.
  - rewrite map_length. apply map_ext. intros k. symmetry. apply offs_map.
  - unfold map_row. rewrite <- concat_map, map_map. reflexivity.
  - unfold map_row. rewrite <- concat_map, !map_map. reflexivity.
Qed.

Lemma good_map (f : A -> B) c rws : good c rws -> good c (map (map_row f) rws).
Proof.
  unfold good. rewrite !Forall_forall. intros H r Hr. apply in_map_iff in Hr. destruct Hr as (r' & <- & Hr'). destruct (H r' Hr') as [Hs Hb].
  split.
  - unfold map_row. rewrite map_map. exact Hs.
  - intros p Hp. apply in_map_iff in Hp. destruct Hp as (q & <- & Hq). simpl. auto.
Qed.

Lemma lookup_map (f : A -> B) z z' j r : f z = z' -> lookup z' j (map_row f r) = f (lookup z j r).
Proof.
  intros Hz. induction r as [|p r IH]; [symmetry; exact Hz|]. simpl. rewrite !lookup_cons. simpl. destruct (fst p =? j); auto.
Qed.
End Map.

Section Bin.
Context {A : Type} (N : numops A) (isz : A -> bool) (op : A -> A -> A).
Notation z := (nzero N).

Fixpoint merge (r1 : list (nat * A)) : list (nat * A) -> list (nat * A) :=
  match r1 with
  | [] => map (fun p => (fst p, op z (snd p)))
  | (c1, x) :: r1' =>
    fix merge2 (r2 : list (nat * A)) : list (nat * A) :=
      match r2 with
      | [] => (c1, op x z) :: merge r1' []
      | (c2, y) :: r2' =>
        if c1 <? c2 then (c1, op x z) :: merge r1' r2
        else if c2 <? c1 then (c2, op z y) :: merge2 r2'
        else (c1, op x y) :: merge r1' r2'
      end
  end.
Definition nzrow (r : list (nat * A)) : list (nat * A) := filter (fun p => negb (isz (snd p))) r.

Lemma merge_nil_r c1 x r1 : merge ((c1, x) :: r1) [] = (c1, op x z) :: merge r1 [].
Proof. reflexivity. Qed.
Lemma merge_cons c1 x r1 c2 y r2 : merge ((c1, x) :: r1) ((c2, y) :: r2) =
  if c1 <? c2 then (c1, op x z) :: merge r1 ((c2, y) :: r2)
  else if c2 <? c1 then (c2, op z y) :: merge ((c1, x) :: r1) r2
  else (c1, op x y) :: merge r1 r2.
Proof. reflexivity. Qed.

Lemma merge_in r1 : forall r2 p, In p (merge r1 r2) -> exists q, (In q r1 \/ In q r2) /\ fst q = fst p.
Proof.
  induction r1 as [|[c1 x] r1 IH]; intros r2.
  - intros p Hp. simpl in Hp. apply in_map_iff in Hp. destruct Hp as (q & <- & Hq). exists q. auto.
  - induction r2 as [|[c2 y] r2 IH2]; intros p Hp.
    + rewrite merge_nil_r in Hp. destruct Hp as [<-|Hp]; [exists (c1, x); simpl; auto|].
      destruct (IH _ _ Hp) as (q & [Hq|Hq] & E); [exists q; simpl; auto|destruct Hq].
    + rewrite merge_cons in Hp. destruct (c1 <? c2); [|destruct (c2 <? c1)]; destruct Hp as [<-|Hp].
      * exists (c1, x); simpl; auto.
      * destruct (IH _ _ Hp) as (q & [Hq|Hq] & E); exists q; simpl in *; auto.
      * exists (c2, y); simpl; auto.
      * destruct (IH2 _ Hp) as (q & [Hq|Hq] & E); exists q; simpl in *; auto.
      * exists (c1, x); simpl; auto.
      * destruct (IH _ _ Hp) as (q & [Hq|Hq] & E); exists q; simpl in *; auto.
Qed.

Lemma good_cons c (p : nat * A) r : good_row c r -> fst p < c -> (forall q, In q r -> fst p < fst q) -> good_row c (p :: r).
Proof.
  intros [Hs Hb] Hp Hq. split.
  - simpl. constructor; auto. rewrite Forall_forall. intros k Hk. apply in_map_iff in Hk. destruct Hk as (q & <- & Hq'). auto.
  - intros q [<-|Hq']; auto.
Qed.

Lemma merge_good c r1 : good_row c r1 -> forall r2, good_row c r2 -> good_row c (merge r1 r2).
Proof.
  induction r1 as [|[c1 x] r1 IH]; intros H1 r2.
  - intros [Hs Hb]. simpl. split; [rewrite map_map; exact Hs|]. intros p Hp. apply in_map_iff in Hp. destruct Hp as (q & <- & Hq). simpl; auto.
  - destruct (sorted_in _ _ _ H1) as (Hg1 & Hc1 & Hlt1). simpl fst in *.
    induction r2 as [|[c2 y] r2 IH2]; intros H2.
    + rewrite merge_nil_r. apply good_cons; auto. intros q Hq. apply merge_in in Hq. destruct Hq as (q' & [Hq'|Hq'] & <-); [simpl; auto|destruct Hq'].
    + destruct (sorted_in _ _ _ H2) as (Hg2 & Hc2 & Hlt2). simpl fst in *. rewrite merge_cons.
      destruct (Nat.ltb_spec c1 c2); [|destruct (Nat.ltb_spec c2 c1)]; apply good_cons; auto; intros q Hq; apply merge_in in Hq; destruct Hq as (q' & [Hq'|Hq'] & <-); simpl.
      * apply Hlt1; auto.
      * destruct Hq' as [<-|Hq']; simpl; auto. specialize (Hlt2 _ Hq'). lia.
      * destruct Hq' as [<-|Hq']; simpl; auto. specialize (Hlt1 _ Hq'). lia.
      * apply Hlt2; auto.
      * apply Hlt1; auto.
      * specialize (Hlt2 _ Hq'). lia.
Qed.

Lemma merge_lookup (Hop : op z z = z) c r1 : good_row c r1 -> forall r2, good_row c r2 -> forall j,
  lookup z j (merge r1 r2) = op (lookup z j r1) (lookup z j r2).
Proof.
  induction r1 as [|[c1 x] r1 IH]; intros H1 r2.
  - intros H2 j. clear H1. induction r2 as [|p r2 IH2]; [symmetry; exact Hop|]. simpl. rewrite !lookup_cons. simpl.
    destruct (fst p =? j); auto. destruct (sorted_in _ _ _ H2) as (Hg2 & _). apply IH2; auto.
  - destruct (sorted_in _ _ _ H1) as (Hg1 & Hc1 & Hlt1). simpl fst in *.
    assert (Hout1 : lookup z c1 r1 = z) by (apply lookup_out; intros p Hp; specialize (Hlt1 _ Hp); lia).
    induction r2 as [|[c2 y] r2 IH2]; intros H2 j.
    + rewrite merge_nil_r, !lookup_cons. simpl. rewrite (IH Hg1 [] H2). destruct (c1 =? j); reflexivity.
    + destruct (sorted_in _ _ _ H2) as (Hg2 & Hc2 & Hlt2). simpl fst in *.
      assert (Hout2 : forall k, k <= c2 -> lookup z k r2 = z) by (intros k Hk; apply lookup_out; intros p Hp; specialize (Hlt2 _ Hp); lia).
      rewrite merge_cons. destruct (Nat.ltb_spec c1 c2); [|destruct (Nat.ltb_spec c2 c1)].
      * rewrite lookup_cons, (lookup_cons z j (c1, x) r1), (IH Hg1 _ H2). cbn [fst snd].
        destruct (Nat.eqb_spec c1 j); auto. subst j. rewrite lookup_cons. cbn [fst snd]. replace (c2 =? c1) with false by lia. rewrite Hout2 by lia. reflexivity.
      * rewrite lookup_cons, (lookup_cons z j (c2, y) r2), (IH2 Hg2). cbn [fst snd].
        destruct (Nat.eqb_spec c2 j); auto. subst j. rewrite lookup_cons. cbn [fst snd]. replace (c1 =? c2) with false by lia.
        rewrite lookup_out; auto. intros p Hp. specialize (Hlt1 _ Hp). lia.
      * assert (c2 = c1) by lia. subst c2. rewrite !lookup_cons, (IH Hg1 _ Hg2). cbn [fst snd]. destruct (c1 =? j); reflexivity.
Qed.

Lemma nzrow_good c r : good_row c r -> good_row c (nzrow r).
Proof.
  induction r as [|p r IH]; intros H; [exact H|]. destruct (sorted_in _ _ _ H) as (Hg & Hc & Hlt). simpl.
  destruct (negb (isz (snd p))); auto. apply good_cons; auto. intros q Hq. apply filter_In in Hq. apply Hlt, Hq.
Qed.
Lemma nzrow_lookup (Hisz : forall x, isz x = true <-> x = z) c r j : good_row c r -> lookup z j (nzrow r) = lookup z j r.
Proof.
  induction r as [|p r IH]; intros H; [reflexivity|]. destruct (sorted_in _ _ _ H) as (Hg & Hc & Hlt). simpl. rewrite lookup_cons.
  destruct (isz (snd p)) eqn:E; simpl.
  - rewrite IH by auto. destruct (Nat.eqb_spec (fst p) j); auto. subst j. apply Hisz in E. rewrite E.
    apply lookup_out. intros q Hq. specialize (Hlt _ Hq). lia.
  - rewrite lookup_cons, IH by auto. reflexivity.
Qed.
Lemma nzrow_nz (Hisz : forall x, isz x = true <-> x = z) r p : In p (nzrow r) -> snd p <> z.
Proof. intros H. apply filter_In in H. destruct H as [_ H]. intros E. apply Hisz in E. rewrite E in H. discriminate. Qed.
Lemma merge_length r1 : forall r2, length (merge r1 r2) <= length r1 + length r2.
Proof.
  induction r1 as [|[c1 x] r1 IH]; intros r2; [simpl; rewrite map_length; lia|].
  induction r2 as [|[c2 y] r2 IH2].
  - rewrite merge_nil_r. simpl. specialize (IH []). simpl in IH. lia.
  - rewrite merge_cons. destruct (c1 <? c2); [|destruct (c2 <? c1)]; simpl.
    + specialize (IH ((c2, y) :: r2)). simpl in *. lia.
    + simpl in *. lia.
    + specialize (IH r2). lia.
Qed.
Lemma filter_length_le {B} (f : B -> bool) l : length (filter f l) <= length l.
Proof. induction l as [|x l IH]; simpl; [lia|]. destruct (f x); simpl; lia. Qed.

(* ---- the loop ---- *)
Context (c : nat) (R1 R2 : list (list (nat * A))).
Notation m1 := (pack c R1).
Notation m2 := (pack c R2).
Definition seg (R : list (list (nat * A))) (p : nat) (s : list (nat * A)) : Prop :=
  forall t, t < length s -> nth_error (concat R) (p + t) = nth_error s t.
Lemma seg_cons R p x s : seg R p (x :: s) -> nth_error (concat R) p = Some x /\ seg R (S p) s.
Proof.
  intros H. split.
  - specialize (H 0 ltac:(simpl; lia)). rewrite Nat.add_0_r in H. exact H.
  - intros t Ht. specialize (H (S t) ltac:(simpl; lia)). replace (S p + t) with (p + S t) by lia. exact H.
Qed.
Lemma seg_row R k r : nth_error R k = Some r -> seg R (offs R k) r.
Proof. intros H t Ht. apply nth_concat; auto. Qed.

Definition bounded (s : list (nat * A)) : Prop := forall p, In p s -> fst p < c.

Lemma row_loop n : forall s1 s2, length s1 + length s2 <= n -> bounded s1 -> bounded s2 ->
  forall rows rs1 p1 rs2 p2 d col k rs r M L,
  seg R1 p1 s1 -> seg R2 p2 s2 -> buf M d (map snd L) -> buf M col (map fst L) -> k = length L ->
  length L + length s1 + length s2 <= M ->
  exists steps d' col' L', steps <= n /\ L' = L ++ nzrow (merge s1 s2) /\ buf M d' (map snd L') /\ buf M col' (map fst L') /\
    forall fuel, binop_loop N isz (steps + fuel) op m1 m2 (mkB rows rs1 p1 (length s1) rs2 p2 (length s2) d col k rs r) =
      binop_loop N isz fuel op m1 m2 (mkB rows rs1 (p1 + length s1) 0 rs2 (p2 + length s2) 0 d' col' (length L') rs r).
Proof.
  induction n as [|n IH]; intros s1 s2 Hn B1 B2 rows rs1 p1 rs2 p2 d col k rs r M L S1 S2 Bd Bc -> Hcap.
  { destruct s1; [|simpl in Hn; lia]. destruct s2; [|simpl in Hn; lia]. exists 0, d, col, L. simpl. rewrite app_nil_r, !Nat.add_0_r. auto. }
  destruct s1 as [|[c1 x] s1], s2 as [|[c2 y] s2].
  - exists 0, d, col, L. simpl. rewrite app_nil_r, !Nat.add_0_r. repeat split; auto; try apply Bd; try apply Bc; lia.
  - (* only the second *)
    destruct (seg_cons _ _ _ _ S2) as [Hy S2']. assert (Hc2 := B2 _ (or_introl eq_refl)). simpl in Hc2.
    assert (B2' : bounded s2) by (intros p Hp; apply B2; right; auto). simpl length in *.
    assert (Estep : forall fuel, binop_loop N isz (S fuel) op m1 m2 (mkB rows rs1 p1 0 rs2 p2 (S (length s2)) d col (length L) rs r) =
      if isz (op z y) then binop_loop N isz fuel op m1 m2 (mkB rows rs1 p1 0 rs2 (S p2) (length s2) d col (length L) rs r)
      else d' <- wr d (length L) (op z y) ;; col' <- wr col (length L) c2 ;;
           binop_loop N isz fuel op m1 m2 (mkB rows rs1 p1 0 rs2 (S p2) (length s2) d' col' (S (length L)) rs r)).
    { intros fuel. cbn [binop_loop]. unfold binop_step. cbn [b_l1 b_l2 b_p1 b_p2 b_rows b_rs1 b_rs2 b_data b_col b_k b_rs b_r Nat.eqb].
      rewrite (rd_col c R2 _ _ _ Hy). cbn [bind]. replace (scols m1) with c by reflexivity.
      replace (c <? c2) with false by lia. replace (c2 <? c) with true by lia. rewrite (rd_dt c R2 _ _ _ Hy). cbn [bind].
      rewrite Nat.sub_succ, Nat.sub_0_r. destruct (isz (op z y)); [reflexivity|]. destruct (wr d (length L) (op z y)); cbn [bind]; auto.
      destruct (wr col (length L) c2); cbn [bind]; auto. }
    destruct (isz (op z y)) eqn:Ez.
    + destruct (IH [] s2 ltac:(simpl; lia) B1 B2' rows rs1 p1 rs2 (S p2) d col (length L) rs r M L) as (st & d' & col' & L' & Hst & HL & Hd & Hcl & He); auto; [simpl; lia|].
      exists (S st), d', col', L'. split; [lia|]. split; [rewrite HL; simpl; rewrite Ez; reflexivity|]. split; [auto|]. split; [auto|].
      intros fuel. replace (S st + fuel) with (S (st + fuel)) by lia. rewrite Estep. simpl length in He. rewrite (He fuel). simpl length. do 2 f_equal. lia.
    + destruct (buf_push M d _ (op z y) Bd) as [Ed Bd']; [rewrite map_length; lia|]. destruct (buf_push M col _ c2 Bc) as [Ec Bc']; [rewrite map_length; lia|].
      rewrite map_length in Ed, Ec, Bd', Bc'.
      destruct (IH [] s2 ltac:(simpl; lia) B1 B2' rows rs1 p1 rs2 (S p2) (upd d (length L) (op z y)) (upd col (length L) c2) (S (length L)) rs r M (L ++ [(c2, op z y)]))
        as (st & d' & col' & L' & Hst & HL & Hd & Hcl & He); auto.
      { rewrite map_app. exact Bd'. } { rewrite map_app. exact Bc'. } { rewrite app_length. simpl. lia. } { rewrite app_length. simpl. lia. }
      exists (S st), d', col', L'. split; [lia|]. split; [rewrite HL, <- app_assoc; simpl; rewrite Ez; reflexivity|]. split; [auto|]. split; [auto|].
      intros fuel. replace (S st + fuel) with (S (st + fuel)) by lia. rewrite Estep, Ed. cbn [bind]. rewrite Ec. cbn [bind].
      simpl length in He; rewrite (He fuel). simpl length. do 2 f_equal. lia.
  - (* only the first *)
    destruct (seg_cons _ _ _ _ S1) as [Hx S1']. assert (Hc1 := B1 _ (or_introl eq_refl)). simpl in Hc1.
    assert (B1' : bounded s1) by (intros p Hp; apply B1; right; auto). simpl length in *.
    assert (Estep : forall fuel, binop_loop N isz (S fuel) op m1 m2 (mkB rows rs1 p1 (S (length s1)) rs2 p2 0 d col (length L) rs r) =
      if isz (op x z) then binop_loop N isz fuel op m1 m2 (mkB rows rs1 (S p1) (length s1) rs2 p2 0 d col (length L) rs r)
      else d' <- wr d (length L) (op x z) ;; col' <- wr col (length L) c1 ;;
           binop_loop N isz fuel op m1 m2 (mkB rows rs1 (S p1) (length s1) rs2 p2 0 d' col' (S (length L)) rs r)).
    { intros fuel. cbn [binop_loop]. unfold binop_step. cbn [b_l1 b_l2 b_p1 b_p2 b_rows b_rs1 b_rs2 b_data b_col b_k b_rs b_r Nat.eqb].
      rewrite (rd_col c R1 _ _ _ Hx). cbn [bind]. replace (scols m1) with c by reflexivity.
      replace (c1 <? c) with true by lia. rewrite (rd_dt c R1 _ _ _ Hx). cbn [bind].
      rewrite Nat.sub_succ, Nat.sub_0_r. destruct (isz (op x z)); [reflexivity|]. destruct (wr d (length L) (op x z)); cbn [bind]; auto.
      destruct (wr col (length L) c1); cbn [bind]; auto. }
    destruct (isz (op x z)) eqn:Ez.
    + destruct (IH s1 [] ltac:(simpl; lia) B1' B2 rows rs1 (S p1) rs2 p2 d col (length L) rs r M L) as (st & d' & col' & L' & Hst & HL & Hd & Hcl & He); auto; [simpl; lia|].
      exists (S st), d', col', L'. split; [lia|]. split; [rewrite HL, merge_nil_r; simpl; rewrite Ez; reflexivity|]. split; [auto|]. split; [auto|].
      intros fuel. replace (S st + fuel) with (S (st + fuel)) by lia. rewrite Estep. simpl length in He. rewrite (He fuel). simpl length. do 2 f_equal. lia.
    + destruct (buf_push M d _ (op x z) Bd) as [Ed Bd']; [rewrite map_length; lia|]. destruct (buf_push M col _ c1 Bc) as [Ec Bc']; [rewrite map_length; lia|].
      rewrite map_length in Ed, Ec, Bd', Bc'.
      destruct (IH s1 [] ltac:(simpl; lia) B1' B2 rows rs1 (S p1) rs2 p2 (upd d (length L) (op x z)) (upd col (length L) c1) (S (length L)) rs r M (L ++ [(c1, op x z)]))
        as (st & d' & col' & L' & Hst & HL & Hd & Hcl & He); auto.
      { rewrite map_app. exact Bd'. } { rewrite map_app. exact Bc'. } { rewrite app_length. simpl. lia. } { rewrite app_length. simpl. lia. }
      exists (S st), d', col', L'. split; [lia|]. split; [rewrite HL, <- app_assoc, merge_nil_r; simpl; rewrite Ez; reflexivity|]. split; [auto|]. split; [auto|].
      intros fuel. replace (S st + fuel) with (S (st + fuel)) by lia. rewrite Estep, Ed. cbn [bind]. rewrite Ec. cbn [bind].
      simpl length in He; rewrite (He fuel). simpl length. do 2 f_equal. lia.
  - (* both *)
    destruct (seg_cons _ _ _ _ S1) as [Hx S1']. assert (Hc1 := B1 _ (or_introl eq_refl)). simpl in Hc1.
    destruct (seg_cons _ _ _ _ S2) as [Hy S2']. assert (Hc2 := B2 _ (or_introl eq_refl)). simpl in Hc2.
    assert (B1' : bounded s1) by (intros p Hp; apply B1; right; auto).
    assert (B2' : bounded s2) by (intros p Hp; apply B2; right; auto). simpl length in *.
    set (v := if c1 <? c2 then op x z else if c2 <? c1 then op z y else op x y).
    set (cc := if c1 <? c2 then c1 else if c2 <? c1 then c2 else c1).
    set (t1 := if c1 <? c2 then s1 else if c2 <? c1 then (c1, x) :: s1 else s1).
    set (t2 := if c1 <? c2 then (c2, y) :: s2 else if c2 <? c1 then s2 else s2).
    set (q1 := if c1 <? c2 then S p1 else if c2 <? c1 then p1 else S p1).
    set (q2 := if c1 <? c2 then p2 else if c2 <? c1 then S p2 else S p2).
    assert (Hm : merge ((c1, x) :: s1) ((c2, y) :: s2) = (cc, v) :: merge t1 t2).
    { rewrite merge_cons. unfold v, cc, t1, t2. destruct (c1 <? c2); [reflexivity|]. destruct (c2 <? c1); reflexivity. }
    assert (Hs : bounded t1 /\ bounded t2 /\ seg R1 q1 t1 /\ seg R2 q2 t2 /\ q1 + length t1 = p1 + S (length s1) /\ q2 + length t2 = p2 + S (length s2) /\
       S (length t1 + length t2) <= S (length s1) + S (length s2)).
    { unfold t1, t2, q1, q2. destruct (c1 <? c2); [|destruct (c2 <? c1)]; simpl length; repeat split; auto; lia. }
    destruct Hs as (T1 & T2 & G1 & G2 & Q1 & Q2 & Hlen).
    assert (Estep : forall fuel, binop_loop N isz (S fuel) op m1 m2 (mkB rows rs1 p1 (S (length s1)) rs2 p2 (S (length s2)) d col (length L) rs r) =
      if isz v then binop_loop N isz fuel op m1 m2 (mkB rows rs1 q1 (length t1) rs2 q2 (length t2) d col (length L) rs r)
      else d' <- wr d (length L) v ;; col' <- wr col (length L) cc ;;
           binop_loop N isz fuel op m1 m2 (mkB rows rs1 q1 (length t1) rs2 q2 (length t2) d' col' (S (length L)) rs r)).
    { intros fuel. cbn [binop_loop]. unfold binop_step. cbn [b_l1 b_l2 b_p1 b_p2 b_rows b_rs1 b_rs2 b_data b_col b_k b_rs b_r Nat.eqb].
      rewrite (rd_col c R1 _ _ _ Hx), (rd_col c R2 _ _ _ Hy). cbn [bind]. replace (scols m1) with c by reflexivity.
      rewrite (rd_dt c R1 _ _ _ Hx), (rd_dt c R2 _ _ _ Hy). cbn [bind]. rewrite !Nat.sub_succ, !Nat.sub_0_r.
      unfold v, cc, t1, t2, q1, q2.
      destruct (c1 <? c2) eqn:E12; [|destruct (c2 <? c1) eqn:E21; [|replace (c2 <? c) with true by lia]];
        (match goal with |- context [isz ?w] => destruct (isz w) end; [reflexivity|];
         match goal with |- context [wr d ?a ?b] => destruct (wr d a b) end; cbn [bind]; auto;
         match goal with |- context [wr col ?a ?b] => destruct (wr col a b) end; cbn [bind]; auto). }
    destruct (isz v) eqn:Ez.
    + destruct (IH t1 t2 ltac:(lia) T1 T2 rows rs1 q1 rs2 q2 d col (length L) rs r M L) as (st & d' & col' & L' & Hst & HL & Hd & Hcl & He); auto; [lia|].
      exists (S st), d', col', L'. split; [lia|]. split; [rewrite HL, Hm; simpl; rewrite Ez; reflexivity|]. split; [auto|]. split; [auto|].
      intros fuel. replace (S st + fuel) with (S (st + fuel)) by lia. rewrite Estep. simpl length in He. rewrite (He fuel), Q1, Q2. reflexivity.
    + destruct (buf_push M d _ v Bd) as [Ed Bd']; [rewrite map_length; lia|]. destruct (buf_push M col _ cc Bc) as [Ec Bc']; [rewrite map_length; lia|].
      rewrite map_length in Ed, Ec, Bd', Bc'.
      destruct (IH t1 t2 ltac:(lia) T1 T2 rows rs1 q1 rs2 q2 (upd d (length L) v) (upd col (length L) cc) (S (length L)) rs r M (L ++ [(cc, v)]))
        as (st & d' & col' & L' & Hst & HL & Hd & Hcl & He); auto.
      { rewrite map_app. exact Bd'. } { rewrite map_app. exact Bc'. } { rewrite app_length. simpl. lia. } { rewrite app_length. simpl. lia. }
      exists (S st), d', col', L'. split; [lia|]. split; [rewrite HL, <- app_assoc, Hm; simpl; rewrite Ez; reflexivity|]. split; [auto|]. split; [auto|].
      intros fuel. replace (S st + fuel) with (S (st + fuel)) by lia. rewrite Estep, Ed. cbn [bind]. rewrite Ec. cbn [bind].
      simpl length in He; rewrite (He fuel), Q1, Q2. reflexivity.
Qed.

Definition brow (i : nat) : list (nat * A) := nzrow (merge (nth i R1 []) (nth i R2 [])).
Definition brows (n : nat) : list (list (nat * A)) := map brow (seq 0 n).

Lemma brows_S n : brows (S n) = brows n ++ [brow n].
Proof. unfold brows. rewrite seq_S, map_app. reflexivity. Qed.
Lemma offs_brows n k : k <= n -> offs (brows n) k = length (concat (brows k)).
Proof. intros H. unfold offs, brows. rewrite firstn_map_seq by auto. reflexivity. Qed.

Lemma brows_cap k : k <= length R1 -> k <= length R2 -> length (concat (brows k)) <= offs R1 k + offs R2 k.
Proof.
  induction k as [|k IH]; intros H1 H2; [simpl; lia|]. rewrite brows_S, concat_app, app_length. simpl. rewrite app_nil_r.
  destruct (nth_error_lt R1 k H1) as [r1 Hr1], (nth_error_lt R2 k H2) as [r2 Hr2].
  rewrite (offs_S _ _ _ Hr1), (offs_S _ _ _ Hr2). unfold brow. rewrite (nth_error_nth _ _ _ Hr1), (nth_error_nth _ _ _ Hr2).
  unfold nzrow. match goal with |- context [length (filter ?f ?l)] => assert (Hl := filter_length_le f l) end.
  assert (Hm := merge_length r1 r2). specialize (IH ltac:(lia) ltac:(lia)). lia.
Qed.

Lemma rows_loop R M : length R1 = R -> length R2 = R -> good c R1 -> good c R2 -> M = length (concat R1) + length (concat R2) ->
  forall n i d col rs, i + S n = R -> 
  buf M d (map snd (concat (brows i))) -> buf M col (map fst (concat (brows i))) ->
  buf (R + 1) rs (map (offs (brows R)) (seq 0 (S i))) ->
  exists steps st', (forall fuel, binop_loop N isz (steps + fuel) op m1 m2
     (mkB (S n) (S i) (offs R1 i) (length (nth i R1 [])) (S i) (offs R2 i) (length (nth i R2 [])) d col (length (concat (brows i))) rs i) = Ok st') /\
   b_k st' = length (concat (brows R)) /\ firstn (b_k st') (b_data st') = map snd (concat (brows R)) /\
   firstn (b_k st') (b_col st') = map fst (concat (brows R)) /\ b_rs st' = map (offs (brows R)) (seq 0 (S R)).
Proof.
  intros HR1 HR2 G1 G2 HM. induction n as [|n IH]; intros i d col rs Hi Bd Bc Brs;
    (destruct (nth_error_lt R1 i ltac:(lia)) as [r1 Hr1]; destruct (nth_error_lt R2 i ltac:(lia)) as [r2 Hr2];
     rewrite (nth_error_nth _ _ _ Hr1), (nth_error_nth _ _ _ Hr2);
     assert (Gr1 : good_row c r1) by (unfold good in G1; rewrite Forall_forall in G1; apply G1; eapply nth_error_In; eauto);
     assert (Gr2 : good_row c r2) by (unfold good in G2; rewrite Forall_forall in G2; apply G2; eapply nth_error_In; eauto);
     assert (Hcap := brows_cap i ltac:(lia) ltac:(lia)); assert (Ho1 := offs_le _ _ _ Hr1); assert (Ho2 := offs_le _ _ _ Hr2)).
  - destruct (row_loop (length r1 + length r2) r1 r2 (le_n _) (proj2 Gr1) (proj2 Gr2) 1 (S i) (offs R1 i) (S i) (offs R2 i) d col
      (length (concat (brows i))) rs i M (concat (brows i)) (seg_row _ _ _ Hr1) (seg_row _ _ _ Hr2) Bd Bc eq_refl ltac:(lia))
      as (st & d' & col' & L' & Hst & HL & Hd & Hcl & He).
    assert (HL' : L' = concat (brows (S i))).
    { rewrite HL, brows_S, concat_app. simpl. rewrite app_nil_r. unfold brow. rewrite (nth_error_nth _ _ _ Hr1), (nth_error_nth _ _ _ Hr2). reflexivity. }
    destruct (buf_push _ rs _ (length L') Brs) as [Ers Brs']; [rewrite map_length, seq_length; lia|]. rewrite map_length, seq_length in Ers, Brs'.
    eexists (st + 1), _. split.
    + intros fuel. replace (st + 1 + fuel) with (st + S fuel) by lia. rewrite He. cbn [binop_loop]. unfold binop_step.
      cbn [b_l1 b_l2 b_p1 b_p2 b_rows b_rs1 b_rs2 b_data b_col b_k b_rs b_r Nat.eqb bind].
      replace (scols m1) with c by reflexivity. rewrite !Nat.ltb_irrefl. rewrite Ers. cbn [bind Nat.sub Nat.eqb]. reflexivity.
    + cbn [b_k b_data b_col b_rs]. assert (HRi : R = S i) by lia. rewrite HRi, <- HL'.
      destruct Hd as [_ Hd], Hcl as [_ Hcl]. rewrite map_length in Hd, Hcl. split; [auto|]. split; [auto|]. split; [auto|].
      apply (buf_full (R + 1)); [|rewrite map_length, seq_length; lia].
      apply (buf_eq _ _ _ _ Brs'). rewrite HRi, (seq_S (S i)), map_app. cbn [map].
      rewrite (offs_brows (S i) (0 + S i)) by lia. rewrite Nat.add_0_l, HL'. reflexivity.
  - destruct (row_loop (length r1 + length r2) r1 r2 (le_n _) (proj2 Gr1) (proj2 Gr2) (S (S n)) (S i) (offs R1 i) (S i) (offs R2 i) d col
      (length (concat (brows i))) rs i M (concat (brows i)) (seg_row _ _ _ Hr1) (seg_row _ _ _ Hr2) Bd Bc eq_refl ltac:(lia))
      as (st & d' & col' & L' & Hst & HL & Hd & Hcl & He).
    assert (HL' : L' = concat (brows (S i))).
    { rewrite HL, brows_S, concat_app. simpl. rewrite app_nil_r. unfold brow. rewrite (nth_error_nth _ _ _ Hr1), (nth_error_nth _ _ _ Hr2). reflexivity. }
    clear HL. subst L'.
    destruct (buf_push _ rs _ (length (concat (brows (S i)))) Brs) as [Ers Brs']; [rewrite map_length, seq_length; lia|]. rewrite map_length, seq_length in Ers, Brs'.
    destruct (nth_error_lt R1 (S i) ltac:(lia)) as [r1' Hr1']; destruct (nth_error_lt R2 (S i) ltac:(lia)) as [r2' Hr2'].
    destruct (IH (S i) d' col' (upd rs (S i) (length (concat (brows (S i)))))) as (st2 & st' & Hs2 & Hrest); auto; [lia| |].
    { apply (buf_eq _ _ _ _ Brs'). rewrite (seq_S (S i)), map_app. cbn [map].
      rewrite Nat.add_0_l, (offs_brows R) by lia. reflexivity. }
    exists (st + S st2), st'. split; [|exact Hrest].
    intros fuel. replace (st + S st2 + fuel) with (st + S (st2 + fuel)) by lia. rewrite He. cbn [binop_loop]. unfold binop_step.
    cbn [b_l1 b_l2 b_p1 b_p2 b_rows b_rs1 b_rs2 b_data b_col b_k b_rs b_r Nat.eqb bind].
    replace (scols m1) with c by reflexivity. rewrite !Nat.ltb_irrefl. rewrite Ers. cbn [bind Nat.sub Nat.eqb].
    rewrite (span_pack c R1 (S i) r1' Hr1'), (span_pack c R2 (S i) r2' Hr2'). cbn [bind].
    rewrite (nth_error_nth _ _ _ Hr1'), (nth_error_nth _ _ _ Hr2') in Hs2.
    rewrite <- (offs_S _ _ _ Hr1), <- (offs_S _ _ _ Hr2). apply Hs2.
Qed.

Lemma brows_good n : good c R1 -> good c R2 -> good c (brows n).
Proof.
  unfold good. rewrite !Forall_forall. intros G1 G2 r Hr. apply in_map_iff in Hr. destruct Hr as (i & <- & Hi). unfold brow.
  assert (Hn : forall R0 : list (list (nat * A)), (forall x, In x R0 -> good_row c x) -> good_row c (nth i R0 [])).
  { intros R0 H0. destruct (nth_in_or_default i R0 []) as [H|H]; [auto|]. rewrite H. apply good_row_nil. }
  apply nzrow_good, merge_good; auto.
Qed.
End Bin.

Section Empty.
Context {A : Type}.
Lemma concat_repeat_nil {B} n : concat (repeat (@nil B) n) = [].
Proof. induction n; simpl; auto. Qed.
Lemma offs_repeat_nil {B} n k : offs (repeat (@nil (nat * B)) n) k = 0.
Proof.
  unfold offs. replace (concat (firstn k (repeat [] n))) with (@nil (nat * B)); [reflexivity|].
  revert k. induction n as [|n IH]; intros k; destruct k; simpl; auto.
Qed.
Lemma pack_empty (B : Type) c n : pack c (repeat (@nil (nat * B)) n) = mkS n c (repeat 0 (n + 1)) [] [].
Proof.
  unfold pack. rewrite concat_repeat_nil, repeat_length. cbn [map]. f_equal.
  apply list_eq_nth_len; [rewrite map_length, seq_length, repeat_length; lia|].
  rewrite map_length, seq_length. intros i Hi. rewrite nth_error_map_seq by auto. rewrite offs_repeat_nil, nth_error_repeat by lia. reflexivity.
Qed.
Lemma good0_nil (rws : list (list (nat * A))) : good 0 rws -> rws = repeat [] (length rws).
Proof.
  unfold good. induction rws as [|r rws IH]; intros H; [reflexivity|]. inversion H; subst. simpl. f_equal; auto.
  destruct r as [|p r]; auto. destruct H2 as [_ H2]. specialize (H2 p (or_introl eq_refl)). lia.
Qed.
End Empty.

Section Bin2.
Context {A : Type} (N : numops A) (isz : A -> bool).

Lemma binop_ok jrs jcol jdata op c (R1 R2 : list (list (nat * A))) : length R1 = length R2 -> good c R1 -> good c R2 ->
  exists F, forall fuel, F <= fuel ->
    sparse_binop N isz fuel jrs jcol jdata op (pack c R1) (pack c R2) = Ok (pack c (brows N isz op R1 R2 (length R1))).
Proof.
  intros Hl G1 G2. set (R := length R1). unfold sparse_binop.
  replace (srows (pack c R1)) with R by reflexivity. replace (srows (pack c R2)) with R by (symmetry; exact (eq_sym Hl) || exact Hl).
  replace (scols (pack c R1)) with c by reflexivity. replace (scols (pack c R2)) with c by reflexivity.
  rewrite !Nat.eqb_refl. cbn [andb assert_ bind].
  destruct ((R =? 0) || (c =? 0)) eqn:E0.
  { exists 0. intros fuel _. unfold new_sparse, safe_size. cbn [Nat.ltb Nat.leb].
    assert (Hb : brows N isz op R1 R2 R = repeat [] R).
    { destruct (Nat.eqb_spec R 0) as [HR|HR]; [rewrite HR; reflexivity|]. assert (c = 0) by lia. subst c.
      unfold brows. apply list_eq_nth_len; [rewrite map_length, seq_length, repeat_length; reflexivity|].
      rewrite map_length, seq_length. intros i Hi. rewrite nth_error_map_seq, nth_error_repeat by auto. unfold brow.
      apply good0_nil in G1, G2. rewrite G1, G2. rewrite !nth_repeat. reflexivity. }
    rewrite Hb, pack_empty, E0. reflexivity. }
  destruct (nth_error_lt R1 0 ltac:(fold R; lia)) as [r1 Hr1], (nth_error_lt R2 0 ltac:(rewrite <- Hl; fold R; lia)) as [r2 Hr2].
  rewrite (span_pack c R1 0 r1 Hr1), (span_pack c R2 0 r2 Hr2). cbn [bind].
  destruct (pack_nnz c R1) as [_ E1], (pack_nnz c R2) as [_ E2]. rewrite E1, E2. set (M := length (concat R1) + length (concat R2)).
  assert (Hal : forall B (j : nat -> B) n, length (alloc j n) = n) by (intros; unfold alloc; rewrite map_length, seq_length; auto).
  destruct (buf_push (R + 1) (alloc jrs (R + 1)) [] 0 (buf_nil _ _ (Hal _ _ _))) as [Ew Bw]; [simpl; lia|]. simpl length in Ew, Bw. rewrite Ew. cbn [bind].
  destruct (rows_loop N isz op c R1 R2 R M) with (n := R - 1) (i := 0) (d := alloc jdata M) (col := alloc jcol M) (rs := upd (alloc jrs (R + 1)) 0 0)
    as (st & st' & Hst & Hk & Hd & Hc & Hrs); auto; try lia.
  { apply buf_nil, Hal. } { apply buf_nil, Hal. }
  exists st. intros fuel Hf. replace fuel with (st + (fuel - st)) by lia.
  rewrite (nth_error_nth _ _ _ Hr1), (nth_error_nth _ _ _ Hr2), !offs_0 in Hst. simpl concat in Hst. simpl length in Hst.
  replace (S (R - 1)) with R in Hst by lia. specialize (Hst (fuel - st)). simpl length in Hst. rewrite Hst. cbn [bind].
  unfold from_parts. rewrite Hrs, map_length, seq_length. replace (S R =? R + 1) with true by lia. cbn [assert_ bind].
  rewrite Hc, Hd. unfold pack. do 2 f_equal.
  - unfold brows. rewrite map_length, seq_length. reflexivity.
  - unfold brows. rewrite map_length, seq_length. reflexivity.
Qed.

Lemma brows_entry op R1 R2 c n i j (Hisz : forall x, isz x = true <-> x = nzero N) (Hop : op (nzero N) (nzero N) = nzero N) :
  good c R1 -> good c R2 -> i < n ->
  entry (nzero N) (pack c (brows N isz op R1 R2 n)) i j = op (lookup (nzero N) j (nth i R1 [])) (lookup (nzero N) j (nth i R2 [])).
Proof.
  intros G1 G2 Hi. rewrite (entry_pack (nzero N) c (brows N isz op R1 R2 n) i j (brow N isz op R1 R2 i)).
  2: { unfold brows. rewrite nth_error_map_seq by auto. reflexivity. }
  assert (Hn : forall R0 : list (list (nat * A)), good c R0 -> good_row c (nth i R0 [])).
  { intros R0 H0. unfold good in H0. rewrite Forall_forall in H0. destruct (nth_in_or_default i R0 []) as [H|H]; [auto|]. rewrite H. apply good_row_nil. }
  unfold brow. rewrite (nzrow_lookup N isz Hisz c) by (apply merge_good; auto). apply (merge_lookup N isz op Hop c); auto.
Qed.
End Bin2.

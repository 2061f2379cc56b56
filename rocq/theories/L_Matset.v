(* Lemmas for P_Matset. *)
From Verif Require Import Base Spec S_Reduce S_Sdf S_Pysdf S_Matsdf S_Matset M_Sdf L_Sdf L_Sdf2 M_Pysdf L_Pysdf M_Matsdf L_Matsdf P_Matsdf M_Matset.
Import S_Matsdf.
Local Open Scope Z_scope.

Lemma wanted_app avoid a b : wanted avoid (a ++ b) = wanted avoid a ++ wanted avoid b.
Proof. apply filter_app. Qed.
Lemma values_wanted avoid rs name : values_of (wanted avoid rs) name = if among avoid name then [] else values_of rs name.
Proof.
  unfold values_of, wanted. induction rs as [|[n v] rs IH]; [destruct (among avoid name); reflexivity|]. cbn [filter fst].
  destruct (among avoid n) eqn:A; cbn [negb filter fst].
  - rewrite IH. destruct (list_eq_dec Z.eq_dec n name) as [->|]; [rewrite A|]; reflexivity.
  - destruct (list_eq_dec Z.eq_dec n name) as [->|]; cbn [map]; rewrite IH; [rewrite A|]; reflexivity.
Qed.
Lemma elements_not_empty v : ok_value v -> mat_value v -> ~ no_elements v -> mempty (matlab_of double_bits [v]) = false.
Proof.
  intros H1 H2 Hv. unfold mempty. rewrite msize_of. destruct v as [v|v|w|re im|t|t|l|l]; cbn [no_elements] in Hv; try tauto; try reflexivity;
    cbn [shape_of length]; cbn [ok_value mat_value] in *; destruct (elements_dims _ t H1 H2 Hv); apply stack_pos; auto.
Qed.
Lemma no_elements_empty v : ok_value v -> mat_value v -> no_elements v -> mempty (matlab_of double_bits [v]) = true.
Proof.
  intros H1 H2 Hv. unfold mempty. rewrite msize_of.
  assert (G : forall E (Pe : E -> Prop) (t : stored E), ok_tensor Pe t -> mat_shape t -> selts t = [] -> existsb (fun d => d =? 0)%nat (stack_dims (map Z.to_nat (sdims t)) 1) = true).
  { clear. intros E Pe t (_ & _ & Sz & _) (Sh & _) Ne. rewrite Ne in Sz. cbn [length] in Sz. unfold size_of in Sz.
    assert (Z0 : sdims t = [] \/ In 0 (sdims t)).
    { destruct (sdims t) as [|d ds] eqn:Ed; [left; reflexivity|right]. rewrite <- Ed in *. assert (P : fold_right Z.mul 1 (sdims t) = 0).
      { rewrite nonneg_exists in Sz by auto. destruct (sdims t); [discriminate|]. cbn [fold_right] in *. lia. }
      clear Sz Ed Ne. induction Sh as [|x l Hx H IH]; [discriminate|]. cbn [fold_right] in P. apply Z.mul_eq_0 in P as [->|P]; [left; reflexivity|right; auto]. }
    destruct Z0 as [->|Z0]; [reflexivity|]. apply (in_map Z.to_nat) in Z0. change (Z.to_nat 0) with 0%nat in Z0. set (l := map Z.to_nat (sdims t)) in *. clearbody l. clear - Z0.
    destruct l as [|a [|b l]]; [destruct Z0|destruct Z0 as [->|[]]; reflexivity|].
    assert (I : In 0%nat (strip (a :: b :: l))).
    { unfold strip. destruct Z0 as [->|[->|Z0]]; [left; auto|right; left; auto|]. right; right. revert Z0. clear. induction l as [|d l IH]; [intros []|]. cbn [strip_ones].
      intros [->|H]; [destruct (strip_ones l); left; reflexivity|]. destruct (strip_ones l); [destruct (IH H)|right; auto]. }
    assert (X : stack_dims (a :: b :: l) 1 = [0; 0]%nat \/ stack_dims (a :: b :: l) 1 = strip (a :: b :: l)).
    { unfold stack_dims. destruct a as [|[|a]]; (destruct (list_eq_dec Nat.eq_dec _ _); [left; reflexivity|right; apply strip_one; cbn; lia]). }
    destruct X as [->| ->]; [reflexivity|]. apply existsb_exists. exists 0%nat. auto. }
  destruct v as [v|v|w|re im|t|t|l|l]; cbn [no_elements] in Hv; try tauto; try reflexivity; cbn [shape_of length]; cbn [ok_value mat_value] in *; eapply G; eauto.
Qed.

Lemma wanted_one avoid r : wanted avoid [r] = if among avoid (fst r) then [] else [r].
Proof. unfold wanted. cbn. destruct (among avoid (fst r)); reflexivity. Qed.
(* what set_loop does with one record *)
Definition step depth (avoid : list (list Z)) fuel d r (s : mst) : outcome (globals * mst) :=
  if among avoid (fst r) then if mempty (matlab_of double_bits [snd r]) then Ok ((d, avoid), s) else set_loop depth fuel (d, avoid) s
  else g <- set_store (d, avoid) (fst r) (read_dims (snd r)) (matlab_of double_bits [snd r]) ;; set_loop depth fuel g s.
Lemma step_ok depth avoid fuel d r b : mat_record r ->
  set_loop (S (S depth)) (S fuel) (d, avoid) (M (concat (dump (snd r) (fst r)) ++ b)) = step (S (S depth)) avoid fuel d r (M b).
Proof.
  intros (g1 & (g2 & g3) & g4 & g5). cbn [set_loop at_eof]. rewrite record_ok by (auto; split; auto). cbn [bind snd]. unfold step.
  change (existsb _ avoid) with (among avoid (fst r)). destruct (among avoid (fst r)); [reflexivity|].
  destruct (nonempty_name _ g2) as (c & cs & En). rewrite En at 1. reflexivity.
Qed.
Lemma step_first depth avoid fuel d r b k e : mat_record r ->
  set_loop (S (S depth)) (S fuel) (d, avoid) (mkM (header ++ concat (dump (snd r) (fst r)) ++ b) k e false) = step (S (S depth)) avoid fuel d r (M b).
Proof.
  intros H. rewrite <- step_ok by auto. destruct H as (g1 & (g2 & g3) & g4 & g5). cbn [set_loop at_eof]. rewrite record_ok, record_first by (auto; split; auto). reflexivity.
Qed.
Lemma records_cons r rs : records (r :: rs) = concat (dump (snd r) (fst r)) ++ records rs.
Proof. unfold records. cbn [flat_map]. rewrite concat_app. reflexivity. Qed.
Definition readable (avoid : list (list Z)) (r : list Z * value) : Prop := mat_record r /\ (among avoid (fst r) = true -> ~ no_elements (snd r)).
Lemma set_loop_ok depth avoid rest : forall rs d fuel tail, holds d (wanted avoid rs) -> Forall mat_record (wanted avoid rs) -> Forall (readable avoid) rest -> consistent (wanted avoid (rs ++ rest)) ->
  exists d', holds d' (wanted avoid (rs ++ rest)) /\
  set_loop (S (S depth)) (length rest + fuel) (d, avoid) (M (records rest ++ tail)) = set_loop (S (S depth)) fuel (d', avoid) (M tail).
Proof.
  induction rest as [|r rest IH]; intros rs d fuel tail Hd Ho G C.
  - rewrite app_nil_r in *. exists d. split; auto.
  - inversion G as [|? ? [Gr Ge] Gs]; subst. rewrite records_cons, <- app_assoc. cbn [length Nat.add]. rewrite step_ok by auto. unfold step.
    replace (rs ++ r :: rest) with ((rs ++ [r]) ++ rest) in * by (rewrite <- app_assoc; reflexivity).
    destruct (among avoid (fst r)) eqn:A.
    + assert (K : wanted avoid (rs ++ [r]) = wanted avoid rs) by (rewrite wanted_app, wanted_one, A; apply app_nil_r).
      destruct (IH (rs ++ [r]) d fuel tail) as (d' & Hd' & E'); [rewrite K; auto|rewrite K; auto|auto|auto|]. exists d'. split; [exact Hd'|].
      destruct Gr as (_ & _ & g4 & g5). rewrite elements_not_empty by auto. exact E'.
    + assert (K : wanted avoid (rs ++ [r]) = wanted avoid rs ++ [r]) by (rewrite wanted_app, wanted_one, A; reflexivity).
      assert (Fr : Forall mat_record (wanted avoid rest)).
      { apply Forall_forall. intros x Hx. apply filter_In in Hx as [Hx _]. rewrite Forall_forall in Gs. apply Gs, Hx. }
      destruct (store_ok d (wanted avoid rs) r (wanted avoid rest) Hd) as (d1 & E1 & Hd1).
      { apply Forall_app. split; auto. }
      { rewrite wanted_app, K, <- app_assoc in C. exact C. }
      destruct (IH (rs ++ [r]) d1 fuel tail) as (d' & Hd' & E'); [rewrite K; auto|rewrite K; apply Forall_app; auto|auto|auto|]. exists d'. split; [exact Hd'|].
      unfold set_store. cbn [fst snd]. rewrite E1. cbn [bind]. exact E'.
Qed.
Lemma set_loop_end depth fuel g k e : exists s, set_loop (S depth) (S fuel) g (mkM [] k e false) = Ok (g, s).
Proof. destruct g as [d avoid]. cbn [set_loop at_eof]. cbn [mat_record_load mat_tag bind]. eexists. cbn. destruct (existsb _ avoid); reflexivity. Qed.
Lemma set_loop_header depth fuel g k e : exists s, set_loop (S depth) (S fuel) g (mkM header k e false) = Ok (g, s).
Proof. destruct g as [d avoid]. eexists. cbn. destruct (existsb _ avoid); reflexivity. Qed.
(* a whole file, and what follows its records *)
Lemma file_ok depth avoid rs rest d k e : holds d (wanted avoid rs) -> Forall mat_record (wanted avoid rs) -> Forall (readable avoid) rest -> consistent (wanted avoid (rs ++ rest)) ->
  exists d' s, holds d' (wanted avoid (rs ++ rest)) /\
  set_loop (S (S depth)) (S (length (header ++ records rest))) (d, avoid) (mkM (header ++ records rest) k e false) = Ok ((d', avoid), s).
Proof.
  intros Hd Ho G C. assert (L := records_length rest). destruct rest as [|r rest].
  - rewrite app_nil_r in *. change (header ++ records []) with (header ++ []). rewrite app_nil_r. destruct (set_loop_header (S depth) (length header) (d, avoid) k e) as (s & E). exists d, s. auto.
  - set (F := length (header ++ records (r :: rest))). assert (Hf : (length (r :: rest) < F)%nat) by (unfold F; rewrite app_length; change (length header) with 64%nat; lia). clearbody F.
    destruct (set_loop_ok depth avoid (r :: rest) rs d (F + 1 - length (r :: rest)) [] Hd Ho G C) as (d' & Hd' & E').
    rewrite app_nil_r in E'. destruct (set_loop_end (S depth) (F - length (r :: rest)) (d', avoid) 8 (Some false)) as (s & Es). exists d', s. split; [exact Hd'|].
    rewrite records_cons in *. inversion G as [|? ? [Gr _] _]; subst. rewrite step_first by auto. rewrite <- step_ok by auto.
    replace (S F) with (length (r :: rest) + (F + 1 - length (r :: rest)))%nat by lia. rewrite E'. replace (F + 1 - length (r :: rest))%nat with (S (F - length (r :: rest))) by lia. exact Es.
Qed.

(* ---- paths ---- *)
Lemma last_slash_none l : forall i, ~ In slash l -> last_slash i l = None.
Proof. induction l as [|c l IH]; intros i H; [reflexivity|]. cbn [last_slash]. rewrite IH by (intros X; apply H; right; auto). destruct (Z.eqb_spec c slash) as [->|]; [destruct H; left; auto|reflexivity]. Qed.
Lemma last_slash_at l : forall i r, ~ In slash r -> last_slash i (l ++ slash :: r) = Some (i + length l)%nat.
Proof.
  induction l as [|c l IH]; intros i r H; cbn [app last_slash length].
  - rewrite last_slash_none by auto. rewrite Z.eqb_refl. f_equal. lia.
  - rewrite IH by auto. f_equal. lia.
Qed.
Lemma trim_plain d : ~ In slash d -> trim d = d.
Proof. intros H. unfold trim. rewrite last_slash_none by auto. reflexivity. Qed.
Lemma trim_slash d r : ~ In slash r -> trim (d ++ slash :: r) = d.
Proof.
  intros H. unfold trim. rewrite last_slash_at by auto. replace (1 + length d - 1)%nat with (length d) by lia.
  rewrite firstn_app, Nat.sub_diag, firstn_all, app_nil_r. reflexivity.
Qed.

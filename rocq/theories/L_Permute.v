From Verif Require Import Base Spec L_Lin M_Tensor L_Tensor M_Permute S_Permute.

Lemma prod_between_ok p m s : prod_between (p ++ m ++ s) (length p) (length p + length m) = Ok (prod m).
Proof.
  unfold prod_between. replace (length p + length m - length p) with (length m) by lia.
  enough (H : forall n, n <= length m ->
    for_ n (fun k acc => x <- rd (p ++ m ++ s) (length p + k) ;; Ok (acc * x)) 1 = Ok (prod (firstn n m))).
  { rewrite H by auto. rewrite firstn_all. reflexivity. }
  induction n as [|n IH]; intros Hn; [reflexivity|].
  rewrite for_S, IH by lia. cbn [bind].
  destruct (nth_error_lt m n ltac:(lia)) as [x Hx].
  rewrite (rd_ok _ _ x).
  - cbn [bind]. f_equal. clear IH. revert n Hn Hx. induction m as [|y m IHm]; intros [|n] Hn Hx; simpl in Hx; try discriminate.
    + inversion Hx; subst. simpl. lia.
    + simpl in Hn. rewrite !firstn_cons, !prod_cons, <- (IHm n) by (auto; lia). lia.
  - rewrite nth_error_app2 by lia. replace (length p + n - length p) with n by lia.
    rewrite nth_error_app1; auto; lia.
Qed.

Lemma prod_between_ok' d lo hi p m s : d = p ++ m ++ s -> lo = length p -> hi = length p + length m ->
  prod_between d lo hi = Ok (prod m).
Proof. intros -> -> ->. apply prod_between_ok. Qed.

Section Scatter.
Context {A B : Type}.
Variable h : A -> B.

Lemma scatter (src : list A) (g : nat -> nat) n (out : list B) (body : nat -> list B * nat -> outcome (list B * nat)) :
  n <= length src -> (forall q, q < n -> g q < length out) ->
  (forall q1 q2, q1 < n -> q2 < n -> g q1 = g q2 -> q1 = q2) ->
  (forall q st, q < n -> body q st = copy_step h src (g q) st) ->
  exists out', for_ n body (out, 0) = Ok (out', n) /\ length out' = length out /\
    forall q, q < n -> nth_error out' (g q) = option_map h (nth_error src q).
Proof.
  induction n as [|n IH]; intros Hs Hb Hi Hbody.
  - exists out. split; [reflexivity|]. split; [auto|]. lia.
  - destruct IH as (o & E & Hl & Ho); try (intros; first [apply Hb|apply Hi|apply Hbody|idtac]; auto; lia).
    rewrite for_S, E. cbn [bind]. rewrite Hbody by lia. unfold copy_step.
    destruct (nth_error_lt src n ltac:(lia)) as [v Hv]. rewrite (rd_ok _ _ _ Hv). cbn [bind].
    rewrite wr_ok by (rewrite Hl; apply Hb; lia). cbn [bind].
    eexists; split; [reflexivity|]. split; [rewrite length_upd; auto|].
    intros q Hq. destruct (Nat.eq_dec q n) as [->|Hne].
    + rewrite nth_error_upd_eq by (rewrite Hl; apply Hb; lia). rewrite Hv. reflexivity.
    + rewrite nth_error_upd_ne; [apply Ho; lia|]. intros E'. apply Hi in E'; lia.
Qed.

Lemma scatter_perm (ds ds' : list nat) (pi : list nat -> list nat) (src : list A) (out : list B) body :
  length src = prod ds -> length out = prod ds' ->
  (forall ix, valid ds ix -> valid ds' (pi ix)) ->
  (forall ix1 ix2, valid ds ix1 -> valid ds ix2 -> pi ix1 = pi ix2 -> ix1 = ix2) ->
  (forall ix st, valid ds ix -> body (lin ds ix) st = copy_step h src (lin ds' (pi ix)) st) ->
  exists out', for_ (prod ds) body (out, 0) = Ok (out', prod ds) /\ length out' = length out /\
    forall ix, valid ds ix -> nth_error out' (lin ds' (pi ix)) = option_map h (nth_error src (lin ds ix)).
Proof.
  intros Hs Ho Hv Hi Hb.
  destruct (scatter src (fun q => lin ds' (pi (unlin ds q))) (prod ds) out body) as (out' & E & Hl & H).
  - lia.
  - intros q Hq. rewrite Ho. apply lin_lt, Hv, unlin_valid, Hq.
  - intros q1 q2 H1 H2 E. apply lin_inj in E; try (apply Hv, unlin_valid; auto).
    apply Hi in E; try (apply unlin_valid; auto).
    rewrite <- (lin_unlin ds q1), <- (lin_unlin ds q2) by auto. congruence.
  - intros q st Hq. rewrite <- Hb by (apply unlin_valid; auto). rewrite lin_unlin; auto.
  - exists out'. split; [auto|]. split; [auto|]. intros ix Hix.
    rewrite <- (H (lin ds ix)) by (apply lin_lt; auto). rewrite unlin_lin; auto.
Qed.
End Scatter.

Lemma option_map_id {A} (o : option A) : option_map id o = o.
Proof. destruct o; reflexivity. Qed.

Section P.
Context {A : Type}.

(* b(i,l,k,j,m) = a(i,j,k,l,m) *)
Definition P5 (b a : list A) a1 a2 a3 a4 a5 : Prop :=
  length b = a1 * a2 * a3 * a4 * a5 /\
  forall i j k l m, i < a1 -> j < a2 -> k < a3 -> l < a4 -> m < a5 ->
    nth_error b (i + a1 * (l + a4 * (k + a3 * (j + a2 * m)))) =
    nth_error a (i + a1 * (j + a2 * (k + a3 * (l + a4 * m)))).

Ltac inv_valid :=
  repeat match goal with
  | H : valid (_ :: _) _ |- _ => apply valid_cons_inv in H as (? & ? & -> & ? & H)
  | H : valid [] _ |- _ => apply valid_nil in H; subst
  end.

Lemma permute_24_ok (b a : list A) a1 a2 a3 a4 a5 :
  length a = a1 * a2 * a3 * a4 * a5 -> length b = a1 * a2 * a3 * a4 * a5 ->
  exists b', permute_24 b a a1 a2 a3 a4 a5 = Ok b' /\ P5 b' a a1 a2 a3 a4 a5.
Proof.
  intros Ha Hb. unfold permute_24. rewrite !for_nest.
  destruct (scatter_perm id [a1;a2;a3;a4;a5] [a1;a4;a3;a2;a5]
    (fun ix => match ix with [i;j;k;l;m] => [i;l;k;j;m] | _ => [] end) a b
    (fun q => copy_step id a
            (q / a1 / a2 / a3 / a4 * (a1 * a4 * a3 * a2) + (q / a1 / a2 / a3) mod a4 * a1 + (q / a1 / a2) mod a3 * (a1 * a4) +
             (q / a1) mod a2 * (a1 * a4 * a3) + q mod a1))) as (b' & E & Hl & H).
  - unfold prod; simpl; lia.
  - unfold prod; simpl; lia.
  - intros ix Hv. inv_valid. repeat constructor; auto.
  - intros ix1 ix2 H1 H2 E. inv_valid. congruence.
  - intros ix st Hv. inv_valid. f_equal. rewrite !lin_cons, !lin_nil.
    rewrite Nat.mul_0_r, Nat.add_0_r.
    repeat first [rewrite mix_mod by auto | rewrite mix_div by auto]. ring.
  - replace (a5 * a4 * a3 * a2 * a1) with (prod [a1;a2;a3;a4;a5]) by (unfold prod; simpl; lia).
    rewrite E. cbn [bind]. exists b'. split; [auto|]. split; [lia|].
    intros i j k l m Hi Hj Hk Hl' Hm.
    specialize (H [i;j;k;l;m] ltac:(repeat constructor; auto)). rewrite option_map_id in H.
    rewrite !lin_cons, !lin_nil, !Nat.mul_0_r, !Nat.add_0_r in H. exact H.
Qed.

(* b(i,k,j,l) = a(i,j,k,l) *)
Lemma permute_23_ok (b a : list A) a1 a2 a3 a4 :
  length a = a1 * a2 * a3 * a4 -> length b = a1 * a2 * a3 * a4 ->
  exists b', permute_23 b a a1 a2 a3 a4 = Ok b' /\ length b' = a1 * a2 * a3 * a4 /\
  forall i j k l, i < a1 -> j < a2 -> k < a3 -> l < a4 ->
    nth_error b' (i + a1 * (k + a3 * (j + a2 * l))) = nth_error a (i + a1 * (j + a2 * (k + a3 * l))).
Proof.
  intros Ha Hb. unfold permute_23. rewrite !for_nest.
  destruct (scatter_perm id [a1;a2;a3;a4] [a1;a3;a2;a4]
    (fun ix => match ix with [i;j;k;l] => [i;k;j;l] | _ => [] end) a b
    (fun q => copy_step id a
            (q / a1 / a2 / a3 * (a1 * a3 * a2) + (q / a1 / a2) mod a3 * a1 + (q / a1) mod a2 * (a1 * a3) + q mod a1)))
    as (b' & E & Hl & H).
  - unfold prod; simpl; lia.
  - unfold prod; simpl; lia.
  - intros ix Hv. inv_valid. repeat constructor; auto.
  - intros ix1 ix2 H1 H2 E. inv_valid. congruence.
  - intros ix st Hv. inv_valid. f_equal. rewrite !lin_cons, !lin_nil.
    rewrite Nat.mul_0_r, Nat.add_0_r.
    repeat first [rewrite mix_mod by auto | rewrite mix_div by auto]. ring.
  - replace (a4 * a3 * a2 * a1) with (prod [a1;a2;a3;a4]) by (unfold prod; simpl; lia).
    rewrite E. cbn [bind]. exists b'. split; [auto|]. split; [lia|].
    intros i j k l Hi Hj Hk Hl'.
    specialize (H [i;j;k;l] ltac:(repeat constructor; auto)). rewrite option_map_id in H.
    rewrite !lin_cons, !lin_nil, !Nat.mul_0_r, !Nat.add_0_r in H. exact H.
Qed.

(* b(k,j,i,l) = a(i,j,k,l) *)
Lemma permute_13_ok (b a : list A) a1 a2 a3 a4 :
  length a = a1 * a2 * a3 * a4 -> length b = a1 * a2 * a3 * a4 ->
  exists b', permute_13 b a a1 a2 a3 a4 = Ok b' /\ length b' = a1 * a2 * a3 * a4 /\
  forall i j k l, i < a1 -> j < a2 -> k < a3 -> l < a4 ->
    nth_error b' (k + a3 * (j + a2 * (i + a1 * l))) = nth_error a (i + a1 * (j + a2 * (k + a3 * l))).
Proof.
  intros Ha Hb. unfold permute_13. rewrite !for_nest.
  destruct (scatter_perm id [a1;a2;a3;a4] [a3;a2;a1;a4]
    (fun ix => match ix with [i;j;k;l] => [k;j;i;l] | _ => [] end) a b
    (fun q => copy_step id a
            (q / a1 / a2 / a3 * (a3 * a2 * a1) + (q / a1 / a2) mod a3 + (q / a1) mod a2 * a3 + q mod a1 * (a3 * a2))))
    as (b' & E & Hl & H).
  - unfold prod; simpl; lia.
  - unfold prod; simpl; lia.
  - intros ix Hv. inv_valid. repeat constructor; auto.
  - intros ix1 ix2 H1 H2 E. inv_valid. congruence.
  - intros ix st Hv. inv_valid. f_equal. rewrite !lin_cons, !lin_nil.
    rewrite Nat.mul_0_r, Nat.add_0_r.
    repeat first [rewrite mix_mod by auto | rewrite mix_div by auto]. ring.
  - replace (a4 * a3 * a2 * a1) with (prod [a1;a2;a3;a4]) by (unfold prod; simpl; lia).
    rewrite E. cbn [bind]. exists b'. split; [auto|]. split; [lia|].
    intros i j k l Hi Hj Hk Hl'.
    specialize (H [i;j;k;l] ltac:(repeat constructor; auto)). rewrite option_map_id in H.
    rewrite !lin_cons, !lin_nil, !Nat.mul_0_r, !Nat.add_0_r in H. exact H.
Qed.

(* b(j,i,k) = a(i,j,k) *)
Lemma permute_12_ok (b a : list A) a1 a2 a3 :
  length a = a1 * a2 * a3 -> length b = a1 * a2 * a3 ->
  exists b', permute_12 b a a1 a2 a3 = Ok b' /\ length b' = a1 * a2 * a3 /\
  forall i j k, i < a1 -> j < a2 -> k < a3 ->
    nth_error b' (j + a2 * (i + a1 * k)) = nth_error a (i + a1 * (j + a2 * k)).
Proof.
  intros Ha Hb. unfold permute_12. rewrite !for_nest.
  destruct (scatter_perm id [a1;a2;a3] [a2;a1;a3]
    (fun ix => match ix with [i;j;k] => [j;i;k] | _ => [] end) a b
    (fun q => copy_step id a
            (q / a1 / a2 * (a1 * a2) + (q / a1) mod a2 + q mod a1 * a2)))
    as (b' & E & Hl & H).
  - unfold prod; simpl; lia.
  - unfold prod; simpl; lia.
  - intros ix Hv. inv_valid. repeat constructor; auto.
  - intros ix1 ix2 H1 H2 E. inv_valid. congruence.
  - intros ix st Hv. inv_valid. f_equal. rewrite !lin_cons, !lin_nil.
    rewrite Nat.mul_0_r, Nat.add_0_r.
    repeat first [rewrite mix_mod by auto | rewrite mix_div by auto]. ring.
  - replace (a3 * a2 * a1) with (prod [a1;a2;a3]) by (unfold prod; simpl; lia).
    rewrite E. cbn [bind]. exists b'. split; [auto|]. split; [lia|].
    intros i j k Hi Hj Hk.
    specialize (H [i;j;k] ltac:(repeat constructor; auto)). rewrite option_map_id in H.
    rewrite !lin_cons, !lin_nil, !Nat.mul_0_r, !Nat.add_0_r in H. exact H.
Qed.

(* C(a1,a2,a4,a5) swapped in the middle, or the plain copy when both are 1 *)
Lemma permute_no_a3_ok junk (a : tensor A) nd a1 a2 a4 a5 :
  wf a -> nd <> [] -> length (data a) = a1 * a2 * a4 * a5 -> prod nd = a1 * a2 * a4 * a5 -> a1 > 0 -> a2 > 0 -> a4 > 0 ->
  exists d', permute_no_a3 junk a nd a1 a2 a4 a5 = Ok (mkT nd d') /\ length d' = prod nd /\
  forall i j l m, i < a1 -> j < a2 -> l < a4 -> m < a5 ->
    nth_error d' (i + a1 * (l + a4 * (j + a2 * m))) = nth_error (data a) (i + a1 * (j + a2 * (l + a4 * m))).
Proof.
  intros Hwf Hnd Ha Hp H1 H2 H4. unfold permute_no_a3.
  assert (Hlen : length (data (new_tensor junk nd)) = a1 * a2 * a4 * a5).
  { rewrite <- Hp, <- nelem_prod by auto. apply new_tensor_wf. }
  destruct ((1 <? a4) || (1 <? a2)) eqn:E.
  - destruct (1 <? a1) eqn:E1.
    + destruct (permute_23_ok (data (new_tensor junk nd)) (data a) a1 a2 a4 a5) as (b' & Eb & Hl & H); auto.
      rewrite Eb. cbn [bind]. exists b'. split; [auto|]. split; [lia|]. auto.
    + assert (a1 = 1) by lia. subst a1.
      destruct (permute_12_ok (data (new_tensor junk nd)) (data a) a2 a4 a5) as (b' & Eb & Hl & H); try lia.
      rewrite Eb. cbn [bind]. exists b'. split; [auto|]. split; [lia|].
      intros i j l m Hi Hj Hl' Hm. assert (i = 0) by lia. subst i. specialize (H j l m Hj Hl' Hm).
      rewrite !Nat.mul_1_l, !Nat.add_0_l. exact H.
  - assert (a4 = 1) by lia. assert (a2 = 1) by lia. subst a4 a2.
    exists (data a). split.
    + destruct (reshape_spec a nd Hwf) as [HR _]. rewrite HR; auto.
      rewrite nelem_prod by auto. rewrite Hp, <- Hwf. auto.
    + split; [lia|]. intros i j l m Hi Hj Hl' Hm.
      assert (j = 0) by lia. assert (l = 0) by lia. subst. reflexivity.
Qed.

Lemma split_at {X} (l : list X) n x : nth_error l n = Some x -> exists p s, l = p ++ x :: s /\ length p = n.
Proof. apply nth_error_split. Qed.

(* shape of the exchange *)
Lemma swapped_shape {X} (p q s : list X) x y l' :
  swapped (length p) (length p + S (length q)) (p ++ x :: q ++ y :: s) l' <-> l' = p ++ y :: q ++ x :: s.
Proof.
  assert (H : swapped (length p) (length p + S (length q)) (p ++ x :: q ++ y :: s) (p ++ y :: q ++ x :: s)).
  { intros k. destruct (Nat.eqb_spec k (length p)) as [->|H1].
    - rewrite nth_error_app2 by lia. rewrite Nat.sub_diag. cbn [nth_error].
      rewrite nth_error_app2 by lia. replace (length p + S (length q) - length p) with (S (length q)) by lia.
      cbn [nth_error]. rewrite nth_error_app2 by lia. rewrite Nat.sub_diag. reflexivity.
    - destruct (Nat.eqb_spec k (length p + S (length q))) as [->|H2].
      + rewrite nth_error_app2 by lia. replace (length p + S (length q) - length p) with (S (length q)) by lia.
        cbn [nth_error]. rewrite nth_error_app2 by lia. rewrite Nat.sub_diag. cbn [nth_error].
        rewrite nth_error_app2 by lia. rewrite Nat.sub_diag. reflexivity.
      + destruct (Nat.lt_ge_cases k (length p)) as [H3|H3].
        * rewrite !nth_error_app1 by lia. reflexivity.
        * rewrite !nth_error_app2 by lia. remember (k - length p) as k' eqn:Ek.
          destruct k' as [|k']; [lia|]. cbn [nth_error].
          destruct (Nat.lt_ge_cases k' (length q)) as [H4|H4].
          -- rewrite !nth_error_app1 by lia. reflexivity.
          -- rewrite !nth_error_app2 by lia. remember (k' - length q) as k'' eqn:Ek'.
             destruct k'' as [|k'']; [lia|]. reflexivity. }
  split; [|intros ->; exact H].
  intros H'. apply list_eq_nth. intros k. rewrite (H' k), (H k). reflexivity.
Qed.

Lemma swapped_comm {X} n1 n2 (l l' : list X) : swapped n1 n2 l l' -> swapped n2 n1 l l'.
Proof.
  intros H k. rewrite (H k). destruct (Nat.eqb_spec k n1), (Nat.eqb_spec k n2); subst; auto.
Qed.

Lemma swapped_same {X} n (l l' : list X) : swapped n n l l' -> l' = l.
Proof.
  intros H. apply list_eq_nth. intros k. rewrite (H k).
  destruct (Nat.eqb_spec k n) as [->|]; auto.
Qed.

Lemma swapped_exists {X} n1 n2 (l : list X) : n1 < length l -> n2 < length l -> exists l', swapped n1 n2 l l'.
Proof.
  intros H1 H2. destruct (nth_error_lt _ _ H1) as [x Hx]. destruct (nth_error_lt _ _ H2) as [y Hy].
  exists (upd (upd l n1 y) n2 x). intros k. rewrite !nth_error_upd, length_upd.
  destruct (Nat.eqb_spec k n2) as [E2|E2], (Nat.eqb_spec k n1) as [E1|E1]; try rewrite E1; try rewrite E2; simpl;
  repeat match goal with |- context [?a <? ?b] => destruct (Nat.ltb_spec a b); try lia end; simpl; auto; congruence.
Qed.

Lemma swapped_len {X} n1 n2 (l l' : list X) : n1 < length l -> n2 < length l -> swapped n1 n2 l l' -> length l' = length l.
Proof.
  intros H1 H2 H. assert (H' : forall k, k < length l' <-> k < length l).
  { intros k. rewrite <- (nth_error_Some l' k), (H k), nth_error_Some.
    destruct (Nat.eqb_spec k n1) as [->|E1]; [lia|].
    destruct (Nat.eqb_spec k n2) as [->|E2]; lia. }
  destruct (Nat.lt_trichotomy (length l) (length l')) as [L|[L|L]]; auto.
  - specialize (H' (length l)). lia.
  - specialize (H' (length l')). lia.
Qed.

Lemma upd_app_here {X} (p : list X) x s v : upd (p ++ x :: s) (length p) v = p ++ v :: s.
Proof. apply upd_app_mid. Qed.

Lemma do_permute_lt junk (a : tensor A) p q s a2 a4 :
  wf a -> dims a = p ++ a2 :: q ++ a4 :: s ->
  forall ndx1 ndx2,
  ((normalize_index ndx1 (length (dims a)) = Ok (length p) /\ normalize_index ndx2 (length (dims a)) = Ok (length p + S (length q))) \/
   (normalize_index ndx2 (length (dims a)) = Ok (length p) /\ normalize_index ndx1 (length (dims a)) = Ok (length p + S (length q)))) ->
  exists u, do_permute junk a ndx1 ndx2 = Ok u /\ wf u /\ dims u = p ++ a4 :: q ++ a2 :: s /\
    forall ip iq is j l, valid p ip -> valid q iq -> valid s is -> j < a2 -> l < a4 ->
      nth_error (data u) (lin (p ++ a4 :: q ++ a2 :: s) (ip ++ l :: iq ++ j :: is)) =
      nth_error (data a) (lin (p ++ a2 :: q ++ a4 :: s) (ip ++ j :: iq ++ l :: is)).
Proof.
  intros Hwf Hd ndx1 ndx2 HN.
  set (nd := p ++ a4 :: q ++ a2 :: s).
  assert (Hnd : nd <> []) by (unfold nd; destruct p; simpl; congruence).
  assert (Hdn : dims a <> []) by (rewrite Hd; destruct p; simpl; congruence).
  assert (Hpnd : prod nd = prod p * a2 * prod q * a4 * prod s).
  { unfold nd. repeat (rewrite prod_app || rewrite prod_cons). ring. }
  assert (Hpd : length (data a) = prod p * a2 * prod q * a4 * prod s).
  { rewrite Hwf, nelem_prod, Hd by auto. repeat (rewrite prod_app || rewrite prod_cons). ring. }
  remember (if negb (length (data a) =? 0) then
    if a2 =? 1 then permute_no_a3 junk a nd (prod p) (prod q) a4 (prod s)
    else if a4 =? 1 then permute_no_a3 junk a nd (prod p) a2 (prod q) (prod s)
    else if 1 <? prod q then
      d' <- (if 1 <? prod p then permute_24 (data (new_tensor junk nd)) (data a) (prod p) a2 (prod q) a4 (prod s)
             else permute_13 (data (new_tensor junk nd)) (data a) a2 (prod q) a4 (prod s)) ;;
      Ok (mkT nd d')
    else permute_no_a3 junk a nd (prod p) a2 a4 (prod s)
  else reshape a nd) as K eqn:HK.
  assert (EK : do_permute junk a ndx1 ndx2 = K).
  { unfold do_permute.
    assert (ER : forall n1 n2, n1 = length p -> n2 = length p + S (length q) ->
      (a1 <- prod_between (dims a) 0 n1;;
      a0 <- rd (dims a) n1;;
      a3 <- prod_between (dims a) (S n1) n2;;
      a6 <- rd (dims a) n2;;
      a5 <- prod_between (dims a) (S n2) (length (dims a));;
     (if negb (length (data a) =? 0)
      then
       if a0 =? 1
       then permute_no_a3 junk a (upd (upd (dims a) n1 a6) n2 a0) a1 a3 a6 a5
       else
        if a6 =? 1
        then permute_no_a3 junk a (upd (upd (dims a) n1 a6) n2 a0) a1 a0 a3 a5
        else
         if 1 <? a3
         then
          d' <-
          (if 1 <? a1
           then
            permute_24 (data (new_tensor junk (upd (upd (dims a) n1 a6) n2 a0))) (data a) a1 a0 a3 a6 a5
           else
            permute_13 (data (new_tensor junk (upd (upd (dims a) n1 a6) n2 a0))) (data a) a0 a3 a6 a5);;
          Ok (mkT (upd (upd (dims a) n1 a6) n2 a0) d')
         else permute_no_a3 junk a (upd (upd (dims a) n1 a6) n2 a0) a1 a0 a6 a5
      else reshape a (upd (upd (dims a) n1 a6) n2 a0))) = K).
    { intros n1 n2 -> ->. rewrite Hd.
      rewrite (prod_between_ok' _ 0 (length p) [] p (a2 :: q ++ a4 :: s)) by reflexivity. cbn [bind].
      rewrite (rd_ok _ _ a2) by (rewrite nth_error_app2 by lia; rewrite Nat.sub_diag; reflexivity). cbn [bind].
      rewrite (prod_between_ok' _ (S (length p)) (length p + S (length q)) (p ++ [a2]) q (a4 :: s))
        by (try rewrite <- app_assoc; try rewrite app_length; simpl; auto; lia). cbn [bind].
      rewrite (rd_ok _ _ a4).
      2:{ rewrite nth_error_app2 by lia. replace (length p + S (length q) - length p) with (S (length q)) by lia.
          cbn [nth_error]. rewrite nth_error_app2 by lia. rewrite Nat.sub_diag. reflexivity. }
      cbn [bind].
      rewrite (prod_between_ok' _ (S (length p + S (length q))) (length (p ++ a2 :: q ++ a4 :: s)) (p ++ a2 :: q ++ [a4]) s []).
      2:{ rewrite app_nil_r, <- app_assoc. simpl. rewrite <- app_assoc. reflexivity. }
      2:{ rewrite !app_length. simpl. rewrite app_length. simpl. lia. }
      2:{ rewrite !app_length. simpl. rewrite !app_length. simpl. lia. }
      cbn [bind].
      assert (EU : upd (upd (p ++ a2 :: q ++ a4 :: s) (length p) a4) (length p + S (length q)) a2 = nd).
      { rewrite upd_app_here. replace (p ++ a4 :: q ++ a4 :: s) with ((p ++ a4 :: q) ++ a4 :: s) by (rewrite <- app_assoc; reflexivity).
        replace (length p + S (length q)) with (length (p ++ a4 :: q)) by (rewrite app_length; reflexivity).
        rewrite upd_app_here. unfold nd. rewrite <- app_assoc. reflexivity. }
      rewrite EU, HK. reflexivity. }
    destruct HN as [[E1 E2]|[E2 E1]]; rewrite E1, E2; cbn [bind].
    - destruct (Nat.eqb_spec (length p + S (length q)) (length p)); [lia|].
      destruct (Nat.ltb_spec (length p + S (length q)) (length p)); [lia|]. apply ER; auto.
    - destruct (Nat.eqb_spec (length p) (length p + S (length q))); [lia|].
      destruct (Nat.ltb_spec (length p) (length p + S (length q))); [|lia]. apply ER; auto. }
  rewrite EK. clear EK.
  (* reduce to a statement on five coordinates *)
  assert (HC : forall d', length d' = prod nd ->
    (forall i j k l m, i < prod p -> j < a2 -> k < prod q -> l < a4 -> m < prod s ->
      nth_error d' (i + prod p * (l + a4 * (k + prod q * (j + a2 * m)))) =
      nth_error (data a) (i + prod p * (j + a2 * (k + prod q * (l + a4 * m))))) ->
    K = Ok (mkT nd d') ->
    exists u, K = Ok u /\ wf u /\ dims u = nd /\
    forall ip iq is j l, valid p ip -> valid q iq -> valid s is -> j < a2 -> l < a4 ->
      nth_error (data u) (lin nd (ip ++ l :: iq ++ j :: is)) =
      nth_error (data a) (lin (p ++ a2 :: q ++ a4 :: s) (ip ++ j :: iq ++ l :: is))).
  { intros d' Hl H E. exists (mkT nd d'). split; [auto|]. split; [unfold wf; simpl; rewrite nelem_prod; auto|].
    split; [reflexivity|]. intros ip iq is j l Hp Hq Hs Hj Hl'. cbn [data]. unfold nd.
    rewrite !lin_app, !lin_cons, !lin_app, !lin_cons by (apply valid_length; auto).
    apply H; auto; apply lin_lt; auto. }
  destruct (Nat.eq_dec (length (data a)) 0) as [E0|E0].
  - (* empty *)
    apply (HC (data a)).
    + rewrite Hpnd. lia.
    + intros i j k l m Hi Hj Hk Hl Hm. exfalso.
      assert (length (data a) > 0); [|lia]. rewrite Hpd.
      assert (0 < prod p * a2) by nia. assert (0 < prod p * a2 * prod q) by nia.
      assert (0 < prod p * a2 * prod q * a4) by nia. nia.
    + rewrite HK. rewrite E0. cbn [Nat.eqb negb].
      destruct (reshape_spec a nd Hwf) as [HR _]. apply HR. rewrite nelem_prod by auto. rewrite Hpnd, <- Hpd. exact Hwf.
  - assert (Hpos : prod p > 0 /\ a2 > 0 /\ prod q > 0 /\ a4 > 0).
    { destruct (prod p), a2, (prod q), a4; simpl in Hpd; try lia; rewrite ?Nat.mul_0_r in Hpd; simpl in Hpd; lia. }
    destruct Hpos as (H1 & H2 & H3 & H4).
    destruct (Nat.eq_dec a2 1) as [E2|E2]; [|destruct (Nat.eq_dec a4 1) as [E4|E4]].
    + destruct (permute_no_a3_ok junk a nd (prod p) (prod q) a4 (prod s)) as (d' & E & Hl & H); auto; try (rewrite ?Hpnd; nia).
      apply (HC d'); auto.
      * intros i j k l m Hi Hj Hk Hl' Hm. assert (j = 0) by lia. subst j.
        rewrite E2, Nat.add_0_l, Nat.mul_1_l, Nat.add_0_l, Nat.mul_1_l. apply H; auto.
      * rewrite HK. destruct (Nat.eqb_spec (length (data a)) 0); [lia|]. cbn [negb].
        destruct (Nat.eqb_spec a2 1); [|lia]. exact E.
    + destruct (permute_no_a3_ok junk a nd (prod p) a2 (prod q) (prod s)) as (d' & E & Hl & H); auto; try (rewrite ?Hpnd; nia).
      apply (HC d'); auto.
      * intros i j k l m Hi Hj Hk Hl' Hm. assert (l = 0) by lia. subst l.
        rewrite E4, Nat.add_0_l, Nat.mul_1_l, Nat.add_0_l, Nat.mul_1_l. apply H; auto.
      * rewrite HK. destruct (Nat.eqb_spec (length (data a)) 0); [lia|]. cbn [negb].
        destruct (Nat.eqb_spec a2 1); [lia|]. destruct (Nat.eqb_spec a4 1); [|lia]. exact E.
    + assert (Hnew : length (data (new_tensor junk nd)) = prod p * a2 * prod q * a4 * prod s).
      { rewrite <- Hpnd, <- nelem_prod by auto. apply new_tensor_wf. }
      destruct (1 <? prod q) eqn:E3.
      * destruct (1 <? prod p) eqn:E1.
        -- destruct (permute_24_ok (data (new_tensor junk nd)) (data a) (prod p) a2 (prod q) a4 (prod s)) as (d' & E & Hl & H); auto.
           apply (HC d'); [lia|exact H|].
           rewrite HK. destruct (Nat.eqb_spec (length (data a)) 0); [lia|]. cbn [negb].
           destruct (Nat.eqb_spec a2 1); [lia|]. destruct (Nat.eqb_spec a4 1); [lia|]. rewrite ?E3, ?E1, E. reflexivity.
        -- assert (Hp1 : prod p = 1) by lia.
           destruct (permute_13_ok (data (new_tensor junk nd)) (data a) a2 (prod q) a4 (prod s)) as (d' & E & Hl & H); try nia.
           apply (HC d'); [nia| |].
           ++ intros i j k l m Hi Hj Hk Hl' Hm. assert (i = 0) by lia. subst i.
              rewrite Hp1, !Nat.add_0_l, !Nat.mul_1_l. apply H; auto.
           ++ rewrite HK. destruct (Nat.eqb_spec (length (data a)) 0); [lia|]. cbn [negb].
              destruct (Nat.eqb_spec a2 1); [lia|]. destruct (Nat.eqb_spec a4 1); [lia|]. rewrite ?E3, ?E1, E. reflexivity.
      * assert (Hq1 : prod q = 1) by lia.
        destruct (permute_no_a3_ok junk a nd (prod p) a2 a4 (prod s)) as (d' & E & Hl & H); auto; try (rewrite ?Hpnd; nia).
        apply (HC d'); auto.
        -- intros i j k l m Hi Hj Hk Hl' Hm. assert (k = 0) by lia. subst k.
           rewrite Hq1, !Nat.add_0_l, !Nat.mul_1_l. apply H; auto.
        -- rewrite HK. destruct (Nat.eqb_spec (length (data a)) 0); [lia|]. cbn [negb].
           destruct (Nat.eqb_spec a2 1); [lia|]. destruct (Nat.eqb_spec a4 1); [lia|]. rewrite ?E3. exact E.
Qed.

Lemma split2 {X} (l : list X) n1 n2 : n1 < n2 -> n2 < length l ->
  exists p x q y s, l = p ++ x :: q ++ y :: s /\ length p = n1 /\ n2 = length p + S (length q).
Proof.
  intros H1 H2. destruct (nth_error_lt l n1 ltac:(lia)) as [x Hx].
  destruct (nth_error_split _ _ Hx) as (p & r & -> & Hp).
  rewrite app_length in H2. simpl in H2.
  destruct (nth_error_lt r (n2 - S n1) ltac:(lia)) as [y Hy].
  destruct (nth_error_split _ _ Hy) as (q & s & -> & Hq).
  exists p, x, q, y, s. split; [auto|]. split; [auto|]. lia.
Qed.

Theorem c14_permute junk (a : tensor A) ndx1 ndx2 n1 n2 :
  wf a -> coord (length (dims a)) ndx1 n1 -> coord (length (dims a)) ndx2 n2 ->
  exists u, do_permute junk a ndx1 ndx2 = Ok u /\ wf u /\ swapped n1 n2 (dims a) (dims u) /\
    forall ix ix', swapped n1 n2 ix ix' -> elt u ix' = elt a ix.
Proof.
  intros Hwf HC1 HC2.
  assert (E1 := normalize_ok _ _ _ HC1). assert (E2 := normalize_ok _ _ _ HC2).
  destruct (Nat.eq_dec n1 n2) as [->|Hne].
  { exists a. unfold do_permute. rewrite E1, E2. cbn [bind]. rewrite Nat.eqb_refl.
    split; [auto|]. split; [auto|]. split.
    - intros k. destruct (Nat.eqb_spec k n2); subst; auto.
    - intros ix ix' H. apply swapped_same in H. congruence. }
  set (lo := Nat.min n1 n2). set (hi := Nat.max n1 n2).
  destruct HC1 as [L1 _], HC2 as [L2 _].
  destruct (split2 (dims a) lo hi ltac:(lia) ltac:(lia)) as (p & a2 & q & a4 & s & Hd & Hlo & Hhi).
  destruct (do_permute_lt junk a p q s a2 a4 Hwf Hd ndx1 ndx2) as (u & Eu & Hu & Du & Hel).
  { destruct (Nat.lt_trichotomy n1 n2) as [H|[H|H]]; [left|lia|right].
    - split; [rewrite E1|rewrite E2]; f_equal; lia.
    - split; [rewrite E2|rewrite E1]; f_equal; lia. }
  exists u. split; [auto|]. split; [auto|].
  assert (Hsw : forall X (l l' : list X), swapped n1 n2 l l' <-> swapped lo hi l l').
  { intros X l l'. destruct (Nat.lt_trichotomy n1 n2) as [H|[H|H]]; [|lia|].
    - replace lo with n1 by lia. replace hi with n2 by lia. tauto.
    - replace lo with n2 by lia. replace hi with n1 by lia. split; apply swapped_comm. }
  rewrite Hsw. split.
  { rewrite Hd, Du, <- Hlo, Hhi. apply swapped_shape. reflexivity. }
  intros ix ix' Hx. apply Hsw in Hx.
  destruct (validb (dims a) ix) eqn:Ev.
  - apply validb_iff in Ev. rewrite (elt_valid a ix) by auto. rewrite Hd in Ev.
    apply valid_app_inv in Ev as (ip & r & -> & Vp & Ev). apply valid_cons_inv in Ev as (j & r' & -> & Hj & Ev).
    apply valid_app_inv in Ev as (iq & r'' & -> & Vq & Ev). apply valid_cons_inv in Ev as (l & is & -> & Hl & Vs).
    assert (Lp := valid_length _ _ Vp). assert (Lq := valid_length _ _ Vq).
    rewrite <- Hlo, Hhi, <- Lp, <- Lq in Hx. apply swapped_shape in Hx. subst ix'.
    rewrite elt_valid.
    + rewrite Du, Hd. apply Hel; auto.
    + rewrite Du. apply valid_app; [auto|]. split; [auto|]. apply valid_cons. split; [auto|].
      apply valid_app; [auto|]. split; [auto|]. apply valid_cons. auto.
  - unfold elt at 2. rewrite Ev.
    destruct (validb (dims u) ix') eqn:Ev'; [|unfold elt; rewrite Ev'; reflexivity].
    exfalso. apply validb_iff in Ev'. rewrite Du in Ev'.
    apply valid_app_inv in Ev' as (ip & r & -> & Vp & Ev'). apply valid_cons_inv in Ev' as (l & r' & -> & Hl & Ev').
    apply valid_app_inv in Ev' as (iq & r'' & -> & Vq & Ev'). apply valid_cons_inv in Ev' as (j & is & -> & Hj & Vs).
    assert (Lp := valid_length _ _ Vp). assert (Lq := valid_length _ _ Vq).
    assert (Hx' : swapped lo hi (ip ++ l :: iq ++ j :: is) ix).
    { intros k. rewrite (Hx (if k =? lo then hi else if k =? hi then lo else k)).
      destruct (Nat.eqb_spec k lo) as [->|K1].
      - destruct (Nat.eqb_spec hi lo); [lia|]. rewrite Nat.eqb_refl. reflexivity.
      - destruct (Nat.eqb_spec k hi) as [->|K2]; [rewrite Nat.eqb_refl; reflexivity|].
        destruct (Nat.eqb_spec k lo); [lia|]. destruct (Nat.eqb_spec k hi); [lia|]. reflexivity. }
    rewrite <- Hlo, Hhi, <- Lp, <- Lq in Hx'. apply swapped_shape in Hx'. subst ix.
    assert (valid (dims a) (ip ++ j :: iq ++ l :: is)) as HV.
    { rewrite Hd. apply valid_app; [auto|]. split; [auto|]. apply valid_cons. split; [auto|].
      apply valid_app; [auto|]. split; [auto|]. apply valid_cons. auto. }
    apply validb_iff in HV. congruence.
Qed.

Lemma c14_reject junk (a : tensor A) ndx1 ndx2 :
  (forall n, ~ coord (length (dims a)) ndx1 n) \/ (forall n, ~ coord (length (dims a)) ndx2 n) ->
  do_permute junk a ndx1 ndx2 = Abort.
Proof.
  intros H. unfold do_permute.
  destruct (normalize_cases ndx1 (length (dims a))) as [(n1 & C1 & E1)|(N1 & E1)]; rewrite E1; [|reflexivity].
  destruct (normalize_cases ndx2 (length (dims a))) as [(n2 & C2 & E2)|(N2 & E2)]; rewrite E2; [|reflexivity].
  exfalso. destruct H as [H|H]; eapply H; eauto.
Qed.

(* permuting twice *)
Lemma c14_involution junk junk' (a : tensor A) ndx1 ndx2 u :
  wf a -> do_permute junk a ndx1 ndx2 = Ok u -> do_permute junk' u ndx1 ndx2 = Ok a.
Proof.
  intros Hwf E.
  destruct (normalize_cases ndx1 (length (dims a))) as [(n1 & C1 & E1)|(N1 & E1)].
  2:{ rewrite c14_reject in E; [discriminate|auto]. }
  destruct (normalize_cases ndx2 (length (dims a))) as [(n2 & C2 & E2)|(N2 & E2)].
  2:{ rewrite c14_reject in E; [discriminate|auto]. }
  destruct (c14_permute junk a _ _ _ _ Hwf C1 C2) as (u' & Eu & Hu & Du & Hel).
  assert (u' = u) by congruence. subst u'.
  assert (L1 := proj1 C1). assert (L2 := proj1 C2).
  assert (Hlen := swapped_len _ _ _ _ L1 L2 Du).
  rewrite <- Hlen in C1, C2.
  destruct (c14_permute junk' u _ _ _ _ Hu C1 C2) as (w & Ew & Hw & Dw & Hel').
  rewrite Ew. f_equal.
  assert (Hinv : forall X (l l' l'' : list X), swapped n1 n2 l l' -> swapped n1 n2 l' l'' -> l'' = l).
  { intros X l l' l'' S1 S2. apply list_eq_nth. intros k. rewrite (S2 k), (S1 _).
    destruct (Nat.eqb_spec k n1) as [->|K1].
    - destruct (Nat.eqb_spec n2 n1) as [->|]; auto. rewrite Nat.eqb_refl. auto.
    - destruct (Nat.eqb_spec k n2) as [->|K2]; [rewrite Nat.eqb_refl; auto|].
      destruct (Nat.eqb_spec k n1); [lia|]. destruct (Nat.eqb_spec k n2); [lia|]. auto. }
  apply tensor_ext; auto. split.
  - eapply Hinv; eauto.
  - intros ix Hix.
    assert (Hd : dims w = dims a) by (eapply Hinv; eauto).
    assert (Lx := valid_length _ _ Hix). rewrite Hd in Lx.
    destruct (swapped_exists n1 n2 ix ltac:(lia) ltac:(lia)) as [ix' Hx].
    destruct (swapped_exists n1 n2 ix' ltac:(rewrite (swapped_len n1 n2 ix ix'); auto; lia) ltac:(rewrite (swapped_len n1 n2 ix ix'); auto; lia)) as [ix'' Hx'].
    assert (ix'' = ix) by (eapply Hinv; eauto). subst ix''.
    rewrite (Hel' _ _ Hx'). apply Hel; auto.
Qed.

(* ---- transpose ---- *)
Lemma mat_elt (t : tensor A) r c i j : dims t = [r; c] -> i < r -> j < c -> elt t [i; j] = nth_error (data t) (i + r * j).
Proof.
  intros Hd Hi Hj. rewrite elt_valid.
  - rewrite Hd, !lin_cons, lin_nil. f_equal. lia.
  - rewrite Hd. repeat constructor; auto.
Qed.

Lemma mat_elt_out (t : tensor A) r c i j : dims t = [r; c] -> ~ (i < r /\ j < c) -> elt t [i; j] = None.
Proof.
  intros Hd H. unfold elt. rewrite Hd. simpl.
  destruct (Nat.ltb_spec i r); simpl; auto. destruct (Nat.ltb_spec j c); simpl; auto. lia.
Qed.

Lemma c15_adjoint_gen (h : A -> A) junk (a : tensor A) r c : wf a -> dims a = [r; c] ->
  exists u, adjoint h junk a = Ok u /\ wf u /\ dims u = [c; r] /\
    forall i j, elt u [j; i] = option_map h (elt a [i; j]).
Proof.
  intros Hwf Hd. unfold adjoint, get_dimensions2. rewrite Hd. cbn [bind].
  assert (Ha : length (data a) = r * c). { rewrite Hwf, Hd. simpl. lia. }
  assert (Hb : length (data (new_tensor junk [c; r])) = c * r).
  { rewrite (new_tensor_wf junk [c; r]). simpl. lia. }
  destruct (negb (c =? 0) && negb (r =? 0)) eqn:E0.
  - rewrite !for_nest.
    destruct (scatter_perm h [r;c] [c;r] (fun ix => match ix with [i;j] => [j;i] | _ => [] end) (data a) (data (new_tensor junk [c; r]))
      (fun q => copy_step h (data a) (q / r + q mod r * c))) as (b' & E & Hl & H).
    + unfold prod; simpl; lia.
    + unfold prod; simpl. simpl in Hb. lia.
    + intros ix Hv. inv_valid. repeat constructor; auto.
    + intros ix1 ix2 H1 H2 E. inv_valid. congruence.
    + intros ix st Hv. inv_valid. f_equal. rewrite !lin_cons, !lin_nil.
      rewrite !Nat.mul_0_r, !Nat.add_0_r.
      repeat first [rewrite mix_mod by auto | rewrite mix_div by auto]. ring.
    + replace (c * r) with (prod [r;c]) by (unfold prod; simpl; lia).
      rewrite E. cbn [bind]. eexists; split; [reflexivity|]. split; [|split; [reflexivity|]].
      * unfold wf. cbn [data dims new_tensor]. rewrite Hl, Hb. simpl. lia.
      * intros i j. destruct (lt_dec i r) as [Hi|Hi]; [destruct (lt_dec j c) as [Hj|Hj]|].
        -- rewrite (mat_elt _ c r j i), (mat_elt a r c i j) by auto.
           specialize (H [i;j] ltac:(repeat constructor; auto)).
           rewrite !lin_cons, !lin_nil, !Nat.mul_0_r, !Nat.add_0_r in H. exact H.
        -- rewrite (mat_elt_out _ c r j i), (mat_elt_out a r c i j) by (auto; lia). reflexivity.
        -- rewrite (mat_elt_out _ c r j i), (mat_elt_out a r c i j) by (auto; lia). reflexivity.
  - eexists; split; [reflexivity|]. split; [apply new_tensor_wf|]. split; [reflexivity|].
    intros i j. rewrite (mat_elt_out _ c r j i), (mat_elt_out a r c i j) by (auto; lia). reflexivity.
Qed.

Lemma transpose_adjoint junk (a : tensor A) : wf a -> transpose junk a = adjoint id junk a.
Proof.
  intros Hwf. unfold transpose, adjoint. destruct (get_dimensions2 a) as [[r c]| | |]; cbn [bind]; auto.
  destruct (negb (c =? 0) && negb (r =? 0)); auto. unfold permute_12.
  rewrite bind_assoc. 
  replace (for_ 1 (fun k : nat => for_ c (fun j : nat => for_ r (fun i : nat => copy_step id (data a) (k * (r * c) + j + i * c)))) (data (new_tensor junk [c; r]), 0))
    with (for_ c (fun j : nat => for_ r (fun i : nat => copy_step id (data a) (j + i * c))) (data (new_tensor junk [c; r]), 0)).
  - destruct (for_ c _ _) as [[d n]| | |]; reflexivity.
  - rewrite for_S, for_0. reflexivity.
Qed.

Theorem c15_transpose junk (a : tensor A) r c : wf a -> dims a = [r; c] ->
  exists u, transpose junk a = Ok u /\ wf u /\ dims u = [c; r] /\ forall i j, elt u [j; i] = elt a [i; j].
Proof.
  intros Hwf Hd. rewrite transpose_adjoint by auto.
  destruct (c15_adjoint_gen id junk a r c Hwf Hd) as (u & E & Hu & Du & H).
  exists u. split; [auto|]. split; [auto|]. split; [auto|]. intros i j. rewrite H, option_map_id. auto.
Qed.

Lemma c15_rank (h : A -> A) junk (a : tensor A) : length (dims a) <> 2 ->
  transpose junk a = Abort /\ adjoint h junk a = Abort.
Proof.
  intros H. unfold transpose, adjoint, get_dimensions2.
  destruct (dims a) as [|x [|y [|z l]]]; simpl in H; auto; lia.
Qed.

Lemma mat_ext (t u : tensor A) r c : wf t -> wf u -> dims t = [r; c] -> dims u = [r; c] ->
  (forall i j, i < r -> j < c -> elt t [i; j] = elt u [i; j]) -> t = u.
Proof.
  intros Ht Hu Dt Du H. apply tensor_ext; auto. split; [congruence|].
  intros ix Hv. rewrite Dt in Hv. inv_valid. auto.
Qed.

Lemma c15_adjoint_involution (h : A -> A) junk junk' (a u : tensor A) : (forall x, h (h x) = x) ->
  wf a -> adjoint h junk a = Ok u -> adjoint h junk' u = Ok a.
Proof.
  intros Hh Hwf E.
  assert (exists r c, dims a = [r; c]) as (r & c & Hd).
  { destruct (dims a) as [|x [|y [|z l]]] eqn:Ed; [| |eauto|];
      unfold adjoint, get_dimensions2 in E; rewrite Ed in E; discriminate. }
  destruct (c15_adjoint_gen h junk a r c Hwf Hd) as (u' & E' & Hu & Du & H).
  assert (u' = u) by congruence. subst u'.
  destruct (c15_adjoint_gen h junk' u c r Hu Du) as (w & Ew & Hw & Dw & H').
  rewrite Ew. f_equal. apply (mat_ext _ _ r c); auto. intros i j Hi Hj. rewrite H', H.
  destruct (elt a [i; j]); simpl; f_equal; auto.
Qed.

Lemma c15_transpose_involution junk junk' (a u : tensor A) :
  wf a -> transpose junk a = Ok u -> transpose junk' u = Ok a.
Proof.
  intros Hwf E. rewrite transpose_adjoint in E by auto.
  assert (E' := c15_adjoint_involution id junk junk' a u (fun x => eq_refl) Hwf E).
  rewrite transpose_adjoint; auto.
  unfold adjoint in E. destruct (get_dimensions2 a) as [[r c]| | |] eqn:Eg; try discriminate.
  assert (Hd : dims a = [r; c]).
  { unfold get_dimensions2 in Eg. destruct (dims a) as [|x [|y [|z l]]]; try discriminate. congruence. }
  destruct (c15_adjoint_gen id junk a r c Hwf Hd) as (u' & E2 & Hu & _).
  unfold adjoint in E2. rewrite Eg in E2. cbn [bind] in E, E2. congruence.
Qed.


Lemma c14_transpose junk junk' (a : tensor A) : wf a -> length (dims a) = 2 ->
  transpose junk a = do_permute junk' a 0 1.
Proof.
  intros Hwf H2. destruct (dims a) as [|r [|c [|? ?]]] eqn:Hd; simpl in H2; try lia.
  destruct (c15_transpose junk a r c Hwf Hd) as (u & E & Hu & Du & H).
  destruct (c14_permute junk' a 0 1 0 1 Hwf) as (w & Ew & Hw & Dw & H').
  - rewrite Hd. split; simpl; [lia|left; reflexivity].
  - rewrite Hd. split; simpl; [lia|left; reflexivity].
  - rewrite E, Ew. f_equal.
    assert (Hdw : dims w = [c; r]).
    { rewrite Hd in Dw. apply (swapped_shape [] [] [] r c) in Dw. exact Dw. }
    apply (mat_ext _ _ c r); auto. intros i j Hi Hj. rewrite H. symmetry. apply H'.
    apply (swapped_shape [] [] [] j i). reflexivity.
Qed.

End P.

From Verif Require Import Base Spec L_Lin M_Tensor L_Tensor M_Range S_Range.
Local Open Scope Z_scope.

(* ---- generators ---- *)

(* P r rest: object r still has to deliver [rest]; l is what it delivers after
   a reset; pops work with any fuel >= F *)
Record gen (F : nat) (l : list Z) (P : rng -> list Z -> Prop) : Prop := {
  gen_cons : forall fuel r x rest, (F <= fuel)%nat -> P r (x :: rest) ->
      exists r', pop fuel r = Ok (x, r') /\ P r' rest;
  gen_nil : forall fuel r, (F <= fuel)%nat -> P r [] ->
      exists r', pop fuel r = Ok (nomore, r') /\ P r' [];
  gen_reset : forall fuel r rest, (F <= fuel)%nat -> P r rest ->
      exists r', reset fuel r = Ok r' /\ P r' l;
  gen_pos : forall r rest, P r rest -> Forall (fun x => 0 <= x) rest;
  gen_posl : Forall (fun x => 0 <= x) l;
  gen_len : forall r rest, P r rest -> (length rest <= length l)%nat
}.

(* a base range with extent d, factor f, selecting the positions sel *)
Definition based (r : rng) (d f : Z) (sel : list nat) : Prop :=
  match r with
  | RFull l f' _ e => l = d /\ f' = f /\ e = d * f /\ sel = seq 0 (Z.to_nat d)
  | RSingle l f' n _ => l = d /\ f' = f /\ exists p, n = f * Z.of_nat p /\ sel = [p]
  | RStep l f' _ s e st => l = d /\ f' = f /\
      exists a b k, (a <= b)%nat /\ (0 < k)%nat /\ s = f * Z.of_nat a /\ e = f * Z.of_nat b /\ st = f * Z.of_nat k /\
        sel = arith a k ((b - a) / k + 1)
  | RIndex l f' ix _ => l = d /\ f' = f /\ ix = map (fun p => f * Z.of_nat p) sel
  | RProd _ _ _ => False
  end.

(* remaining values of a base range *)
Definition left (r : rng) (rest : list Z) (f : Z) (sel : list nat) : Prop :=
  exists k, rest = map (fun p => f * Z.of_nat p) (skipn k sel) /\
  match r with
  | RFull _ _ c _ => c = f * Z.of_nat k /\ (k <= length sel)%nat
  | RSingle _ _ _ c => c = Z.of_nat k /\ (k <= 1)%nat
  | RStep _ _ n s _ st => n = s + st * Z.of_nat k /\ (k <= length sel)%nat
  | RIndex _ _ _ c => c = k /\ (k <= length sel)%nat
  | RProd _ _ _ => False
  end.

Lemma skipn_nil_len {X} (l : list X) k : skipn k l = [] -> (length l <= k)%nat.
Proof. intros H. assert (E := skipn_length k l). rewrite H in E. simpl in E. lia. Qed.

Lemma skipn_cons {X} (l : list X) k x rest : skipn k l = x :: rest ->
  nth_error l k = Some x /\ skipn (S k) l = rest /\ (k < length l)%nat.
Proof.
  revert k; induction l as [|y l IH]; intros [|k] E; simpl in *; try discriminate.
  - inversion E; subst. split; [auto|split; [auto|lia]].
  - destruct (IH k E) as (H1 & H2 & H3). split; [auto|split; [|lia]]. exact H2.
Qed.

Lemma skipn_len {X} (l : list X) : skipn (length l) l = [].
Proof. apply skipn_all. Qed.

Lemma nth_arith a k n j : (j < n)%nat -> nth_error (arith a k n) j = Some (a + k * j)%nat.
Proof. intros H. unfold arith. rewrite nth_error_map_seq by auto. reflexivity. Qed.

Lemma length_arith a k n : length (arith a k n) = n.
Proof. unfold arith. rewrite map_length, seq_length. auto. Qed.

Lemma pos_map f (l : list nat) : 0 < f -> Forall (fun x => 0 <= x) (map (fun p => f * Z.of_nat p) l).
Proof. intros H. apply Forall_forall. intros x Hx. apply in_map_iff in Hx. destruct Hx as (p & <- & _). nia. Qed.

Lemma based_gen d f sel :
  0 < f -> 0 <= d ->
  gen 1 (map (fun p => f * Z.of_nat p) sel) (fun r rest => based r d f sel /\ left r rest f sel).
Proof.
  intros Hf Hd. constructor.
  - intros fuel r x rest HF [HB (k & Hk & HL)].
    destruct fuel as [|fuel]; [lia|].
    destruct (skipn k sel) as [|p tl] eqn:Es; [discriminate|].
    simpl in Hk. inversion Hk; subst x rest. clear Hk.
    destruct (skipn_cons _ _ _ _ Es) as (Hn & Ht & Hlt).
    destruct r as [l f' c e|l f' n c|l f' n s e st|l f' ix c|r1 r2 b]; simpl in HB, HL; try tauto.
    + destruct HB as (-> & -> & -> & Hsel). destruct HL as [-> Hkl].
      simpl. assert (Hkd : Z.of_nat k < d).
      { subst sel. rewrite seq_length in Hlt. lia. }
      assert (p = k).
      { subst sel. rewrite seq_length in Hlt. rewrite nth_error_seq0 in Hn by auto. congruence. }
      subst p. destruct (Z.leb_spec (d * f) (f * Z.of_nat k)); [nia|].
      eexists; split; [reflexivity|]. split; [simpl; auto|].
      exists (S k). rewrite Ht. split; [auto|]. split; [lia|lia].
    + destruct HB as (-> & -> & q & -> & ->). destruct HL as [-> Hk1]. simpl in Hlt.
      assert (k = O) by lia. subst k. simpl in Es. inversion Es; subst q tl.
      simpl. eexists; split; [reflexivity|]. split; [simpl; eauto|].
      exists 1%nat. simpl. split; [auto|]. lia.
    + destruct HB as (-> & -> & a & b & m & Hab & Hm & -> & -> & -> & ->).
      destruct HL as [-> Hkl]. rewrite length_arith in *.
      rewrite nth_arith in Hn by auto. inversion Hn; subst p.
      assert (Hle : (a + m * k <= b)%nat).
      { assert (k <= (b - a) / m)%nat by lia.
        assert (m * ((b - a) / m) <= b - a)%nat by (apply Nat.mul_div_le; lia). nia. }
      simpl. destruct (Z.ltb_spec (f * Z.of_nat b) (f * Z.of_nat a + f * Z.of_nat m * Z.of_nat k)); [nia|].
      eexists; split; [f_equal; f_equal; nia|]. split.
      { simpl. split; [auto|]. split; [auto|]. exists a, b, m. auto 10. }
      exists (S k). rewrite Ht. split; [auto|]. split; [lia|rewrite length_arith; lia].
    + destruct HB as (-> & -> & ->). destruct HL as [-> Hkl].
      simpl. rewrite map_length. destruct (Nat.leb_spec (length sel) k); [lia|].
      unfold rd. rewrite nth_error_map, Hn. simpl.
      eexists; split; [reflexivity|]. split; [simpl; auto|].
      exists (S k). rewrite Ht. split; [auto|]. split; [auto|lia].
  - intros fuel r HF [HB (k & Hk & HL)].
    destruct fuel as [|fuel]; [lia|].
    symmetry in Hk. apply map_eq_nil in Hk. assert (Hlen := skipn_nil_len _ _ Hk).
    exists r.
    assert (HP : based r d f sel /\ left r [] f sel).
    { split; auto. exists k. rewrite Hk. auto. }
    split; [|exact HP].
    destruct r as [l f' c e|l f' n c|l f' n s e st|l f' ix c|r1 r2 b]; simpl in HB, HL; try tauto.
    + destruct HB as (-> & -> & -> & ->). destruct HL as [-> Hkl].
      rewrite seq_length in *. simpl.
      destruct (Z.leb_spec (d * f) (f * Z.of_nat k)); [auto|nia].
    + destruct HB as (-> & -> & q & -> & ->). destruct HL as [-> Hk1]. simpl in Hlen.
      assert (k = 1%nat) by lia. subst k. reflexivity.
    + destruct HB as (-> & -> & a & b & m & Hab & Hm & -> & -> & -> & ->).
      destruct HL as [-> Hkl]. rewrite length_arith in *.
      assert (Hgt : (b < a + m * k)%nat).
      { assert (k = (b - a) / m + 1)%nat by lia. subst k.
        assert (b - a < m * S ((b - a) / m))%nat by (apply Nat.mul_succ_div_gt; lia). nia. }
      simpl. destruct (Z.ltb_spec (f * Z.of_nat b) (f * Z.of_nat a + f * Z.of_nat m * Z.of_nat k)); [auto|nia].
    + destruct HB as (-> & -> & ->). destruct HL as [-> Hkl].
      simpl. rewrite map_length. destruct (Nat.leb_spec (length sel) k); [auto|lia].
  - intros fuel r rest HF [HB HL].
    destruct r as [l f' c e|l f' n c|l f' n s e st|l f' ix c|r1 r2 b]; simpl in HB; try tauto;
      (eexists; split; [reflexivity|]); (split; [simpl; exact HB|]); exists O; simpl; (split; [auto|]).
    + lia.
    + lia.
    + lia.
    + lia.
  - intros r rest [_ (k & -> & _)]. apply pos_map; auto.
  - apply pos_map; auto.
  - intros r rest [_ (k & -> & _)]. rewrite !map_length, skipn_length. lia.
Qed.

(* ---- products ---- *)

Definition prodlist (l1 l2 : list Z) : list Z := flat_map (fun b => map (fun n => n + b) l1) l2.

Lemma prodlist_pos l1 l2 : Forall (fun x => 0 <= x) l1 -> Forall (fun x => 0 <= x) l2 ->
  Forall (fun x => 0 <= x) (prodlist l1 l2).
Proof.
  intros H1 H2. apply Forall_forall. intros x Hx. apply in_flat_map in Hx.
  destruct Hx as (b & Hb & Hx). apply in_map_iff in Hx. destruct Hx as (n & <- & Hn).
  rewrite Forall_forall in H1, H2. specialize (H1 n Hn). specialize (H2 b Hb). lia.
Qed.

Definition PProd (P1 P2 : rng -> list Z -> Prop) (l1 : list Z) (r : rng) (rest : list Z) : Prop :=
  match r with
  | RProd r1 r2 b => exists rest1 rest2, P1 r1 rest1 /\ P2 r2 rest2 /\
      ((b = nomore /\ rest = [] /\ rest2 = []) \/
       (0 <= b /\ rest = map (fun n => n + b) rest1 ++ prodlist l1 rest2))
  | _ => False
  end.

Lemma length_prodlist l1 l2 : length (prodlist l1 l2) = (length l1 * length l2)%nat.
Proof. induction l2 as [|b l2 IH]; simpl; [lia|]. rewrite app_length, map_length. fold (prodlist l1 l2). rewrite IH. lia. Qed.

(* popping a product: what comes first in the remaining list *)
Lemma prod_pop F1 F2 l1 l2 P1 P2 :
  gen F1 l1 P1 -> gen F2 l2 P2 ->
  forall rest2 fuel r1 r2 b rest1,
    (Nat.max F1 F2 + length rest2 + 2 <= fuel)%nat ->
    P1 r1 rest1 -> P2 r2 rest2 -> 0 <= b ->
    exists r', 
      match map (fun n => n + b) rest1 ++ prodlist l1 rest2 with
      | [] => pop fuel (RProd r1 r2 b) = Ok (nomore, r') /\ PProd P1 P2 l1 r' []
      | x :: rest => pop fuel (RProd r1 r2 b) = Ok (x, r') /\ PProd P1 P2 l1 r' rest
      end.
Proof.
  intros G1 G2. induction rest2 as [|b' rest2 IH]; intros fuel r1 r2 b rest1 HF HP1 HP2 Hb.
  - destruct fuel as [|k]; [lia|]. cbn [pop].
    destruct (Z.eqb_spec b nomore) as [E|_]; [unfold nomore in E; lia|].
    destruct rest1 as [|n rest1].
    + destruct (gen_nil _ _ _ G1 k r1 ltac:(lia) HP1) as (r1' & E1 & HP1'). rewrite E1. cbn [bind].
      rewrite Z.eqb_refl. cbn [negb].
      destruct (gen_nil _ _ _ G2 k r2 ltac:(lia) HP2) as (r2' & E2 & HP2'). rewrite E2. cbn [bind].
      destruct (gen_reset _ _ _ G1 k r1' _ ltac:(lia) HP1') as (r1'' & E3 & HP1''). 
      unfold reset in E3. rewrite E3. cbn [bind].
      destruct k as [|k]; [lia|]. cbn [pop]. rewrite Z.eqb_refl.
      exists (RProd r1'' r2' nomore). simpl. split; [auto|]. exists l1, []. split; [auto|split; [auto|left; split; auto]].
    + destruct (gen_cons _ _ _ G1 k r1 n rest1 ltac:(lia) HP1) as (r1' & E1 & HP1'). rewrite E1. cbn [bind].
      assert (Hn := gen_pos _ _ _ G1 _ _ HP1). inversion Hn; subst.
      destruct (Z.eqb_spec n nomore) as [E|_]; [unfold nomore in E; lia|]. cbn [negb].
      exists (RProd r1' r2 b). simpl. split; [auto|]. exists rest1, []. split; [auto|]. split; [auto|]. right. auto.
  - destruct fuel as [|k]; [simpl in HF; lia|]. cbn [pop].
    destruct (Z.eqb_spec b nomore) as [E|_]; [unfold nomore in E; lia|].
    simpl in HF.
    destruct rest1 as [|n rest1].
    + destruct (gen_nil _ _ _ G1 k r1 ltac:(lia) HP1) as (r1' & E1 & HP1'). rewrite E1. cbn [bind].
      rewrite Z.eqb_refl. cbn [negb].
      assert (Hb' := gen_pos _ _ _ G2 _ _ HP2). inversion Hb'; subst.
      destruct (gen_cons _ _ _ G2 k r2 _ _ ltac:(lia) HP2) as (r2' & E2 & HP2'). rewrite E2. cbn [bind].
      destruct (gen_reset _ _ _ G1 k r1' _ ltac:(lia) HP1') as (r1'' & E3 & HP1''). 
      unfold reset in E3. rewrite E3. cbn [bind].
      destruct (IH k r1'' r2' b' l1 ltac:(lia) HP1'' HP2' ltac:(auto)) as (r' & HR).
      exists r'. simpl. exact HR.
    + destruct (gen_cons _ _ _ G1 k r1 n rest1 ltac:(lia) HP1) as (r1' & E1 & HP1'). rewrite E1. cbn [bind].
      assert (Hn := gen_pos _ _ _ G1 _ _ HP1). inversion Hn; subst.
      destruct (Z.eqb_spec n nomore) as [E|_]; [unfold nomore in E; lia|]. cbn [negb].
      exists (RProd r1' r2 b). simpl. split; [auto|]. exists rest1, (b' :: rest2).
      split; [auto|]. split; [auto|]. right. auto.
Qed.

Lemma gen_len2 F l P r rest : gen F l P -> P r rest -> (length rest <= length l)%nat.
Proof. intros G H. eapply gen_len; eauto. Qed.

Lemma prod_gen F1 F2 l1 l2 P1 P2 :
  gen F1 l1 P1 -> gen F2 l2 P2 ->
  gen (Nat.max F1 F2 + length l2 + 2) (prodlist l1 l2)
      (fun r rest => PProd P1 P2 l1 r rest /\ (length rest <= length (prodlist l1 l2))%nat).
Proof.
  intros G1 G2. constructor.
  - intros fuel r x rest HF [HP Hl]. destruct r as [| | | |r1 r2 b]; simpl in HP; try tauto.
    destruct HP as (rest1 & rest2 & HP1 & HP2 & [(_ & F & _)|[Hb HR]]); [discriminate|].
    assert (L2 := gen_len _ _ _ G2 _ _ HP2).
    destruct (prod_pop F1 F2 l1 l2 P1 P2 G1 G2 rest2 fuel r1 r2 b rest1 ltac:(lia) HP1 HP2 Hb) as (r' & H).
    rewrite <- HR in H. destruct H as [H1 H2]. exists r'. split; [auto|]. split; [auto|]. simpl in Hl. lia.
  - intros fuel r HF [HP Hl]. destruct r as [| | | |r1 r2 b]; simpl in HP; try tauto.
    destruct HP as (rest1 & rest2 & HP1 & HP2 & [(-> & _ & ->)|[Hb HR]]).
    + destruct fuel as [|k]; [lia|]. cbn [pop]. rewrite Z.eqb_refl.
      eexists; split; [reflexivity|]. split; [|simpl; lia]. exists rest1, []. split; [auto|split; [auto|left; split; auto]].
    + assert (L2 := gen_len _ _ _ G2 _ _ HP2).
      destruct (prod_pop F1 F2 l1 l2 P1 P2 G1 G2 rest2 fuel r1 r2 b rest1 ltac:(lia) HP1 HP2 Hb) as (r' & H).
      rewrite <- HR in H. destruct H as [H1 H2]. exists r'. split; [auto|]. split; [auto|]. simpl. lia.
  - intros fuel r rest HF [HP Hl]. destruct r as [| | | |r1 r2 b]; simpl in HP; try tauto.
    destruct HP as (rest1 & rest2 & HP1 & HP2 & _).
    unfold reset. cbn [reset_with].
    destruct (gen_reset _ _ _ G1 fuel r1 _ ltac:(lia) HP1) as (r1' & E1 & HP1').
    destruct (gen_reset _ _ _ G2 fuel r2 _ ltac:(lia) HP2) as (r2' & E2 & HP2').
    unfold reset in E1, E2. rewrite E1. cbn [bind]. rewrite E2. cbn [bind].
    destruct l2 as [|b' l2].
    + destruct (gen_nil _ _ _ G2 fuel r2' ltac:(lia) HP2') as (r2'' & E3 & HP2''). rewrite E3. cbn [bind].
      eexists; split; [reflexivity|]. split; [|auto]. exists l1, []. split; [auto|split; [auto|left; split; auto]].
    + assert (Hb' := gen_pos _ _ _ G2 _ _ HP2'). inversion Hb'; subst.
      destruct (gen_cons _ _ _ G2 fuel r2' _ _ ltac:(lia) HP2') as (r2'' & E3 & HP2''). rewrite E3. cbn [bind].
      eexists; split; [reflexivity|]. split; [|auto]. exists l1, l2.
      split; [auto|]. split; [auto|]. right. split; auto.
  - intros r rest [HP _]. destruct r as [| | | |r1 r2 b]; simpl in HP; try tauto.
    destruct HP as (rest1 & rest2 & HP1 & HP2 & [(_ & -> & _)|[Hb ->]]); [constructor|].
    apply Forall_app. split.
    + assert (H := gen_pos _ _ _ G1 _ _ HP1). apply Forall_forall. intros x Hx.
      apply in_map_iff in Hx. destruct Hx as (n & <- & Hn). rewrite Forall_forall in H. specialize (H n Hn). lia.
    + apply prodlist_pos; [apply (gen_posl _ _ _ G1)|apply (gen_pos _ _ _ G2 _ _ HP2)].
  - apply prodlist_pos; [apply (gen_posl _ _ _ G1)|apply (gen_posl _ _ _ G2)].
  - intros r rest [_ H]. exact H.
Qed.

(* ---- the full product of a slice ---- *)

(* r is a (nested product of) base range(s) over the extents ds with factor f *)
Fixpoint comp (r : rng) (ds : list Z) (f : Z) (sels : list (list nat)) {struct ds} : Prop :=
  match ds, sels with
  | [d], [sel] => based r d f sel
  | d :: ds', sel :: sels' =>
    match r with
    | RProd r1 r2 _ => based r1 d f sel /\ comp r2 ds' (f * d) sels'
    | _ => False
    end
  | _, _ => False
  end.

Fixpoint offs (ds : list Z) (f : Z) (sels : list (list nat)) : list Z :=
  match ds, sels with
  | [d], [sel] => map (fun p => f * Z.of_nat p) sel
  | d :: ds', sel :: sels' => prodlist (map (fun p => f * Z.of_nat p) sel) (offs ds' (f * d) sels')
  | _, _ => []
  end.

Lemma based_limit r d f sel : based r d f sel -> get_limit r = d /\ get_factor r = f.
Proof. destruct r; simpl; try tauto; intuition. Qed.

Lemma cdiv_mul f x : 0 < f -> cdiv (f * x) f = Ok x.
Proof.
  intros H. unfold cdiv. destruct (Z.eqb_spec f 0); [lia|].
  f_equal. rewrite Z.mul_comm. apply Z.quot_mul. lia.
Qed.

Lemma based_set_factor r d f sel f' : 0 < f -> based r d f sel ->
  exists r', set_factor r f' = Ok r' /\ based r' d f' sel.
Proof.
  intros Hf HB.
  destruct r as [l g c e|l g n c|l g n s e st|l g ix c|r1 r2 b]; simpl in HB; try tauto.
  - destruct HB as (-> & -> & -> & ->). eexists; split; [reflexivity|]. simpl. auto.
  - destruct HB as (-> & -> & p & -> & ->). simpl. rewrite cdiv_mul by auto. simpl.
    eexists; split; [reflexivity|]. simpl. split; [auto|]. split; [auto|]. exists p. split; [ring|auto].
  - destruct HB as (-> & -> & a & b & k & Hab & Hk & -> & -> & -> & ->). simpl.
    rewrite !cdiv_mul by auto. simpl.
    eexists; split; [reflexivity|]. simpl. split; [auto|]. split; [auto|].
    exists a, b, k. split; [auto|]. split; [auto|]. repeat (split; [ring|]). auto.
  - destruct HB as (-> & -> & ->). simpl.
    assert (E : mapM (fun i => q <- cdiv i f;; Ok (q * f')) (map (fun p : nat => f * Z.of_nat p) sel)
      = Ok (map (fun p => f' * Z.of_nat p) sel)).
    { clear - Hf. induction sel as [|p sel IH]; simpl; [auto|]. rewrite cdiv_mul by auto. simpl.
      rewrite IH. simpl. f_equal. f_equal. ring. }
    rewrite E. simpl. eexists; split; [reflexivity|]. simpl. auto.
Qed.

Lemma comp_set_factor ds : forall r f sels f', 0 < f -> 0 < f' -> Forall (fun d => 0 < d) ds ->
  comp r ds f sels -> exists r', set_factor r f' = Ok r' /\ comp r' ds f' sels.
Proof.
  induction ds as [|d ds IH]; intros r f sels f' Hf Hf' HD HC; [simpl in HC; tauto|].
  inversion HD; subst.
  destruct sels as [|sel sels]; [destruct ds; simpl in HC; tauto|].
  destruct ds as [|d2 ds].
  - destruct sels as [|sel2 sels]; [|simpl in HC; destruct r; try tauto; destruct HC as [_ HC]; destruct sels; tauto].
    simpl in HC |- *. exact (based_set_factor _ _ _ _ f' Hf HC).
  - assert (HC' : match r with
    | RProd r1 r2 _ => based r1 d f sel /\ comp r2 (d2 :: ds) (f * d) sels
    | _ => False end) by exact HC.
    destruct r as [| | | |r1 r2 b]; try tauto. destruct HC' as [HB HC'].
    destruct (based_set_factor _ _ _ _ f' Hf HB) as (r1' & E1 & HB1).
    destruct (IH r2 (f * d) sels (f' * d)) as (r2' & E2 & HC2); auto; try nia.
    cbn [set_factor]. rewrite E1. cbn [bind].
    destruct (based_limit _ _ _ _ HB1) as [-> _]. rewrite E2. cbn [bind].
    eexists; split; [reflexivity|]. cbn [comp]. split; auto.
Qed.

Fixpoint fuel_for (ds : list Z) (f : Z) (sels : list (list nat)) : nat :=
  match ds, sels with
  | [d], [sel] => 1%nat
  | d :: ds', sel :: sels' => (Nat.max 1 (fuel_for ds' (f * d) sels') + length (offs ds' (f * d) sels') + 2)%nat
  | _, _ => 0%nat
  end.

(* every composite is a generator of offs, starting from any of its states *)
Lemma comp_gen ds : forall f sels,
  0 < f -> Forall (fun d => 0 < d) ds -> length ds = length sels -> ds <> [] ->
  exists P, gen (fuel_for ds f sels) (offs ds f sels) P /\
    (forall r fuel, (fuel_for ds f sels <= fuel)%nat -> comp r ds f sels ->
       exists r', reset fuel r = Ok r' /\ P r' (offs ds f sels)).
Proof.
  induction ds as [|d ds IH]; intros f sels Hf HD HL HN; [congruence|].
  inversion HD; subst. destruct sels as [|sel sels]; [simpl in HL; lia|].
  destruct ds as [|d2 ds].
  - destruct sels as [|sel2 sels]; [|simpl in HL; lia].
    exists (fun r rest => based r d f sel /\ left r rest f sel).
    split; [apply based_gen; auto; lia|].
    intros r fuel HF HC. simpl in HC.
    destruct r as [l f' c e|l f' n c|l f' n s e st|l f' ix c|r1 r2 b]; simpl in HC; try tauto;
      (eexists; split; [reflexivity|]); (split; [simpl; exact HC|]); exists O; simpl; (split; [auto|]); lia.
  - destruct (IH (f * d) sels) as (P2 & G2 & R2); auto; try nia; try (simpl in HL |- *; lia); try congruence.
    assert (G1 := based_gen d f sel Hf ltac:(lia)).
    assert (G := prod_gen _ _ _ _ _ _ G1 G2).
    assert (Hs : exists sel2 sels', sels = sel2 :: sels').
    { destruct sels; [simpl in HL; lia|eauto]. }
    destruct Hs as (sel2 & sels' & ->).
    eexists. split; [exact G|].
    intros r fuel HF HC. cbn [comp] in HC.
    assert (HC' : match r with
    | RProd r1 r2 _ => based r1 d f sel /\ comp r2 (d2 :: ds) (f * d) (sel2 :: sels')
    | _ => False end) by exact HC. clear HC.
    destruct r as [| | | |r1 r2 b]; try tauto. destruct HC' as [HB HC].
    change (fuel_for (d :: d2 :: ds) f (sel :: sel2 :: sels'))
      with (Nat.max 1 (fuel_for (d2 :: ds) (f * d) (sel2 :: sels')) + length (offs (d2 :: ds) (f * d) (sel2 :: sels')) + 2)%nat in *.
    destruct (R2 r2 fuel ltac:(lia) HC) as (r2' & E2 & HP2).
    assert (E1 : exists r1', reset fuel r1 = Ok r1' /\ based r1' d f sel /\ left r1' (map (fun p => f * Z.of_nat p) sel) f sel).
    { destruct r1 as [l f' c e|l f' n c|l f' n s e st|l f' ix c|r3 r4 b4]; simpl in HB; try tauto;
      (eexists; split; [reflexivity|]); (split; [simpl; exact HB|]); exists O; simpl; (split; [auto|]); lia. }
    destruct E1 as (r1' & E1 & HP1).
    unfold reset in *. cbn [reset_with]. rewrite E1. cbn [bind]. rewrite E2. cbn [bind].
    change (offs (d :: d2 :: ds) f (sel :: sel2 :: sels'))
      with (prodlist (map (fun p => f * Z.of_nat p) sel) (offs (d2 :: ds) (f * d) (sel2 :: sels'))).
    destruct (offs (d2 :: ds) (f * d) (sel2 :: sels')) as [|b' l2] eqn:Eo.
    + destruct (gen_nil _ _ _ G2 fuel r2' ltac:(lia) HP2) as (r2'' & E3 & HP2''). rewrite E3. cbn [bind].
      eexists; split; [reflexivity|]. split; [|auto].
      exists (map (fun p => f * Z.of_nat p) sel), []. split; [auto|split; [auto|left; split; auto]].
    + assert (Hb' := gen_pos _ _ _ G2 _ _ HP2). inversion Hb'; subst.
      destruct (gen_cons _ _ _ G2 fuel r2' _ _ ltac:(lia) HP2) as (r2'' & E3 & HP2''). rewrite E3. cbn [bind].
      eexists; split; [reflexivity|]. split; [|auto].
      exists (map (fun p => f * Z.of_nat p) sel), l2.
      split; [auto|]. split; [auto|]. right. split; auto.
Qed.

(* ---- building a view ---- *)

Lemma make_base d s sel : (0 < d)%nat -> selects d s sel ->
  exists r, set_limit (make_range s) (Z.of_nat d) = Ok r /\ based r (Z.of_nat d) 1 sel /\
    rsize r = Ok (Z.of_nat (length sel)).
Proof.
  intros Hd HS. destruct HS as [|p Hp|a b k Hab Hb Hk|l HF]; simpl.
  - destruct (Z.leb_spec 0 (Z.of_nat d)); [|lia]. simpl. eexists; split; [reflexivity|].
    simpl. rewrite Nat2Z.id, seq_length. split; auto.
  - destruct (Z.ltb_spec (Z.of_nat p) (Z.of_nat d)); [|lia]. simpl.
    destruct (Z.leb_spec 0 (Z.of_nat d)); [|lia]. simpl. eexists; split; [reflexivity|].
    cbn [based rsize]. split; [|auto]. split; [auto|]. split; [auto|]. exists p. split; [lia|auto].
  - destruct (Z.ltb_spec (Z.of_nat b) (Z.of_nat d)); [|lia]. simpl.
    destruct (Z.leb_spec 0 (Z.of_nat d)); [|lia]. simpl. eexists; split; [reflexivity|].
    cbn [based rsize]. split.
    + split; [auto|]. split; [auto|]. exists a, b, k. repeat (split; [first [exact Hab|exact Hk|lia]|]). reflexivity.
    + unfold cdiv. destruct (Z.eqb_spec (Z.of_nat k) 0); [lia|]. simpl.
      rewrite length_arith. rewrite <- Nat2Z.inj_sub by auto.
      rewrite Z.quot_div_nonneg by lia. rewrite <- Nat2Z.inj_div. f_equal. lia.
  - assert (E : forallb (fun i => i <=? Z.of_nat d) (map Z.of_nat l) = true).
    { apply forallb_forall. intros x Hx. apply in_map_iff in Hx. destruct Hx as (p & <- & Hp).
      rewrite Forall_forall in HF. specialize (HF p Hp). lia. }
    rewrite E. simpl. destruct (Z.leb_spec 0 (Z.of_nat d)); [|lia]. simpl. eexists; split; [reflexivity|].
    cbn [based rsize]. rewrite map_length. split; [|auto]. split; [auto|]. split; [auto|].
    apply map_ext. intros p. lia.
Qed.

Fixpoint all_based (rs : list rng) (ds : list nat) (sels : list (list nat)) : Prop :=
  match rs, ds, sels with
  | [], [], [] => True
  | r :: rs', d :: ds', sel :: sels' => based r (Z.of_nat d) 1 sel /\ all_based rs' ds' sels'
  | _, _, _ => False
  end.

Lemma make_all ds : forall ss sels, Forall (fun d => 0 < d)%nat ds -> selections ds ss sels ->
  exists rs, set_limits (map make_range ss) ds = Ok rs /\ all_based rs ds sels /\
    mapM rsize rs = Ok (map Z.of_nat (sizes sels)).
Proof.
  induction ds as [|d ds IH]; intros [|s ss] [|sel sels] HD HS; simpl in HS; try tauto.
  - exists []. simpl. auto.
  - inversion HD; subst. destruct HS as [HS1 HS2].
    destruct (make_base d s sel) as (r & E & HB & Hsz); auto.
    destruct (IH ss sels) as (rs & E' & HB' & Hsz'); auto.
    exists (r :: rs). cbn [map set_limits]. rewrite E. cbn [bind]. rewrite E'. cbn [bind].
    split; [auto|]. split; [split; auto|]. cbn [mapM]. rewrite Hsz. cbn [bind]. rewrite Hsz'. reflexivity.
Qed.

Lemma product_comp ds : forall rs sels, Forall (fun d => 0 < d)%nat ds -> ds <> [] ->
  all_based rs ds sels -> exists r, product_all rs = Ok r /\ comp r (map Z.of_nat ds) 1 sels.
Proof.
  induction ds as [|d ds IH]; intros rs sels HD HN HB; [congruence|].
  destruct rs as [|r rs], sels as [|sel sels]; simpl in HB; try tauto.
  destruct HB as [HB HBs]. inversion HD; subst.
  destruct ds as [|d2 ds].
  - destruct rs as [|r2 rs], sels as [|sel2 sels]; simpl in HBs; try tauto.
    exists r. simpl. auto.
  - destruct rs as [|r2 rs], sels as [|sel2 sels]; simpl in HBs; try tauto.
    destruct (IH (r2 :: rs) (sel2 :: sels)) as (p & Ep & HC); auto; try congruence.
    change (product_all (r :: r2 :: rs)) with (p <- product_all (r2 :: rs) ;; product r p).
    rewrite Ep. cbn [bind]. unfold product.
    destruct (based_limit _ _ _ _ HB) as [-> ->].
    destruct (comp_set_factor (map Z.of_nat (d2 :: ds)) p 1 (sel2 :: sels) (1 * Z.of_nat d)) as (p' & Ep' & HC'); auto; try lia.
    { apply Forall_forall. intros x Hx. apply in_map_iff in Hx. destruct Hx as (y & <- & Hy).
      rewrite Forall_forall in H2. specialize (H2 y Hy). lia. }
    rewrite Ep'. cbn [bind]. eexists; split; [reflexivity|].
    cbn [map comp]. split; auto.
Qed.

Lemma selections_len ds : forall ss sels, selections ds ss sels -> length ss = length ds /\ length sels = length ds.
Proof.
  induction ds as [|d ds IH]; intros [|s ss] [|sel sels] H; simpl in *; try tauto.
  destruct H as [_ H]. apply IH in H. lia.
Qed.

Lemma pos_of_nat (ds : list nat) : Forall (fun d => 0 < d)%nat ds -> Forall (fun d => 0 < d) (map Z.of_nat ds).
Proof.
  intros H. apply Forall_forall. intros x Hx. apply in_map_iff in Hx. destruct Hx as (y & <- & Hy).
  rewrite Forall_forall in H. specialize (H y Hy). lia.
Qed.

Section Use.
Context {A : Type}.

Lemma make_view_ok (t : tensor A) ss sels :
  wf t -> Forall (fun d => 0 < d)%nat (dims t) -> dims t <> [] -> selections (dims t) ss sels ->
  exists r, make_view t ss = Ok (map Z.of_nat (sizes sels), r) /\ comp r (map Z.of_nat (dims t)) 1 sels.
Proof.
  intros Hwf HD HN HS. destruct (selections_len _ _ _ HS) as [L1 L2].
  destruct ss as [|s ss]; [destruct (dims t); simpl in L1; [congruence|lia]|].
  destruct ss as [|s2 ss].
  - destruct (dims t) as [|d [|d2 ds]] eqn:Ed; simpl in L1; try lia.
    destruct sels as [|sel [|sel2 sels]]; simpl in L2; try lia.
    simpl in HS. destruct HS as [HS _]. inversion HD; subst.
    assert (Hl : length (data t) = d). { unfold wf in Hwf. rewrite Hwf, Ed. simpl. lia. }
    destruct (make_base d s sel) as (r & E & HB & Hsz); auto.
    cbn [make_view]. rewrite Hl, E. cbn [bind]. rewrite Hsz. cbn [bind].
    exists r. split; [reflexivity|]. simpl. auto.
  - cbn [make_view]. rewrite <- L1, Nat.eqb_refl. cbn [assert_ bind].
    destruct (make_all (dims t) (s :: s2 :: ss) sels) as (rs & E & HB & Hsz); auto.
    rewrite E. cbn [bind]. rewrite Hsz. cbn [bind].
    destruct (product_comp (dims t) rs sels) as (r & Er & HC); auto.
    rewrite Er. cbn [bind]. eauto.
Qed.

(* ---- offsets and coordinates ---- *)
Lemma nth_prodlist l1 l2 k j b n : nth_error l1 k = Some n -> nth_error l2 j = Some b ->
  nth_error (prodlist l1 l2) (k + length l1 * j) = Some (n + b).
Proof.
  revert j; induction l2 as [|y l2 IH]; intros j H1 H2; [destruct j; discriminate|].
  assert (Hk := nth_error_lt_inv _ _ _ H1).
  destruct j as [|j]; simpl in H2.
  - inversion H2; subst. unfold prodlist. simpl. rewrite Nat.mul_0_r, Nat.add_0_r.
    rewrite nth_error_app1 by (rewrite map_length; auto). rewrite nth_error_map, H1. reflexivity.
  - unfold prodlist. simpl. rewrite nth_error_app2 by (rewrite map_length; lia).
    rewrite map_length. replace (k + length l1 * S j - length l1)%nat with (k + length l1 * j)%nat by lia.
    apply IH; auto.
Qed.

Lemma length_offs ds : forall f sels, length ds = length sels -> ds <> [] ->
  length (offs ds f sels) = prod (sizes sels).
Proof.
  induction ds as [|d ds IH]; intros f [|sel sels] HL HN; simpl in HL; try lia; try congruence.
  destruct ds as [|d2 ds].
  - destruct sels; simpl in HL; [|lia]. simpl. rewrite map_length. lia.
  - destruct sels as [|sel2 sels]; [simpl in HL; lia|].
    change (offs (d :: d2 :: ds) f (sel :: sel2 :: sels))
      with (prodlist (map (fun p => f * Z.of_nat p) sel) (offs (d2 :: ds) (f * d) (sel2 :: sels))).
    rewrite length_prodlist, map_length, IH by (simpl in *; try lia; congruence). reflexivity.
Qed.

Lemma nth_offs ds : forall f sels ks ps, length ds = length sels -> ds <> [] -> picks sels ks ps ->
  nth_error (offs (map Z.of_nat ds) f sels) (lin (sizes sels) ks) = Some (f * Z.of_nat (lin ds ps)).
Proof.
  induction ds as [|d ds IH]; intros f [|sel sels] ks ps HL HN HP; simpl in HL; try lia; try congruence.
  destruct ks as [|k ks], ps as [|p ps]; simpl in HP; try tauto. destruct HP as [HP1 HP2].
  destruct ds as [|d2 ds].
  - destruct sels; simpl in HL; [|lia]. destruct ks, ps; simpl in HP2; try tauto.
    simpl. rewrite Nat.mul_0_r, Nat.add_0_r, nth_error_map, HP1. simpl. f_equal. lia.
  - destruct sels as [|sel2 sels]; [simpl in HL; lia|].
    change (offs (map Z.of_nat (d :: d2 :: ds)) f (sel :: sel2 :: sels))
      with (prodlist (map (fun p => f * Z.of_nat p) sel) (offs (map Z.of_nat (d2 :: ds)) (f * Z.of_nat d) (sel2 :: sels))).
    change (sizes (sel :: sel2 :: sels)) with (length sel :: sizes (sel2 :: sels)).
    rewrite !lin_cons.
    replace (length sel) with (length (map (fun p => f * Z.of_nat p) sel)) by apply map_length.
    erewrite nth_prodlist.
    2:{ rewrite nth_error_map, HP1. reflexivity. }
    2:{ apply IH; eauto; try (simpl in *; lia); congruence. }
    f_equal. rewrite Nat2Z.inj_add, Nat2Z.inj_mul. ring.
Qed.

Lemma picks_exists sels : forall ks, valid (sizes sels) ks -> exists ps, picks sels ks ps.
Proof.
  induction sels as [|sel sels IH]; intros ks HV.
  - apply valid_nil in HV. subst. exists []. simpl; auto.
  - simpl in HV. inversion HV as [|x y l l' Hx Hl]; subst. destruct (IH l Hl) as [ps Hps].
    destruct (nth_error_lt sel x Hx) as [p Hp]. exists (p :: ps). simpl. auto.
Qed.

Lemma picks_valid_ks sels : forall ks ps, picks sels ks ps -> valid (sizes sels) ks.
Proof.
  induction sels as [|sel sels IH]; intros [|k ks] [|p ps] H; simpl in H; try tauto.
  - constructor.
  - destruct H as [H1 H2]. constructor; [eapply nth_error_lt_inv; eauto|eapply IH; eauto].
Qed.

Lemma selects_lt d s sel : selects d s sel -> Forall (fun p => p < d)%nat sel.
Proof.
  intros H. destruct H as [|p Hp|a b k Hab Hb Hk|l HF].
  - apply Forall_forall. intros x Hx. apply in_seq in Hx. lia.
  - constructor; auto.
  - apply Forall_forall. intros x Hx. unfold arith in Hx. apply in_map_iff in Hx.
    destruct Hx as (j & <- & Hj). apply in_seq in Hj.
    assert (k * ((b - a) / k) <= b - a)%nat by (apply Nat.mul_div_le; lia). nia.
  - auto.
Qed.

Lemma picks_valid ds : forall ss sels ks ps, selections ds ss sels -> picks sels ks ps -> valid ds ps.
Proof.
  induction ds as [|d ds IH]; intros [|s ss] [|sel sels] [|k ks] [|p ps] HS HP; simpl in HS, HP; try tauto.
  - constructor.
  - destruct HS as [HS1 HS2], HP as [HP1 HP2]. constructor; [|eapply IH; eauto].
    assert (HF := selects_lt _ _ _ HS1). rewrite Forall_forall in HF. apply HF. eapply nth_error_In; eauto.
Qed.

(* every offset lies inside the tensor *)
Lemma offs_bound ds ss sels x : selections ds ss sels -> ds <> [] ->
  In x (offs (map Z.of_nat ds) 1 sels) -> 0 <= x < Z.of_nat (prod ds).
Proof.
  intros HS HN Hx. destruct (selections_len _ _ _ HS) as [L1 L2].
  apply In_nth_error in Hx. destruct Hx as [q Hq].
  assert (Hlt := nth_error_lt_inv _ _ _ Hq).
  rewrite length_offs in Hlt; [|rewrite map_length; lia|destruct ds; simpl; congruence].
  destruct (lin_surj _ _ Hlt) as (ks & Hks & <-).
  destruct (picks_exists _ _ Hks) as [ps Hps].
  rewrite (nth_offs ds 1 sels ks ps) in Hq; auto.
  rewrite Z.mul_1_l in Hq. inversion Hq. assert (lin ds ps < prod ds)%nat by (apply lin_lt; eapply picks_valid; eauto). lia.
Qed.

(* ---- loops ---- *)
Lemma read_loop_ok F l P (d : list A) : gen F l P ->
  forall rest fuel n r pre tail vals,
  (F <= fuel)%nat -> (length rest < n)%nat -> P r rest ->
  length tail = length rest ->
  Forall2 (fun j v => 0 <= j /\ nth_error d (Z.to_nat j) = Some v) rest vals ->
  read_loop fuel n d r (pre ++ tail, length pre) = Ok (pre ++ vals).
Proof.
  intros G. induction rest as [|j rest IH]; intros fuel n r pre tail vals HF Hn HP HT HV.
  - inversion HV; subst. destruct tail; [|simpl in HT; lia].
    destruct n as [|n]; [lia|]. cbn [read_loop].
    destruct (gen_nil _ _ _ G fuel r HF HP) as (r' & E & _). rewrite E. cbn [bind].
    rewrite Z.eqb_refl. reflexivity.
  - inversion HV as [|? v ? vals' [Hj Hv] HV']; subst.
    destruct tail as [|y tail]; [simpl in HT; lia|].
    destruct n as [|n]; [lia|]. cbn [read_loop].
    destruct (gen_cons _ _ _ G fuel r _ _ HF HP) as (r' & E & HP'). rewrite E. cbn [bind].
    destruct (Z.eqb_spec j nomore) as [En|_]; [unfold nomore in En; lia|].
    unfold rdZ. destruct (Z.ltb_spec j 0); [lia|]. rewrite (rd_ok _ _ _ Hv). cbn [bind].
    unfold put. rewrite wr_ok by (rewrite app_length; simpl; lia). cbn [bind].
    rewrite upd_app_mid.
    replace (pre ++ v :: tail) with ((pre ++ [v]) ++ tail) by (rewrite <- app_assoc; reflexivity).
    replace (S (length pre)) with (length (pre ++ [v])) by (rewrite app_length; simpl; lia).
    rewrite (IH fuel n r' (pre ++ [v]) tail vals'); auto; try (simpl in *; lia).
    rewrite <- app_assoc. reflexivity.
Qed.

(* successive writes *)
Fixpoint writes (d : list A) (js : list Z) (vs : list A) : list A :=
  match js, vs with
  | j :: js', v :: vs' => writes (upd d (Z.to_nat j) v) js' vs'
  | _, _ => d
  end.

Lemma length_writes js : forall vs d, length (writes d js vs) = length d.
Proof. induction js as [|j js IH]; intros [|v vs] d; simpl; auto. rewrite IH, length_upd. auto. Qed.

Lemma writes_out js : forall vs d q, (forall j, In j js -> Z.to_nat j <> q) ->
  nth_error (writes d js vs) q = nth_error d q.
Proof.
  induction js as [|j js IH]; intros [|v vs] d q H; simpl; auto.
  rewrite IH by (intros; apply H; right; auto).
  apply nth_error_upd_ne. intros ->. apply (H j); [left|]; auto.
Qed.

Lemma writes_in js : forall vs d k j v, Forall (fun j => 0 <= j < Z.of_nat (length d)) js ->
  NoDup js -> nth_error js k = Some j -> nth_error vs k = Some v -> 
  nth_error (writes d js vs) (Z.to_nat j) = Some v.
Proof.
  induction js as [|j0 js IH]; intros [|v0 vs] d k j v HF HN Hj Hv; destruct k as [|k]; simpl in *; try discriminate.
  - inversion Hj; inversion Hv; subst. inversion HF; subst. inversion HN; subst.
    rewrite writes_out.
    + apply nth_error_upd_eq. lia.
    + intros j' Hj' E. apply H3. assert (j' = j).
      { rewrite Forall_forall in H2. specialize (H2 j' Hj'). lia. }
      subst; auto.
  - inversion HF; subst. inversion HN; subst. apply (IH vs _ k); auto.
    rewrite length_upd. auto.
Qed.

Lemma copy_loop_ok F l P (src : list A) : gen F l P ->
  forall rest fuel n r i d,
  (F <= fuel)%nat -> (length rest < n)%nat -> P r rest -> (i + length rest <= length src)%nat ->
  Forall (fun j => 0 <= j < Z.of_nat (length d)) rest ->
  copy_loop fuel n src r i d = Ok (writes d rest (skipn i src)).
Proof.
  intros G. induction rest as [|j rest IH]; intros fuel n r i d HF Hn HP HS HB.
  - destruct n as [|n]; [lia|]. cbn [copy_loop].
    destruct (gen_nil _ _ _ G fuel r HF HP) as (r' & E & _). rewrite E. cbn [bind].
    rewrite Z.eqb_refl. reflexivity.
  - inversion HB; subst. simpl in HS.
    destruct n as [|n]; [lia|]. cbn [copy_loop].
    destruct (gen_cons _ _ _ G fuel r _ _ HF HP) as (r' & E & HP'). rewrite E. cbn [bind].
    destruct (Z.eqb_spec j nomore) as [En|_]; [unfold nomore in En; lia|].
    destruct (nth_error_lt src i ltac:(lia)) as [v Hv]. rewrite (rd_ok _ _ _ Hv). cbn [bind].
    unfold store, wrZ. destruct (Z.ltb_spec j 0); [lia|]. rewrite wr_ok by lia. cbn [bind].
    rewrite (IH fuel n r' (S i)); auto; try (simpl in *; lia).
    + destruct (skipn i src) as [|w tl] eqn:Es.
      { apply skipn_nil_len in Es. lia. }
      destruct (skipn_cons _ _ _ _ Es) as (Hw & Ht & _). rewrite Ht. simpl. congruence.
    + rewrite length_upd. auto.
Qed.

Lemma fill_loop_ok F l P (v : A) : gen F l P ->
  forall rest fuel n r d,
  (F <= fuel)%nat -> (length rest < n)%nat -> P r rest ->
  Forall (fun j => 0 <= j < Z.of_nat (length d)) rest ->
  fill_loop fuel n v r d = Ok (writes d rest (repeat v (length rest))).
Proof.
  intros G. induction rest as [|j rest IH]; intros fuel n r d HF Hn HP HB.
  - destruct n as [|n]; [lia|]. cbn [fill_loop].
    destruct (gen_nil _ _ _ G fuel r HF HP) as (r' & E & _). rewrite E. cbn [bind].
    rewrite Z.eqb_refl. reflexivity.
  - inversion HB; subst.
    destruct n as [|n]; [lia|]. cbn [fill_loop].
    destruct (gen_cons _ _ _ G fuel r _ _ HF HP) as (r' & E & HP'). rewrite E. cbn [bind].
    destruct (Z.eqb_spec j nomore) as [En|_]; [unfold nomore in En; lia|].
    unfold store, wrZ. destruct (Z.ltb_spec j 0); [lia|]. rewrite wr_ok by lia. cbn [bind].
    rewrite (IH fuel n r'); auto; try (simpl in *; lia). rewrite length_upd. auto.
Qed.

Lemma copy_view_loop_ok F1 l1 P1 F2 l2 P2 (src : list A) : gen F1 l1 P1 -> gen F2 l2 P2 ->
  forall rest1 rest2 fuel n r1 r2 d vals,
  (F1 <= fuel)%nat -> (F2 <= fuel)%nat -> (length rest1 < n)%nat -> P1 r1 rest1 -> P2 r2 rest2 ->
  length rest1 = length rest2 ->
  Forall2 (fun j v => 0 <= j /\ nth_error src (Z.to_nat j) = Some v) rest2 vals ->
  Forall (fun j => 0 <= j < Z.of_nat (length d)) rest1 ->
  copy_view_loop fuel n src r1 r2 d = Ok (writes d rest1 vals).
Proof.
  intros G1 G2. induction rest1 as [|j rest1 IH]; intros rest2 fuel n r1 r2 d vals HF1 HF2 Hn HP1 HP2 HL HV HB.
  - destruct rest2; [|simpl in HL; lia]. inversion HV; subst.
    destruct n as [|n]; [lia|]. cbn [copy_view_loop].
    destruct (gen_nil _ _ _ G1 fuel r1 HF1 HP1) as (r' & E & _). rewrite E. cbn [bind].
    destruct (gen_nil _ _ _ G2 fuel r2 HF2 HP2) as (r'' & E' & _). rewrite E'. cbn [bind].
    reflexivity.
  - destruct rest2 as [|i rest2]; [simpl in HL; lia|].
    inversion HV as [|? v ? vals' [Hj Hv] HV']; subst. inversion HB; subst.
    destruct n as [|n]; [lia|]. cbn [copy_view_loop].
    destruct (gen_cons _ _ _ G1 fuel r1 _ _ HF1 HP1) as (r' & E & HP1'). rewrite E. cbn [bind].
    destruct (gen_cons _ _ _ G2 fuel r2 _ _ HF2 HP2) as (r'' & E' & HP2'). rewrite E'. cbn [bind].
    destruct (Z.eqb_spec j nomore) as [En|_]; [unfold nomore in En; lia|].
    destruct (Z.eqb_spec i nomore) as [En|_]; [unfold nomore in En; lia|]. cbn [orb].
    unfold rdZ. destruct (Z.ltb_spec i 0); [lia|]. rewrite (rd_ok _ _ _ Hv). cbn [bind].
    unfold store, wrZ. destruct (Z.ltb_spec j 0); [lia|]. rewrite wr_ok by lia. cbn [bind].
    rewrite (IH rest2 fuel n r' r'' _ vals'); auto; try (simpl in *; lia). rewrite length_upd. auto.
Qed.

Lemma total_sizeZ_nat (l : list nat) : total_sizeZ (map Z.of_nat l) = Z.of_nat (nelem l).
Proof.
  rewrite <- total_size_nelem. unfold total_size. rewrite Z2Nat.id; auto.
  unfold total_sizeZ. destruct l as [|d l]; [simpl; lia|].
  change (0 <= total_size_loop 1 (map Z.of_nat (d :: l))). rewrite total_size_loop_prod. lia.
Qed.

(* values at in-bounds offsets *)
Lemma vals_exist (d : list A) (js : list Z) : Forall (fun j => 0 <= j < Z.of_nat (length d)) js ->
  exists vals, Forall2 (fun j v => 0 <= j /\ nth_error d (Z.to_nat j) = Some v) js vals.
Proof.
  induction 1 as [|j js Hj _ (vals & IH)]; [exists []; constructor|].
  destruct (nth_error_lt d (Z.to_nat j) ltac:(lia)) as [v Hv].
  exists (v :: vals). constructor; auto. split; [lia|auto].
Qed.

Lemma Forall2_nth {X Y} (R : X -> Y -> Prop) l1 : forall l2 k x, Forall2 R l1 l2 ->
  nth_error l1 k = Some x -> exists y, nth_error l2 k = Some y /\ R x y.
Proof.
  induction l1 as [|a l1 IH]; intros l2 k x HF Hk; [destruct k; discriminate|].
  inversion HF; subst. destruct k as [|k]; simpl in *.
  - inversion Hk; subst. eauto.
  - eauto.
Qed.

Lemma Forall2_len {X Y} (R : X -> Y -> Prop) l1 l2 : Forall2 R l1 l2 -> length l1 = length l2.
Proof. induction 1; simpl; auto. Qed.

Theorem c09_slice (t : tensor A) (ss : list rspec) (sels : list (list nat)) (junk : nat -> A) :
  wf t -> dims t <> [] -> Forall (fun d => 0 < d)%nat (dims t) -> selections (dims t) ss sels ->
  exists u : tensor A, wf u /\ dims u = sizes sels /\
    (forall ks ps, picks sels ks ps -> elt u ks = elt t ps) /\
    exists F, forall fuel, (F <= fuel)%nat -> slice fuel junk t ss = Ok (map Z.of_nat (dims u), data u).
Proof.
  intros Hwf HN HD HS. destruct (selections_len _ _ _ HS) as [L1 L2].
  assert (HNz : map Z.of_nat (dims t) <> []) by (destruct (dims t); simpl; congruence).
  assert (HDz := pos_of_nat _ HD).
  destruct (make_view_ok t ss sels Hwf HD HN HS) as (r & Ev & HC).
  destruct (comp_gen (map Z.of_nat (dims t)) 1 sels ltac:(lia) HDz ltac:(rewrite map_length; lia) HNz) as (P & G & HR).
  set (js := offs (map Z.of_nat (dims t)) 1 sels) in *.
  assert (Hlen : length js = prod (sizes sels)).
  { apply length_offs; [rewrite map_length; lia|auto]. }
  assert (HB : Forall (fun j => 0 <= j < Z.of_nat (length (data t))) js).
  { apply Forall_forall. intros x Hx. unfold wf in Hwf. rewrite Hwf, nelem_prod by auto.
    eapply offs_bound; eauto. }
  destruct (vals_exist (data t) js HB) as [vals HV].
  assert (HLv := Forall2_len _ _ _ HV).
  assert (HNs : sizes sels <> []).
  { intros E. apply map_eq_nil in E. subst. simpl in L2. destruct (dims t); simpl in L2; [congruence|lia]. }
  exists (mkT (sizes sels) vals). cbn [dims data]. split.
  { unfold wf; cbn [dims data]. rewrite <- HLv, Hlen, nelem_prod; auto. }
  split; [auto|]. split.
  - intros ks ps HP.
    assert (Hvk := picks_valid_ks _ _ _ HP). assert (Hvp := picks_valid _ _ _ _ _ HS HP).
    rewrite !elt_valid by auto. cbn [dims data].
    assert (Hq := nth_offs (dims t) 1 sels ks ps ltac:(lia) HN HP). fold js in Hq.
    destruct (Forall2_nth _ _ _ _ _ HV Hq) as (v & Hv & _ & Hv').
    rewrite Hv. rewrite <- Hv'. f_equal. lia.
  - exists (Nat.max (fuel_for (map Z.of_nat (dims t)) 1 sels) (S (length js))). intros fuel HF.
    unfold slice. rewrite Ev. cbn [bind view_to_tensor].
    destruct (HR r fuel ltac:(lia) HC) as (r' & Er & HP). rewrite Er. cbn [bind].
    rewrite total_sizeZ_nat, Nat2Z.id.
    assert (E := read_loop_ok _ _ _ (data t) G js fuel fuel r' [] (alloc junk (nelem (sizes sels))) vals
      ltac:(lia) ltac:(lia) HP ltac:(rewrite length_alloc, nelem_prod by auto; lia) HV).
    simpl app in E. simpl length in E. rewrite E. reflexivity.
Qed.

(* distinct selected positions *)
Lemma picks_inj sels : Forall (@NoDup nat) sels -> forall ks1 ks2 ps, picks sels ks1 ps -> picks sels ks2 ps -> ks1 = ks2.
Proof.
  induction sels as [|sel sels IH]; intros HN [|k1 ks1] [|k2 ks2] [|p ps] H1 H2; simpl in *; try tauto.
  inversion HN; subst. destruct H1 as [H1 H1'], H2 as [H2 H2'].
  f_equal; [|eapply IH; eauto].
  eapply (proj1 (NoDup_nth_error sel)); eauto.
  - eapply nth_error_lt_inv; eauto.
  - congruence.
Qed.

Lemma offs_nodup ds ss sels : selections ds ss sels -> ds <> [] -> Forall (@NoDup nat) sels ->
  NoDup (offs (map Z.of_nat ds) 1 sels).
Proof.
  intros HS HN HD. destruct (selections_len _ _ _ HS) as [L1 L2].
  apply NoDup_nth_error. intros q1 q2 Hq1 E.
  assert (Hlen : length (offs (map Z.of_nat ds) 1 sels) = prod (sizes sels)).
  { apply length_offs; [rewrite map_length; lia|destruct ds; simpl; congruence]. }
  assert (Hq2 : (q2 < prod (sizes sels))%nat).
  { rewrite <- Hlen. apply nth_error_Some. rewrite <- E. apply nth_error_Some; auto. }
  rewrite Hlen in Hq1.
  destruct (lin_surj _ _ Hq1) as (ks1 & Hk1 & <-). destruct (lin_surj _ _ Hq2) as (ks2 & Hk2 & <-).
  destruct (picks_exists _ _ Hk1) as [ps1 HP1]. destruct (picks_exists _ _ Hk2) as [ps2 HP2].
  rewrite (nth_offs ds 1 sels ks1 ps1), (nth_offs ds 1 sels ks2 ps2) in E; auto.
  rewrite !Z.mul_1_l in E. assert (El : lin ds ps1 = lin ds ps2) by (inversion E; lia).
  assert (ps1 = ps2).
  { eapply lin_inj; eauto; eapply picks_valid; eauto. }
  subst. f_equal. eapply picks_inj; eauto.
Qed.

(* element-level meaning of a block of writes *)
Lemma writes_elts (t : tensor A) ss sels (vals : list A) :
  wf t -> dims t <> [] -> selections (dims t) ss sels -> Forall (@NoDup nat) sels ->
  length vals = prod (sizes sels) ->
  let t' := mkT (dims t) (writes (data t) (offs (map Z.of_nat (dims t)) 1 sels) vals) in
  wf t' /\
  (forall ks ps, picks sels ks ps -> elt t' ps = nth_error vals (lin (sizes sels) ks)) /\
  (forall ps, (forall ks, ~ picks sels ks ps) -> elt t' ps = elt t ps).
Proof.
  intros Hwf HN HS HD Hlv t'. destruct (selections_len _ _ _ HS) as [L1 L2].
  split; [|split].
  - unfold wf, t'; simpl. rewrite length_writes. exact Hwf.
  - intros ks ps HP. assert (Hvp := picks_valid _ _ _ _ _ HS HP).
    rewrite elt_valid by (simpl; auto). unfold t'; cbn [dims data].
    assert (Hq := nth_offs (dims t) 1 sels ks ps ltac:(lia) HN HP).
    assert (Hvk := picks_valid_ks _ _ _ HP).
    destruct (nth_error_lt vals (lin (sizes sels) ks)) as [v Hv].
    { rewrite Hlv. apply lin_lt; auto. }
    rewrite Hv. replace (lin (dims t) ps) with (Z.to_nat (1 * Z.of_nat (lin (dims t) ps))) by lia.
    eapply writes_in; eauto.
    + apply Forall_forall. intros x Hx. unfold wf in Hwf. rewrite Hwf, nelem_prod by auto. eapply offs_bound; eauto.
    + eapply offs_nodup; eauto.
  - intros ps Hnp. unfold elt, t'; cbn [dims data]. destruct (validb (dims t) ps) eqn:Ev; auto.
    apply writes_out. intros j Hj Ej.
    apply In_nth_error in Hj. destruct Hj as [q Hq].
    assert (Hlt := nth_error_lt_inv _ _ _ Hq).
    rewrite length_offs in Hlt; [|rewrite map_length; lia|destruct (dims t); simpl; congruence].
    destruct (lin_surj _ _ Hlt) as (ks & Hks & <-).
    destruct (picks_exists _ _ Hks) as [ps' Hps'].
    rewrite (nth_offs (dims t) 1 sels ks ps') in Hq; auto. rewrite Z.mul_1_l in Hq. inversion Hq; subst j.
    apply (Hnp ks). assert (ps' = ps); [|subst; auto].
    apply validb_iff in Ev. eapply lin_inj; eauto; [eapply picks_valid; eauto|]. lia.
Qed.

Lemma nth_repeat (v : A) n k : (k < n)%nat -> nth_error (repeat v n) k = Some v.
Proof. revert k; induction n as [|n IH]; intros [|k] H; simpl; auto; try lia. apply IH; lia. Qed.

Section Assign.
Variables (t : tensor A) (ss : list rspec) (sels : list (list nat)).
Hypotheses (Hwf : wf t) (HN : dims t <> []) (HD : Forall (fun d => 0 < d)%nat (dims t))
  (HS : selections (dims t) ss sels) (HU : Forall (@NoDup nat) sels).

Lemma sizes_nonnil : sizes sels <> [].
Proof.
  destruct (selections_len _ _ _ HS) as [L1 L2].
  intros E. apply map_eq_nil in E. subst. simpl in L2. destruct (dims t); simpl in L2; [congruence|lia].
Qed.

Lemma setup : exists r P F, make_view t ss = Ok (map Z.of_nat (sizes sels), r) /\
  gen F (offs (map Z.of_nat (dims t)) 1 sels) P /\
  (forall fuel, (F <= fuel)%nat -> exists r', reset fuel r = Ok r' /\ P r' (offs (map Z.of_nat (dims t)) 1 sels)) /\
  length (offs (map Z.of_nat (dims t)) 1 sels) = prod (sizes sels) /\
  Forall (fun j => 0 <= j < Z.of_nat (length (data t))) (offs (map Z.of_nat (dims t)) 1 sels).
Proof.
  destruct (selections_len _ _ _ HS) as [L1 L2].
  assert (HNz : map Z.of_nat (dims t) <> []) by (destruct (dims t); simpl; congruence).
  assert (HDz := pos_of_nat _ HD).
  destruct (make_view_ok t ss sels Hwf HD HN HS) as (r & Ev & HC).
  destruct (comp_gen (map Z.of_nat (dims t)) 1 sels ltac:(lia) HDz ltac:(rewrite map_length; lia) HNz) as (P & G & HR).
  exists r, P, (fuel_for (map Z.of_nat (dims t)) 1 sels).
  split; [auto|]. split; [auto|]. split; [intros; apply HR; auto|]. split.
  - apply length_offs; [rewrite map_length; lia|auto].
  - apply Forall_forall. intros x Hx. rewrite Hwf, nelem_prod by auto. eapply offs_bound; eauto.
Qed.

(* the result of a slice assignment of the values vals *)
Definition assigned (t' : tensor A) (vals : list A) : Prop :=
  wf t' /\ dims t' = dims t /\
  (forall ks ps, picks sels ks ps -> elt t' ps = nth_error vals (lin (sizes sels) ks)) /\
  (forall ps, (forall ks, ~ picks sels ks ps) -> elt t' ps = elt t ps).

Lemma c10_scalar (v : A) :
  exists t', assigned t' (repeat v (prod (sizes sels))) /\
    exists F, forall fuel, (F <= fuel)%nat -> assign_scalar fuel t ss v = Ok t'.
Proof.
  destruct setup as (r & P & F & Ev & G & HR & Hlen & HB).
  set (js := offs (map Z.of_nat (dims t)) 1 sels) in *.
  exists (mkT (dims t) (writes (data t) js (repeat v (length js)))). split.
  - destruct (writes_elts t ss sels (repeat v (length js)) Hwf HN HS HU) as (W1 & W2 & W3).
    { rewrite repeat_length. auto. }
    split; [exact W1|]. split; [auto|]. split; [|exact W3].
    intros ks ps HP. rewrite <- Hlen. apply W2; auto.
  - exists (Nat.max F (S (length js))). intros fuel HF. unfold assign_scalar. rewrite Ev. cbn [bind].
    destruct (HR fuel ltac:(lia)) as (r' & Er & HP). rewrite Er. cbn [bind].
    rewrite (fill_loop_ok _ _ _ v G js) by (auto; lia). reflexivity.
Qed.

Lemma c10_tensor (u : tensor A) : wf u ->
  (nelem (dims u) = prod (sizes sels) ->
   exists t', assigned t' (data u) /\
     exists F, forall fuel, (F <= fuel)%nat -> assign_tensor fuel t ss u = Ok t') /\
  (nelem (dims u) <> prod (sizes sels) -> forall fuel, assign_tensor fuel t ss u = Abort).
Proof.
  intros Hu. destruct setup as (r & P & F & Ev & G & HR & Hlen & HB).
  assert (HNs := sizes_nonnil).
  set (js := offs (map Z.of_nat (dims t)) 1 sels) in *. split.
  - intros Hsz. exists (mkT (dims t) (writes (data t) js (data u))). split.
    + destruct (writes_elts t ss sels (data u) Hwf HN HS HU) as (W1 & W2 & W3).
      { rewrite Hu. auto. }
      split; [exact W1|]. split; [auto|]. split; [exact W2|exact W3].
    + exists (Nat.max F (S (length js))). intros fuel HF. unfold assign_tensor. rewrite Ev. cbn [bind].
      rewrite total_sizeZ_nat, total_size_nelem, nelem_prod by auto. rewrite Hsz, Z.eqb_refl. cbn [assert_ bind].
      destruct (HR fuel ltac:(lia)) as (r' & Er & HP). rewrite Er. cbn [bind].
      rewrite (copy_loop_ok _ _ _ (data u) G js); auto; try lia.
      unfold wf in Hu. lia.
  - intros Hsz fuel. unfold assign_tensor. rewrite Ev. cbn [bind].
    rewrite total_sizeZ_nat, total_size_nelem, nelem_prod by auto.
    destruct (Z.eqb_spec (Z.of_nat (prod (sizes sels))) (Z.of_nat (nelem (dims u)))); [lia|]. reflexivity.
Qed.

Lemma c10_view (u : tensor A) (su : list rspec) (selu : list (list nat)) :
  wf u -> dims u <> [] -> Forall (fun d => 0 < d)%nat (dims u) -> selections (dims u) su selu ->
  (prod (sizes selu) = prod (sizes sels) ->
   exists t' vals, assigned t' vals /\
     (forall ks ps, picks selu ks ps -> nth_error vals (lin (sizes selu) ks) = elt u ps) /\
     exists F, forall fuel, (F <= fuel)%nat -> assign_view fuel t ss u su = Ok t') /\
  (prod (sizes selu) <> prod (sizes sels) -> forall fuel, assign_view fuel t ss u su = Abort).
Proof.
  intros Hu HNu HDu HSu. destruct setup as (r & P & F & Ev & G & HR & Hlen & HB).
  assert (HNs := sizes_nonnil). 
  destruct (selections_len _ _ _ HSu) as [L1 L2].
  assert (HNz : map Z.of_nat (dims u) <> []) by (destruct (dims u); simpl; congruence).
  assert (HNsu : sizes selu <> []).
  { intros E. apply map_eq_nil in E. subst. simpl in L2. destruct (dims u); simpl in L2; [congruence|lia]. }
  destruct (make_view_ok u su selu Hu HDu HNu HSu) as (r2 & Ev2 & HC2).
  destruct (comp_gen (map Z.of_nat (dims u)) 1 selu ltac:(lia) (pos_of_nat _ HDu) ltac:(rewrite map_length; lia) HNz) as (P2 & G2 & HR2).
  set (js := offs (map Z.of_nat (dims t)) 1 sels) in *.
  set (js2 := offs (map Z.of_nat (dims u)) 1 selu) in *.
  assert (Hlen2 : length js2 = prod (sizes selu)).
  { apply length_offs; [rewrite map_length; lia|auto]. }
  assert (HB2 : Forall (fun j => 0 <= j < Z.of_nat (length (data u))) js2).
  { apply Forall_forall. intros x Hx. rewrite Hu, nelem_prod by auto. eapply offs_bound; eauto. }
  destruct (vals_exist (data u) js2 HB2) as [vals HV]. assert (HLv := Forall2_len _ _ _ HV).
  split.
  - intros Hsz. exists (mkT (dims t) (writes (data t) js vals)), vals. split; [|split].
    + destruct (writes_elts t ss sels vals Hwf HN HS HU) as (W1 & W2 & W3); [lia|].
      split; [exact W1|]. split; [auto|]. split; [exact W2|exact W3].
    + intros ks ps HP. assert (Hq := nth_offs (dims u) 1 selu ks ps ltac:(lia) HNu HP). fold js2 in Hq.
      destruct (Forall2_nth _ _ _ _ _ HV Hq) as (v & Hv & _ & Hv'). rewrite Hv.
      rewrite elt_valid by (eapply picks_valid; eauto). rewrite <- Hv'. f_equal. lia.
    + exists (Nat.max (Nat.max F (fuel_for (map Z.of_nat (dims u)) 1 selu)) (S (length js))).
      intros fuel HF. unfold assign_view. rewrite Ev. cbn [bind]. rewrite Ev2. cbn [bind].
      rewrite !total_sizeZ_nat, !nelem_prod by auto. rewrite Hsz, Z.eqb_refl. cbn [assert_ bind].
      destruct (HR fuel ltac:(lia)) as (r' & Er & HP). rewrite Er. cbn [bind].
      destruct (HR2 r2 fuel ltac:(lia) HC2) as (r2' & Er2 & HP2). rewrite Er2. cbn [bind].
      rewrite (copy_view_loop_ok _ _ _ _ _ _ (data u) G G2 js js2 fuel fuel r' r2' (data t) vals); auto; try lia.
  - intros Hsz fuel. unfold assign_view. rewrite Ev. cbn [bind]. rewrite Ev2. cbn [bind].
    rewrite !total_sizeZ_nat, !nelem_prod by auto.
    destruct (Z.eqb_spec (Z.of_nat (prod (sizes sels))) (Z.of_nat (prod (sizes selu)))); [lia|]. reflexivity.
Qed.

End Assign.
End Use.

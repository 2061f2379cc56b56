From Verif Require Import Base Spec L_Lin M_Tensor L_Tensor M_Arith M_Range S_Range L_Range L_Slice S_Fold L_Fold L_Arith M_Linspace.
Local Open Scope nat_scope.

Definition lin_value (mn mx : Q) (n i : nat) : Q := ((mx - mn) / (qnat n - 1) * qnat i + mn)%Q.
Definition linval {A} (O : linops A) (mn mx : A) (n i : nat) : A := ladd O (lmul O (ldiv O (lsub O mx mn) (lpred O n)) (lnat O i)) mn.
Definition linopt_with {A} (O : linops A) (n i : nat) (mx mn : option A) : option A :=
  opt2 (ladd O) (option_map (fun x => lmul O x (lnat O i)) (option_map (fun x => ldiv O x (lpred O n)) (opt2 (lsub O) mx mn))) mn.
Definition linopt (n i : nat) (mx mn : option Q) : option Q := linopt_with Qlin n i mx mn.

Lemma t_op_t_data {A B C} (op : A -> B -> C) junk (a : tensor A) (b : tensor B) :
  wf a -> length (data a) = length (data b) ->
  exists d, t_op_t op junk a b = Ok (mkT (dims a) d) /\ length d = length (data a) /\
    forall q, q < length (data a) -> nth_error d q = opt2 op (nth_error (data a) q) (nth_error (data b) q).
Proof.
  intros Ha El. unfold t_op_t. rewrite El, Nat.eqb_refl. cbn [assert_ bind]. rewrite <- El.
  destruct (zip_loop op junk (data a) (data b) (data (new_tensor junk (dims a)))) as (d & E1 & Hl & Hd); try lia.
  { rewrite new_tensor_len, Ha; auto. }
  rewrite E1. cbn [bind]. eauto.
Qed.

Lemma t_op_n_data {A B C} (op : A -> B -> C) junk (a : tensor A) b :
  wf a -> exists d, t_op_n op junk a b = Ok (mkT (dims a) d) /\ length d = length (data a) /\
    forall q, nth_error d q = option_map (fun x => op x b) (nth_error (data a) q).
Proof.
  intros Ha. unfold t_op_n.
  rewrite (seq_write_opt_map (fun x => op x b)) by (rewrite new_tensor_len, Ha; auto).
  cbn [bind]. eexists; split; [reflexivity|]. split; [apply map_length|]. intros; apply nth_error_map.
Qed.

Lemma reshape_ok {A} (t : tensor A) ds : length (data t) = nelem ds -> reshape t ds = Ok (mkT ds (data t)).
Proof. intros H. unfold reshape. rewrite total_size_nelem, H, Nat.eqb_refl. reflexivity. Qed.

Lemma linspace_with_ok {A} (O : linops A) junk (mn mx : tensor A) n : wf mn -> wf mx -> dims mn = dims mx -> 0 < length (data mn) -> 1 < n ->
  exists t, (exists F, forall fuel, F <= fuel -> linspace_with O fuel junk mn mx n = Ok t) /\ wf t /\
    dims t = (if length (data mn) =? 1 then [n] else dims mn ++ [n]) /\
    length (data t) = length (data mn) * n /\
    forall p i, p < length (data mn) -> i < n ->
      nth_error (data t) (p + length (data mn) * i) = linopt_with O n i (nth_error (data mx) p) (nth_error (data mn) p).
Proof.
  intros Hmn Hmx Ed Hd Hn. set (d := length (data mn)) in *.
  assert (El : length (data mx) = d) by (unfold d; rewrite Hmn, Hmx, Ed; auto).
  destruct (t_op_t_data (lsub O) junk mx mn Hmx ltac:(lia)) as (d1 & E1 & Hl1 & H1).
  destruct (t_op_n_data (ldiv O) junk (mkT (dims mx) d1) (lpred O n)) as (d2 & E2 & Hl2 & H2).
  { unfold wf; simpl. rewrite Hl1. apply Hmx. }
  simpl in Hl2, H2, E2. 
  assert (Hnd : forall k : nat, nelem [k] = k) by (intros; unfold nelem, prod; simpl; lia).
  assert (Loop : forall k, k <= n -> exists t, (exists F, forall fuel, F <= fuel ->
      for_ k (fun i output =>
         x <- t_op_n (lmul O) junk (mkT [d] d2) (lnat O i) ;;
         y <- t_op_t (ladd O) junk x mn ;;
         assign_tensor fuel output [SFull; SSingle (Z.of_nat i)] y) (new_tensor junk [d; n]) = Ok t) /\
      wf t /\ dims t = [d; n] /\
      forall p i, p < d -> i < k -> elt t [p; i] = linopt_with O n i (nth_error (data mx) p) (nth_error (data mn) p)).
  { induction k as [|k IH]; intros Hk.
    - exists (new_tensor junk [d; n]). split; [exists 0; intros; reflexivity|].
      split; [apply new_tensor_wf|]. split; [reflexivity|]. intros; lia.
    - destruct IH as (t & (F & HF) & Hw & Hds & Ht); [lia|].
      destruct (t_op_n_data (lmul O) junk (mkT [d] d2) (lnat O k)) as (d3 & E3 & Hl3 & H3).
      { unfold wf; simpl. lia. }
      simpl in Hl3, H3, E3.
      destruct (t_op_t_data (ladd O) junk (mkT [d] d3) mn) as (d4 & E4 & Hl4 & H4).
      { unfold wf; simpl. lia. } { simpl. fold d; lia. }
      simpl in Hl4, H4, E4.
      assert (Hsel : selections (dims t) [SFull; SSingle (Z.of_nat k)] [seq 0 d; [k]]).
      { rewrite Hds. simpl. repeat split; constructor; lia. }
      destruct (c10_tensor t [SFull; SSingle (Z.of_nat k)] [seq 0 d; [k]]) with (u := mkT [d] d4) as [(t' & (W1 & W2 & W3 & W4) & F' & HF') _]; auto.
      + rewrite Hds; discriminate.
      + rewrite Hds. repeat constructor; lia.
      + repeat constructor; [apply seq_NoDup|simpl; tauto].
      + unfold wf; simpl. rewrite Hl4, Hl3; lia.
      + unfold sizes. cbn [map length]. rewrite seq_length. unfold nelem, prod; simpl; lia.
      + exists t'. split.
        { exists (Nat.max F F'). intros fuel Hf. rewrite for_S, HF by lia. cbn [bind]. rewrite E3. cbn [bind].
          rewrite E4. cbn [bind]. apply HF'. lia. }
        split; [auto|]. split; [congruence|]. intros p i Hp Hi.
        destruct (Nat.eq_dec i k) as [->|Hne].
        * rewrite (W3 [p; 0] [p; k]) by (simpl; repeat split; apply nth_error_seq0; auto).
          unfold sizes. cbn [map length]. rewrite seq_length, !lin_cons, lin_nil.
          replace (p + d * (0 + 1 * 0)) with p by lia. cbn [data]. rewrite H4 by lia.
          rewrite H3, H2, H1 by lia. reflexivity.
        * rewrite W4. { apply Ht; lia. }
          intros [|a [|b [|]]] Hpk; simpl in Hpk; try tauto.
          destruct Hpk as (_ & Hb & _). destruct b; simpl in Hb; [congruence|destruct b; discriminate]. }
  destruct (Loop n (Nat.le_refl n)) as (t & (F & HF) & Hw & Hds & Ht).
  assert (Hlen : length (data t) = d * n) by (rewrite Hw, Hds; unfold nelem, prod; simpl; lia).
  assert (HE : forall fuel, F <= fuel -> linspace_with O fuel junk mn mx n =
     if d =? 1 then reshape t [n] else reshape t (dims mn ++ [n])).
  { intros fuel Hf. unfold linspace_with. fold d. replace (n =? 1) with false by lia. replace (n =? 0) with false by lia.
    rewrite reshape_ok by (rewrite Hnd; auto). cbn [bind]. rewrite E1. cbn [bind]. rewrite E2. cbn [bind].
    rewrite reshape_ok by (cbn [data]; rewrite Hnd; lia). cbn [bind data]. rewrite HF by auto. reflexivity. }
  assert (Hds' : dims mn <> []) by (intros E; apply wf_nil_data in E; auto; unfold d in Hd; rewrite E in Hd; simpl in Hd; lia).
  assert (Hfin : forall p i, p < d -> i < n -> nth_error (data t) (p + d * i) = linopt_with O n i (nth_error (data mx) p) (nth_error (data mn) p)).
  { intros p i Hp Hi. rewrite <- (Ht p i Hp Hi). rewrite elt_valid by (rewrite Hds; repeat constructor; auto).
    rewrite Hds, !lin_cons, lin_nil. f_equal. lia. }
  assert (Hp : nelem (dims mn ++ [n]) = d * n).
  { rewrite nelem_prod by (destruct (dims mn); discriminate). rewrite prod_app. unfold d. rewrite Hmn, nelem_prod by auto.
    rewrite prod_cons. replace (prod []) with 1 by reflexivity. lia. }
  destruct (Nat.eq_dec d 1) as [E1d|E1d].
  - exists (mkT [n] (data t)). replace (d =? 1) with true in * by lia. split.
    + exists F. intros fuel Hf. rewrite HE by auto. rewrite reshape_ok; [auto|]. rewrite Hnd; lia.
    + split; [unfold wf; simpl; lia|]. split; [reflexivity|]. split; [auto|]. exact Hfin.
  - exists (mkT (dims mn ++ [n]) (data t)). replace (d =? 1) with false in * by lia. split.
    + exists F. intros fuel Hf. rewrite HE by auto. rewrite reshape_ok; [auto|]. lia.
    + split; [unfold wf; simpl; lia|]. split; [reflexivity|]. split; [auto|]. exact Hfin.
Qed.

Lemma linspace_ok junk (mn mx : tensor Q) n : wf mn -> wf mx -> dims mn = dims mx -> 0 < length (data mn) -> 1 < n ->
  exists t, (exists F, forall fuel, F <= fuel -> linspace fuel junk mn mx n = Ok t) /\ wf t /\
    dims t = (if length (data mn) =? 1 then [n] else dims mn ++ [n]) /\
    length (data t) = length (data mn) * n /\
    forall p i, p < length (data mn) -> i < n ->
      nth_error (data t) (p + length (data mn) * i) = linopt n i (nth_error (data mx) p) (nth_error (data mn) p).
Proof. exact (linspace_with_ok Qlin junk mn mx n). Qed.

Lemma qnat_pos n : 1 < n -> ~ (qnat n - 1 == 0)%Q.
Proof. unfold qnat, inject_Z, Qminus, Qplus, Qeq; simpl. lia. Qed.

Lemma lin_value_spec mn mx n i : 1 < n -> (lin_value mn mx n i == mn + (mx - mn) * (qnat i / (qnat n - 1)))%Q.
Proof. intros H. unfold lin_value. field. apply qnat_pos; auto. Qed.

Lemma linspace_one fuel junk (mn mx : tensor Q) : wf mn -> dims mn <> [] ->
  linspace fuel junk mn mx 1 = Ok (mkT (if length (data mn) =? 1 then [1] else dims mn ++ [1]) (data mn)).
Proof.
  intros Hw Hne. unfold linspace, linspace_with. simpl Nat.eqb. cbn [bind].
  destruct (Nat.eq_dec (length (data mn)) 1) as [E|E].
  - rewrite E, Nat.eqb_refl. apply reshape_ok. rewrite E. reflexivity.
  - replace (length (data mn) =? 1) with false by lia. apply reshape_ok.
    rewrite Hw, !nelem_prod by (auto; destruct (dims mn); discriminate). rewrite prod_app, prod_cons.
    replace (prod []) with 1 by reflexivity. lia.
Qed.

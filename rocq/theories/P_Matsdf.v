(* C87: the Matlab reader of SDF files.  Vocabulary: S_Sdf.v, S_Matsdf.v *)
From Verif Require Import Base Spec S_Sdf S_Pysdf S_Matsdf M_Sdf L_Sdf L_Sdf2 P_Sdf M_Pysdf L_Pysdf M_Matsdf L_Matsdf.
Import S_Matsdf.
Local Open Scope Z_scope.

(* What the library writes into a new file, whatever the mode, sdf_load reads,
   whatever was read before: the struct has a field for each name, with the
   values written under it, bit by bit: one value as an array of its dimensions,
   several ones along a new last dimension, in the order of writing; and no
   other fields.  [mat_record] says which names and values: names that Matlab
   allows for a field and that do not start with "sdf".  The contents of vectors
   of tensors are not loaded (their field is []). *)
Theorem C87_load_partial : forall tag endian depth m rs s,
  (2 <= depth)%nat -> m = Shared /\ main s = None \/ m = Overwrite \/ m = Paranoid ->
  Forall mat_record rs -> consistent rs -> rs <> [] ->
  exists s' tr file d, session m rs s = (Ok tt, s', tr) /\ main s' = Some file /\
    mat_load tag endian depth file = Ok d /\
    forall name, get_item d name = match values_of rs name with [] => None | vs => Some (matlab_of double_bits vs) end.
Proof.
  intros tag endian depth m rs s Hdep Hm Hr Hc Hn.
  assert (Hs : exists t tr, session m rs s = (Ok tt, mkFS (Some (header ++ records rs)) t, tr)).
  { destruct Hm as [[-> Hm]|[->| ->]].
    - destruct (session_shared rs s) as (tr & E). rewrite Hm in E. eauto.
    - destruct (session_overwrite rs s) as (tr & E). eauto.
    - destruct (session_paranoid rs s) as (tr & E & _). eauto. }
  destruct Hs as (t & tr & E). destruct (load_prefix tag endian depth rs [] Hdep Hn Hr Hc) as (d & fuel & Hd & El). rewrite app_nil_r in El.
  exists (mkFS (Some (header ++ records rs)) t), tr, (header ++ records rs), d. split; [exact E|]. split; [reflexivity|]. split; [|exact Hd].
  rewrite El. destruct depth as [|depth]; [lia|]. apply loop_end.
Qed.
Print Assumptions C87_load_partial.

(* The same after several sessions that append to one file. *)
Theorem C87_load_appended_partial : forall tag endian depth l s, (2 <= depth)%nat -> main s = None ->
  Forall (Forall mat_record) l -> consistent (concat l) -> concat l <> [] ->
  exists s' tr file d, sessions Shared l s = (Ok tt, s', tr) /\ main s' = Some file /\
    mat_load tag endian depth file = Ok d /\
    forall name, get_item d name = match values_of (concat l) name with [] => None | vs => Some (matlab_of double_bits vs) end.
Proof.
  intros tag endian depth l s Hdep Hm Hr Hc Hn. destruct (sessions_shared l s) as (tr & E). rewrite Hm in E. destruct l as [|rs l]; [contradiction|].
  destruct (load_prefix tag endian depth (concat (rs :: l)) [] Hdep Hn) as (d & fuel & Hd & El); [apply Forall_concat; auto|auto|]. rewrite app_nil_r in El.
  eexists _, tr, _, d. split; [exact E|]. split; [reflexivity|]. split; [|exact Hd].
  rewrite El. destruct depth as [|depth]; [lia|]. apply loop_end.
Qed.
Print Assumptions C87_load_appended_partial.

(* C87 fails after a value written without a name that has no elements (any
   vector of tensors, and the empty tensor): what follows in the file is not
   read, and nothing is reported. *)
Theorem C87_unnamed_refuted : forall tag endian depth rs v rs',
  (2 <= depth)%nat -> Forall mat_record rs -> consistent rs -> rs <> [] -> ok_value v -> mat_value v ->
  match v with VRs _ | VCs _ => True | VR t => selts t = [] /\ sdims t = [] | VC t => selts t = [] /\ sdims t = [] | _ => False end ->
  exists d, mat_load tag endian depth (header ++ records (rs ++ ([], v) :: rs')) = Ok d /\
    forall name, get_item d name = match values_of rs name with [] => None | vs => Some (matlab_of double_bits vs) end.
Proof.
  intros tag endian depth rs v rs' Hdep Hr Hc Hn H1 H2 Hv.
  replace (records (rs ++ ([], v) :: rs')) with (records rs ++ concat (dump v []) ++ records rs').
  2:{ unfold records. rewrite flat_map_app, concat_app. cbn [flat_map fst snd]. rewrite concat_app. reflexivity. }
  destruct (load_prefix tag endian depth rs (concat (dump v []) ++ records rs') Hdep Hn Hr Hc) as (d & fuel & Hd & El). exists d. split; [|exact Hd].
  rewrite El. destruct depth as [|[|depth]]; try lia. cbn [mat_loop at_eof]. rewrite record_ok; [|apply nil_name|discriminate|split; auto]. cbn [bind].
  replace (mempty (matlab_of double_bits [v])) with true; [reflexivity|].
  unfold mempty. rewrite msize_of. destruct v as [v|v|w|re im|[ds l]|[ds l]|l|l]; cbn in Hv; try contradiction; try reflexivity; destruct Hv as [_ ->]; reflexivity.
Qed.
Print Assumptions C87_unnamed_refuted.

Lemma consistent_prefix rs rs' : consistent (rs ++ rs') -> consistent rs.
Proof.
  intros C name v vs E. destruct (C name v (vs ++ values_of rs' name)) as [H1 H2].
  - unfold values_of in *. rewrite filter_app, map_app, E. reflexivity.
  - apply Forall_app in H1. split; [tauto|]. intros N. apply H2. destruct vs; [contradiction|discriminate].
Qed.
Lemma strip_ones_in l d : In d (strip_ones l) -> In d l.
Proof.
  induction l as [|e l IH]; [auto|]. cbn [strip_ones]. destruct (strip_ones l) as [|a l'].
  - destruct (e =? 1)%nat; cbn; [tauto|]. intros [->|[]]; auto.
  - intros [->|H]; [left; auto|right; auto].
Qed.
Lemma stack_pos ds : ds <> [] -> Forall (fun d => 0 < d)%nat ds -> existsb (fun d => d =? 0)%nat (stack_dims ds 1) = false.
Proof.
  intros Hn H. destruct (existsb _ _) eqn:E; [|reflexivity]. exfalso. apply existsb_exists in E as (d & I & E). apply Nat.eqb_eq in E. subst d.
  rewrite Forall_forall in H. destruct ds as [|a [|b ds]]; [contradiction| |].
  - assert (0 < a)%nat by (apply H; left; auto). destruct a as [|[|a]]; [lia| |]; cbn in I; lia.
  - assert (0 < a)%nat by (apply H; left; auto). assert (0 < b)%nat by (apply H; right; left; auto).
    unfold stack_dims in I. assert (Ne : strip (a :: b :: ds) <> [0; 0]%nat) by (intros X; inversion X; lia).
    assert (I' : In 0%nat (strip ((a :: b :: ds) ++ [1%nat]))).
    { destruct a as [|[|a]]; [lia| |]; destruct (list_eq_dec Nat.eq_dec _ _); try contradiction; exact I. }
    rewrite strip_one in I' by (cbn; lia). destruct I' as [|[|I']]; [lia|lia|]. apply strip_ones_in in I'. assert (0 < 0)%nat by (apply H; right; right; auto). lia.
Qed.
Lemma elements_dims {E} (Pe : E -> Prop) (t : stored E) : ok_tensor Pe t -> mat_shape t -> selts t <> [] ->
  map Z.to_nat (sdims t) <> [] /\ Forall (fun d => 0 < d)%nat (map Z.to_nat (sdims t)).
Proof.
  intros (_ & _ & Sz & _) (Sh & _) Ne. assert (L : (0 < length (selts t))%nat) by (destruct (selts t); [contradiction|cbn; lia]).
  destruct (sdims t) as [|d ds]; [cbn in Sz; lia|]. split; [discriminate|]. unfold size_of in Sz. 
  assert (P : fold_right Z.mul 1 (d :: ds) <> 0) by (destruct (existsb _ _); lia).
  rewrite Forall_map. clear Sz. revert P. induction Sh as [|x l Hx H IH]; intros P; constructor.
  - cbn [fold_right] in P. destruct (Z.eq_dec x 0) as [->|]; lia.
  - apply IH. cbn [fold_right] in P. intros X. rewrite X in P. lia.
Qed.

(* A value without a name that has elements is passed over: the fields are those
   of the records before it and after it. *)
Theorem C87_unnamed_partial : forall tag endian depth rs v rs',
  (2 <= depth)%nat -> Forall mat_record (rs ++ rs') -> consistent (rs ++ rs') -> rs <> [] -> ok_value v -> mat_value v ->
  match v with VRs _ | VCs _ => False | VR t => selts t <> [] | VC t => selts t <> [] | _ => True end ->
  exists d, mat_load tag endian depth (header ++ records (rs ++ ([], v) :: rs')) = Ok d /\
    forall name, get_item d name = match values_of (rs ++ rs') name with [] => None | vs => Some (matlab_of double_bits vs) end.
Proof.
  intros tag endian depth rs v rs' Hdep Hr Hc Hn H1 H2 Hv.
  replace (records (rs ++ ([], v) :: rs')) with (records rs ++ concat (dump v []) ++ records rs').
  2:{ unfold records. rewrite flat_map_app, concat_app. cbn [flat_map fst snd]. rewrite concat_app. reflexivity. }
  assert (Hr1 : Forall mat_record rs) by (apply Forall_app in Hr; tauto).
  assert (Hc1 : consistent rs) by (apply (consistent_prefix rs rs'); auto).
  destruct (load_prefix tag endian depth rs (concat (dump v []) ++ records rs') Hdep Hn Hr1 Hc1) as (d & fuel & Hd & El).
  assert (Lr := records_length rs'). assert (Lp : (0 < length (concat (dump v [])))%nat) by (pose proof (records_length [([], v)]) as L; unfold records in L; cbn [flat_map fst snd length] in L; rewrite app_nil_r in L; lia).
  destruct depth as [|[|depth]]; try lia.
  destruct (loop_ok depth rs' rs d (fuel + length (concat (dump v [])) + (length (records rs') - length rs')) [] Hd Hr Hc) as (d' & Hd' & E').
  rewrite app_nil_r in E'. exists d'. split; [|exact Hd']. rewrite El. cbn [mat_loop at_eof]. rewrite record_ok; [|apply nil_name|discriminate|split; auto]. cbn [bind].
  replace (mempty (matlab_of double_bits [v])) with false.
  - replace (fuel + length (concat (dump v []) ++ records rs'))%nat with (length rs' + (fuel + length (concat (dump v [])) + (length (records rs') - length rs')))%nat by (rewrite app_length; lia).
    rewrite E'. replace (fuel + length (concat (dump v [])) + (length (records rs') - length rs'))%nat with (S (fuel + length (concat (dump v [])) + (length (records rs') - length rs') - 1)) by lia. apply loop_end.
  - symmetry. unfold mempty. rewrite msize_of. destruct v as [v|v|w|re im|t|t|l|l]; try contradiction; try reflexivity;
      cbn [shape_of length]; cbn [ok_value mat_value] in *; destruct (elements_dims _ t H1 H2 Hv); apply stack_pos; auto.
Qed.
Print Assumptions C87_unnamed_partial.

(* A name that is not an identifier makes the whole file unreadable: sdf_load
   ends in an error. *)
Theorem C87_names : forall tag endian depth rs name v rs',
  (2 <= depth)%nat -> Forall mat_record rs -> consistent rs -> rs <> [] -> ok_value v -> mat_value v ->
  ok_name name -> firstn 3 name <> [115; 100; 102] -> name <> [] -> valid_field name = false ->
  mat_load tag endian depth (header ++ records (rs ++ (name, v) :: rs')) = Abort.
Proof.
  intros tag endian depth rs name v rs' Hdep Hr Hc Hn H1 H2 On N3 Nn Hf.
  replace (records (rs ++ (name, v) :: rs')) with (records rs ++ concat (dump v name) ++ records rs').
  2:{ unfold records. rewrite flat_map_app, concat_app. cbn [flat_map fst snd]. rewrite concat_app. reflexivity. }
  destruct (load_prefix tag endian depth rs (concat (dump v name) ++ records rs') Hdep Hn Hr Hc) as (d & fuel & Hd & El).
  rewrite El. destruct depth as [|[|depth]]; try lia. cbn [mat_loop at_eof]. rewrite record_ok; [|auto|auto|split; auto]. cbn [bind].
  destruct name as [|c cs] eqn:En; [contradiction|]. rewrite <- En in *. unfold mat_store. rewrite Hd.
  replace (values_of rs name) with (@nil value).
  2:{ destruct (values_of rs name) as [|w l] eqn:Ev; [reflexivity|]. exfalso. assert (I : In (name, w) rs) by (apply values_in; rewrite Ev; left; auto).
      rewrite Forall_forall in Hr. destruct (Hr _ I) as (_ & (Hx & _) & _). cbn in Hx. congruence. }
  cbn [bind]. rewrite Hf. reflexivity.
Qed.
Print Assumptions C87_names.

(* A name that starts with "sdf" is taken for the header of a file: unless its
   fifth character is 4 or 8, sdf_load ends in an error. *)
Theorem C87_sdf_names_refuted : forall tag endian depth rs name v rs',
  (2 <= depth)%nat -> Forall mat_record rs -> consistent rs -> rs <> [] ->
  ok_name name -> firstn 3 name = [115; 100; 102] -> nth 4 name 0 <> 52 -> nth 4 name 0 <> 56 ->
  mat_load tag endian depth (header ++ records (rs ++ (name, v) :: rs')) = Abort.
Proof.
  intros tag endian depth rs name v rs' Hdep Hr Hc Hn On N3 N4 N8.
  replace (records (rs ++ (name, v) :: rs')) with (records rs ++ concat (dump v name) ++ records rs').
  2:{ unfold records. rewrite flat_map_app, concat_app. cbn [flat_map fst snd]. rewrite concat_app. reflexivity. }
  destruct (load_prefix tag endian depth rs (concat (dump v name) ++ records rs') Hdep Hn Hr Hc) as (d & fuel & Hd & El).
  rewrite El. destruct depth as [|[|depth]]; try lia. cbn [mat_loop at_eof]. rewrite dump_body, <- app_assoc by auto. rewrite record_after.
  unfold mat_tag, write_tag. rewrite concat_app, wvn_block, <- !app_assoc by auto. rewrite fread_block by (apply block_length; auto).
  unfold mat_header. rewrite block_length by auto. cbn [Nat.eqb Nat.ltb Nat.leb].
  assert (L3 : (3 <= length name)%nat). { destruct (Nat.le_gt_cases 3 (length name)); auto. rewrite firstn_all2 in N3 by lia. rewrite N3. cbn. lia. }
  assert (F : firstn 3 (name_block name) = [115; 100; 102]) by (unfold name_block; rewrite firstn_app; replace (3 - length name)%nat with 0%nat by lia; rewrite firstn_O, app_nil_r; auto).
  destruct (list_eq_dec Z.eq_dec (firstn 3 (name_block name)) [115; 100; 102]) as [_|NE]; [|contradiction]. cbn [bind].
  assert (M5 : mchar (name_block name) 5 = Ok (nth 4 name 0)).
  { unfold mchar. cbn [Nat.sub]. unfold name_block. destruct On as [On _]. destruct (Nat.lt_ge_cases 4 (length name)).
    - rewrite nth_error_app1, (nth_error_nth' name 0) by auto. reflexivity.
    - rewrite nth_error_app2 by auto. rewrite (nth_overflow name) by auto. rewrite nth_error_repeat by lia. reflexivity. }
  rewrite M5. cbn [bind]. replace (nth 4 name 0 =? 52) with false by lia. replace (nth 4 name 0 =? 56) with false by lia. reflexivity.
Qed.
Print Assumptions C87_sdf_names_refuted.

(* C87 fails for files that were cut short (say, by a crash of the writer, see
   C42): if the cut is within the elements of a vector, the vector loads
   with fewer elements and nothing is reported. *)
Theorem C87_truncated_refuted : forall tag endian depth rs name l m,
  (2 <= depth)%nat -> Forall mat_record rs -> consistent rs -> rs <> [] -> values_of rs name = [] ->
  mat_record (name, VR (mkST [Z.of_nat (length l)] l)) -> (m < length l)%nat ->
  let file := header ++ records (rs ++ [(name, VR (mkST [Z.of_nat (length l)] l))]) in
  exists d, mat_load tag endian depth (firstn (length file - 8 * (length l - m)) file) = Ok d /\
    get_item d name = Some (MReal (column (firstn m l))).
Proof.
  intros tag endian depth rs name l m Hdep Hr Hc Hn Hv (g1 & (g2 & g3) & g4 & g5) Hm file. cbn [fst snd] in *.
  set (front := concat (write_tag name TAG_RTENSOR) ++ write_words [1] ++ write_words [Z.of_nat (length l)] ++ write_words [Z.of_nat (length l)]).
  assert (W : to_word (Z.of_nat (length l)) = Z.of_nat (length l)).
  { unfold to_word. apply Z.mod_small. destruct g4 as (_ & _ & _ & _ & H). cbn [selts] in H. lia. }
  assert (EF : file = (header ++ records rs ++ front ++ write_words (firstn m l)) ++ write_words (skipn m l)).
  { unfold file, records. rewrite flat_map_app, concat_app. cbn [flat_map fst snd dump]. rewrite app_nil_r. unfold dump_R, dump_vector. cbn [sdims selts map length Z.of_nat Pos.of_succ_nat].
    rewrite W. rewrite !concat_app. cbn [concat]. rewrite !app_nil_r.
    assert (EW : write_words l = write_words (firstn m l) ++ write_words (skipn m l)) by (unfold write_words; rewrite <- flat_map_app, firstn_skipn; reflexivity).
    rewrite EW. unfold front. rewrite <- !app_assoc. reflexivity. }
  assert (LS : length (write_words (skipn m l)) = (8 * (length l - m))%nat) by (rewrite write_words_length, skipn_length; reflexivity).
  rewrite EF, app_length, LS, Nat.add_sub. rewrite firstn_app, Nat.sub_diag, firstn_all, firstn_O, app_nil_r.
  destruct (load_prefix tag endian depth rs (front ++ write_words (firstn m l)) Hdep Hn Hr Hc) as (d & fuel & Hd & El). rewrite El.
  destruct depth as [|[|depth]]; try lia.
  assert (S3 : Z.of_nat (length l) < 2 ^ 48) by (destruct g5 as (_ & _ & H); exact H).
  destruct (nat_small (length l)) as (n1 & n2 & n3); [lia|].
  assert (FR : fread_numbers 8 (Z.of_nat (length l)) (mkM (write_words (firstn m l)) 8 (Some false) false) = Ok (firstn m l, mkM [] 8 (Some false) true)).
  { unfold fread_numbers. cbn [big_endian mrest tag_type at_eof]. replace (Z.of_nat (length l) <? 0) with false by lia.
    assert (LW : length (write_words (firstn m l)) = (8 * m)%nat) by (rewrite write_words_length, firstn_length; lia). rewrite LW.
    replace (8 * m / 8)%nat with m by (symmetry; rewrite Nat.mul_comm; apply Nat.div_mul; lia). rewrite Z.min_r by lia. rewrite Nat2Z.id.
    replace (Z.of_nat (8 * m) <? Z.of_nat 8 * Z.of_nat (length l)) with true by lia. replace (skipn (8 * m) (write_words (firstn m l))) with (@nil Z) by (rewrite <- LW, skipn_all; reflexivity). cbn [orb].
    rewrite elements_words. f_equal. f_equal. assert (LM : m = length (firstn m l)) by (rewrite firstn_length; lia). rewrite LM at 1.
    rewrite <- (app_nil_r (write_words _)). apply words_prefix. destruct g4 as (_ & H & _). cbn [selts] in H. clear - H. revert m. induction H as [|x l Hx H IH]; intros [|m]; constructor; auto. }
  assert (T : mat_tensor false (mkM (write_words [1] ++ write_words [Z.of_nat (length l)] ++ write_words [Z.of_nat (length l)] ++ write_words (firstn m l)) 8 (Some false) false)
    = Ok (MReal (column (firstn m l)), [Z.of_nat (length l)], mkM [] 8 (Some false) true)).
  { unfold mat_tensor. rewrite (mat_long_ok 1) by (try (unfold is_word; lia); unfold small; cbn; lia). cbn [bind]. change (to_signed 1) with (Z.of_nat (length [Z.of_nat (length l)])).
    rewrite mat_longs_ok by auto. cbn [bind map]. rewrite n3. rewrite mat_long_ok by auto. cbn [bind]. rewrite n3. rewrite FR. reflexivity. }
  cbn [mat_loop at_eof]. unfold front. rewrite <- !app_assoc. rewrite record_after. rewrite mat_tag_ok by (auto; unfold TAG_RTENSOR; lia). cbn [bind]. unfold after, TAG_RTENSOR. cbn [Z.eqb].
  rewrite T. cbn [bind]. destruct name as [|c cs] eqn:En; [discriminate g2|]. rewrite <- En in *. unfold mat_store. rewrite Hd, Hv. cbn [bind]. rewrite g2. cbn [bind].
  match goal with |- context [(fuel + ?k)%nat] => destruct (fuel + k)%nat as [|F] eqn:EFu end.
  { exfalso. rewrite !app_length in EFu. cbn in EFu. lia. }
  cbn [mat_loop at_eof]. eexists. split; [reflexivity|]. rewrite get_set. destruct (list_eq_dec Z.eq_dec name name); [reflexivity|contradiction].
Qed.
Print Assumptions C87_truncated_refuted.

(* Non-vacuity: a number, a 2 x 2 matrix under "A" twice, three vectors of two
   elements under "B", and what the struct is. *)
Definition ex_A : value := VR (mkST [2; 2] [1; 2; 3; 4]).
Definition ex_B : value := VC (mkST [2] [(7, 0); (8, 1)]).
Definition ex_rs : list (list Z * value) :=
  [([65], ex_A); ([110], VDouble 9); ([66], ex_B); ([65], ex_A); ([66], ex_B); ([66], ex_B); ([118], VRs [mkST [1] [5]])].
Example C87_nonvacuous :
  Forall mat_record ex_rs /\ consistent ex_rs /\
  mat_load 4 None 2 (header ++ records ex_rs) =
  Ok [([65], MReal (mkT [2; 2; 2]%nat [1; 2; 3; 4; 1; 2; 3; 4]));
      ([110], MReal (mkT [1; 1]%nat [9]));
      ([66], MComplex (mkT [2; 3]%nat [(7, 0); (8, 1); (7, 0); (8, 1); (7, 0); (8, 1)]));
      ([118], MReal (mkT [0; 0]%nat []))].
Proof.
  split; [|split].
  - assert (T1 : ok_value ex_A /\ mat_value ex_A).
    { unfold ex_A. cbn. unfold ok_tensor, mat_shape, is_long, is_word. cbn. repeat split; repeat constructor; lia. }
    assert (T2 : ok_value ex_B /\ mat_value ex_B).
    { unfold ex_B. cbn. unfold ok_tensor, mat_shape, is_long, is_cword, is_word. cbn. repeat split; repeat constructor; cbn; lia. }
    assert (T3 : ok_value (VRs [mkST [1] [5]]) /\ mat_value (VRs [mkST [1] [5]])).
    { cbn. unfold ok_tensor, mat_shape, is_long, is_word. cbn. repeat split; repeat constructor; cbn; lia. }
    assert (T4 : ok_value (VDouble 9) /\ mat_value (VDouble 9)) by (cbn; unfold is_word; split; [lia|exact I]).
    assert (N : forall c, 65 <= c <= 90 \/ 97 <= c <= 122 -> ok_name [c] /\ mat_name [c]).
    { intros c Hc. split; [split; [cbn; lia|repeat constructor; unfold is_byte; lia]|]. split; [|discriminate]. unfold valid_field, is_letter. cbn. lia. }
    assert (R : forall c v, 65 <= c <= 90 \/ 97 <= c <= 122 -> ok_value v /\ mat_value v -> mat_record ([c], v)).
    { intros c v Hc [H1 H2]. destruct (N c Hc) as [N1 N2]. repeat split; cbn [fst snd]; auto; try apply N1; apply N2. }
    unfold ex_rs. repeat (constructor; [apply R; [lia|assumption]|]). constructor.
  - intros name v vs. unfold values_of, ex_rs. cbn [filter fst].
    repeat match goal with |- context [list_eq_dec Z.eq_dec ?a name] => destruct (list_eq_dec Z.eq_dec a name) as [<-|] end;
      cbn [filter fst map snd]; try (intros H; discriminate H);
      repeat match goal with |- context [list_eq_dec Z.eq_dec ?a ?b] => destruct (list_eq_dec Z.eq_dec a b) as [EE|]; [try discriminate EE|try contradiction] end;
      cbn [filter fst map snd]; intros H; try discriminate H; injection H as <- <-; split; repeat constructor; try discriminate; intros C; contradiction.
  - vm_compute. reflexivity.
Qed.

(* a real and a complex number under one name *)
Example C87_mixed : let rs := [([109], VDouble 5); ([109], VComplex 7 8)] in
  Forall mat_record rs /\ consistent rs /\
  mat_load 4 None 2 (header ++ records rs) = Ok [([109], MComplex (mkT [2; 1]%nat [(5, 0); (7, 8)]))].
Proof.
  cbn zeta. split; [|split].
  - assert (N : ok_name [109] /\ mat_name [109]).
    { split; [split; [cbn; lia|repeat constructor; unfold is_byte; lia]|]. split; [|discriminate]. unfold valid_field, is_letter. cbn. lia. }
    destruct N as [N1 N2]. repeat constructor; cbn [fst snd]; try apply N1; try apply N2; cbn; unfold is_word; lia || exact I.
  - intros name v vs. unfold values_of. cbn [filter fst]. destruct (list_eq_dec Z.eq_dec [109] name); cbn; intros H; [injection H as <- <-|discriminate H].
    split; [|discriminate]. constructor; [|constructor]. split; [reflexivity|]. right. discriminate.
  - vm_compute. reflexivity.
Qed.

(* What follows an unnamed vector of tensors is not there; "a-b" and "sdfA" are
   names that the library writes and sdf_load refuses; and a vector of three
   elements, in a file that was cut, has one. *)
Example C87_lost :
  mat_load 4 None 2 (header ++ records [([65], ex_A); ([], VRs []); ([110], VDouble 9)]) = Ok [([65], MReal (mkT [2; 2]%nat [1; 2; 3; 4]))] /\
  mat_load 4 None 2 (header ++ records [([65], ex_A); ([97; 45; 98], VDouble 9)]) = Abort /\
  mat_load 4 None 2 (header ++ records [([65], ex_A); ([115; 100; 102; 65], VDouble 9)]) = Abort /\
  (let file := header ++ records [([65], ex_A); ([118], VR (mkST [3] [5; 6; 7]))] in
   mat_load 4 None 2 (firstn (length file - 16) file) = Ok [([65], MReal (mkT [2; 2]%nat [1; 2; 3; 4])); ([118], MReal (mkT [1; 1]%nat [5]))]).
Proof. repeat split; vm_compute; reflexivity. Qed.

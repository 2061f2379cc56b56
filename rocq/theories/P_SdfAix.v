(* C106: SDF files on AIX, where numbers are big endian in memory and their bytes
   are reversed in the file.  Vocabulary: S_Sdf.v *)
From Verif Require Import Base Spec S_Reduce S_Sdf M_Tensor M_Sdf L_Sdf L_Sdf2 P_Sdf M_Pysdf M_Matsdf M_SdfAix L_SdfAix.
Local Open Scope Z_scope.

(* The file is, byte by byte, the one that a little-endian machine writes, for
   all values and names, in spite of the buffer of 1024 bytes; but for the sixth
   byte, which says that the numbers are big endian (48, '0') and not little
   endian (49, '1'). *)
Theorem C106_file : forall junk m rs s, m = Shared /\ main s = None \/ m = Overwrite \/ m = Paranoid ->
  exists s' tr f0 f, session m rs s = (Ok tt, s', tr) /\ main s' = Some f0 /\ file_aix junk rs = Ok f /\
    length f = length f0 /\ nth 5 f0 0 = 49 /\ nth 5 f 0 = 48 /\ forall i, i <> 5%nat -> nth i f 0 = nth i f0 0.
Proof.
  intros junk m rs s Hm.
  assert (Hs : exists t tr, session m rs s = (Ok tt, mkFS (Some (header ++ records rs)) t, tr)).
  { destruct Hm as [[-> Hm]|[->| ->]].
    - destruct (session_shared rs s) as (tr & E). rewrite Hm in E. eauto.
    - destruct (session_overwrite rs s) as (tr & E). eauto.
    - destruct (session_paranoid rs s) as (tr & E & _). eauto. }
  destruct Hs as (t & tr & E). exists (mkFS (Some (header ++ records rs)) t), tr, (header ++ records rs), (concat header_aix ++ records rs).
  split; [exact E|]. split; [reflexivity|]. split; [apply file_aix_ok|]. split; [rewrite !app_length; reflexivity|]. split; [reflexivity|]. split; [reflexivity|].
  intros i Hi. change header with ([115; 100; 102; 52; 56] ++ 49 :: repeat 0 58). change (concat header_aix) with ([115; 100; 102; 52; 56] ++ 48 :: repeat 0 58).
  destruct i as [|[|[|[|[|[|i]]]]]]; try reflexivity. contradiction.
Qed.
Print Assumptions C106_file.

(* The values are read back, from the first to the last byte of the file. *)
Theorem C106_round_trip_partial : forall junk junk' memory chars rs asks,
  Forall (fun r => ok_name (fst r) /\ ok_value (snd r)) rs ->
  Forall2 (fun asked r => asks_for asked (fst r)) asks rs ->
  exists f st st', file_aix junk rs = Ok f /\ read_header_aix chars (mkRS f false 0) = Ok st /\
    load_all_aix junk' memory chars (combine (map (fun r => kind_of (snd r)) rs) asks) st = Ok (map snd rs, st') /\
    rest st' = [] /\ failed st' = false.
Proof.
  intros junk junk' memory chars rs asks Hr Ha. exists (concat header_aix ++ records rs), (mkRS (records rs) false 1).
  destruct (load_all_ok chars rs asks [] 1) as (c' & H).
  - apply asks_all; auto. eapply Forall_impl; [|exact Hr]. cbn; tauto.
  - eapply Forall_impl; [|exact Hr]. cbn; tauto.
  - rewrite app_nil_r in H. destruct (sim_all chars junk' memory chars _ _ _ _ (mkRS (records rs) false 1) H eq_refl (conj eq_refl eq_refl)) as (_ & st' & E & S1 & S2).
    exists st'. split; [apply file_aix_ok|]. split; [|split; [exact E|auto]].
    unfold read_header_aix, read_variable_name. rewrite read_raw_ok by reflexivity. reflexivity.
Qed.
Print Assumptions C106_round_trip_partial.

(* Whatever the bytes are, if the library of a little-endian machine loads some
   variables from them without passing the end, AIX loads the same values and
   goes as far. *)
Theorem C106_same_values : forall junk0 junk memory chars asked st vs st1,
  load_all junk0 asked st = Ok (vs, st1) -> failed st1 = false ->
  exists st1', load_all_aix junk memory chars asked st = Ok (vs, st1') /\ rest st1' = rest st1 /\ failed st1' = false.
Proof.
  intros junk0 junk memory chars asked st vs st1 E F. destruct (sim_all junk0 junk memory chars asked st vs st1 st E F (conj eq_refl eq_refl)) as (_ & st' & E' & S1 & S2).
  exists st'. split; [exact E'|]. split; congruence.
Qed.
Print Assumptions C106_same_values.

(* Yet neither machine reads the files of the other, because of the sixth byte. *)
Theorem C106_exchange_refuted : forall junk junk0 chars m rs s,
  m = Shared /\ main s = None \/ m = Overwrite \/ m = Paranoid ->
  exists s' tr f0 f, session m rs s = (Ok tt, s', tr) /\ main s' = Some f0 /\ file_aix junk rs = Ok f /\
    read_header junk0 (mkRS f false 0) = Abort /\ read_header_aix chars (mkRS f0 false 0) = Abort.
Proof.
  intros junk junk0 chars m rs s Hm.
  assert (Hs : exists t tr, session m rs s = (Ok tt, mkFS (Some (header ++ records rs)) t, tr)).
  { destruct Hm as [[-> Hm]|[->| ->]].
    - destruct (session_shared rs s) as (tr & E). rewrite Hm in E. eauto.
    - destruct (session_overwrite rs s) as (tr & E). eauto.
    - destruct (session_paranoid rs s) as (tr & E & _). eauto. }
  destruct Hs as (t & tr & E). exists (mkFS (Some (header ++ records rs)) t), tr, (header ++ records rs), (concat header_aix ++ records rs).
  split; [exact E|]. split; [reflexivity|]. split; [apply file_aix_ok|]. split.
  - unfold read_header, read_variable_name. rewrite read_raw_ok by reflexivity. reflexivity.
  - unfold read_header_aix, read_variable_name. rewrite read_raw_ok by reflexivity. reflexivity.
Qed.
Print Assumptions C106_exchange_refuted.

Lemma mat_long_aix r b : 0 <= r <= 127 -> mat_long (mkM (write_words [r] ++ b) 8 (Some true) false) = Ok (r * 2 ^ 56, mkM b 8 (Some true) false).
Proof.
  intros Hr. unfold mat_long, mat_longs, fread_numbers. cbn [big_endian tag_type mrest at_eof].
    assert (E8 : write_words [r] = [r; 0; 0; 0; 0; 0; 0; 0]). { unfold write_words. cbn [flat_map]. rewrite app_nil_r. cbn [le]. rewrite !Z.div_div by lia. cbn [Z.mul]. rewrite (Z.mod_small r) by lia. rewrite !(Z.div_small r) by lia. reflexivity. }
    rewrite E8. change (1 <? 0) with false. cbv iota. cbn [app].
    set (file := r :: 0 :: 0 :: 0 :: 0 :: 0 :: 0 :: 0 :: b).
    assert (Ln : (8 <= length file)%nat) by (unfold file; cbn [length]; lia).
    replace (Z.to_nat (Z.min 1 (Z.of_nat (length file / 8)))) with 1%nat. 2:{ assert (1 <= length file / 8)%nat by (apply Nat.div_le_lower_bound; lia). lia. }
    replace (Z.of_nat (length file) <? Z.of_nat 8 * 1) with false by (symmetry; apply Z.ltb_ge; lia).
    unfold file. cbn [elements firstn skipn bind length Nat.mul Nat.add]. change (Z.of_nat 1 <? 1) with false. cbv iota. cbn [map bind rd nth_error orb].
    unfold native. cbn [rev app of_le].
    match goal with |- Ok (round_double (signed 8 ?x), _) = _ => replace x with (r * 2 ^ 56) by lia end. f_equal. f_equal.
    unfold signed. replace (r * 2 ^ 56 <? 2 ^ (8 * Z.of_nat 8 - 1)) with true by (symmetry; apply Z.ltb_lt; change (2 ^ (8 * Z.of_nat 8 - 1)) with (2 ^ 63); lia). cbv iota.
    assert (F : forallb (fun k => round_double (Z.of_nat k * 2 ^ 56) =? Z.of_nat k * 2 ^ 56) (seq 0 128) = true) by (vm_compute; reflexivity).
    rewrite forallb_forall in F. specialize (F (Z.to_nat r)). rewrite Z2Nat.id in F by lia. apply Z.eqb_eq. apply F. apply in_seq. lia.
Qed.
Lemma mat_tag_aix tag endian name w b : (0 <= w < 4) ->
  mat_tag (mkM (concat header_aix ++ concat (write_tag name w) ++ b) tag endian false) =
  Ok (filter (fun c => negb (c =? 0)) (concat (write_variable_name name)), w * 2 ^ 56, mkM b 8 (Some true) false).
Proof.
  intros H. unfold write_tag. rewrite concat_app, <- app_assoc. unfold mat_tag, fread_chars at 1. cbn [mrest tag_type big_endian at_eof].
  rewrite (firstn_exact 64), (skipn_exact 64) by reflexivity.
  replace (length (concat header_aix ++ concat (write_variable_name name) ++ concat [write_words [to_word w]] ++ b) <? 64)%nat with false
    by (symmetry; apply Nat.ltb_ge; rewrite app_length; change (length (concat header_aix)) with 64%nat; lia).
  change (mat_header (concat header_aix)) with (Ok true). cbn [bind].
  change (mchar (concat header_aix) 5) with (Ok 56). change (mchar (concat header_aix) 6) with (Ok 48). cbn [bind Z.eqb Pos.eqb negb].
  assert (L : length (concat (write_variable_name name)) = 64%nat).
  { unfold write_variable_name. cbn [concat]. rewrite app_nil_r, app_length, repeat_length.
    assert (K : (length (cstr (firstn (Nat.min 63 (length name)) name)) <= 63)%nat).
    { assert (G : forall l, (length (cstr l) <= length l)%nat) by (induction l as [|x l IH]; cbn [cstr length]; [lia|]; destruct (x =? 0); cbn [length]; lia).
      etransitivity; [apply G|]. rewrite firstn_length. lia. }
    lia. }
  unfold fread_chars. cbn [mrest tag_type big_endian at_eof]. rewrite (firstn_exact 64), (skipn_exact 64) by exact L.
  replace (length (concat (write_variable_name name) ++ concat [write_words [to_word w]] ++ b) <? 64)%nat with false by (symmetry; apply Nat.ltb_ge; rewrite app_length; lia).
  cbn [orb bind at_eof].
  assert (W : to_word w = w) by (assert (W : w = 0 \/ w = 1 \/ w = 2 \/ w = 3) by lia; destruct W as [->|[->|[->| ->]]]; reflexivity).
  rewrite W. cbn [concat]. rewrite app_nil_r. rewrite mat_long_aix by lia. reflexivity.
Qed.
(* Matlab believes the sixth byte: it reports an error for every file that starts
   with complex numbers or with a vector of tensors, *)
Theorem C106_matlab_refuted : forall junk tag endian depth name v rs,
  match v with VComplex _ _ | VC _ | VRs _ | VCs _ => True | _ => False end ->
  exists f, file_aix junk ((name, v) :: rs) = Ok f /\ mat_load tag endian (S depth) f = Abort.
Proof.
  intros junk tag endian depth name v rs Hv. eexists. split; [apply file_aix_ok|].
  assert (D : exists w b, 1 <= w < 4 /\ concat header_aix ++ records ((name, v) :: rs) = concat header_aix ++ concat (write_tag name w) ++ b).
  { unfold records. cbn [flat_map fst snd]. rewrite concat_app.
    destruct v as [v|v|w|re im|t|t|l|l]; try contradiction; cbn [dump]; unfold dump_C; rewrite !concat_app, <- !app_assoc;
      [exists 1|exists 1|exists 2|exists 3]; eexists; (split; [lia|reflexivity]). }
  destruct D as (w & b & Hw & ->). unfold mat_load. cbn [mat_loop at_eof mat_record_load]. rewrite mat_tag_aix by lia. cbn [bind].
  assert (W : w = 1 \/ w = 2 \/ w = 3) by lia. destruct W as [->|[->| ->]]; reflexivity.
Qed.
Print Assumptions C106_matlab_refuted.
(* and for those that start with numbers or real tensors of up to 127 indices, if
   the file is shorter than 2^56 bytes. *)
Theorem C106_matlab_real_refuted : forall junk tag endian depth name t rs,
  (1 <= length (sdims t) <= 127)%nat ->
  exists f, file_aix junk ((name, VR t) :: rs) = Ok f /\ (Z.of_nat (length f) < 2 ^ 56 -> mat_load tag endian (S depth) f = Abort).
Proof.
  intros junk tag endian depth name t rs Hl. eexists. split; [apply file_aix_ok|]. intros Lf.
  assert (D : exists b, concat header_aix ++ records ((name, VR t) :: rs) = concat header_aix ++ concat (write_tag name 0) ++ write_words [Z.of_nat (length (sdims t))] ++ b).
  { unfold records. cbn [flat_map fst snd]. rewrite concat_app. cbn [dump]. unfold dump_R, dump_vector. rewrite !concat_app, <- !app_assoc. cbn [concat]. rewrite <- !app_assoc. eexists. reflexivity. }
  destruct D as (b & D). rewrite D in *. unfold mat_load. cbn [mat_loop at_eof mat_record_load]. rewrite mat_tag_aix by lia. cbn [bind].
  change (0 * 2 ^ 56 =? -1) with false. change (0 * 2 ^ 56 =? 0) with true. cbv iota.
  set (r := Z.of_nat (length (sdims t))) in *. assert (Hr : 1 <= r <= 127) by (unfold r; lia).
  unfold mat_tensor. rewrite mat_long_aix by lia. cbn [bind]. unfold mat_longs, fread_numbers. cbn [big_endian tag_type mrest at_eof].
  replace (r * 2 ^ 56 <? 0) with false by (symmetry; apply Z.ltb_ge; lia). cbn [bind].
  match goal with |- context [elements true 8 ?m b] => set (k := m) end.
  assert (Lk : length (elements true 8 k b) = k) by (generalize b as bs; generalize k as q; induction q as [|q IH]; intros bs; cbn [elements length]; auto).
  assert (Lb : Z.of_nat (length b) < 2 ^ 56) by (rewrite !app_length in Lf; lia).
  replace (Z.of_nat (length (elements true 8 k b)) <? r * 2 ^ 56) with true; [reflexivity|]. symmetry. apply Z.ltb_lt. rewrite Lk. unfold k.
  pose proof (Nat.div_le_upper_bound (length b) 8 (length b) ltac:(lia) ltac:(lia)) as Ld.
  rewrite Z2Nat.id by lia. lia.
Qed.
Print Assumptions C106_matlab_real_refuted.

(* When the file ends early there is no error, and numbers that were in the
   buffer are taken for those that are missing: here the first one is also
   loaded as the last. *)
Theorem C106_cut_refuted : forall junk memory, exists ws last st, length ws = 128%nat /\ Forall is_word ws /\ is_word last /\ last <> nth 0 ws 0 /\
  read_words_aix junk memory 129 (mkRS (firstn (8 * 128) (write_words (ws ++ [last]))) false 0) = Ok (ws ++ [nth 0 ws 0], st) /\ failed st = true.
Proof.
  intros junk memory. exists (map Z.of_nat (seq 7 128)), 3. eexists. split; [reflexivity|]. split.
  { apply Forall_forall. intros x H. apply in_map_iff in H as (k & <- & H). apply in_seq in H. unfold is_word. lia. }
  split; [unfold is_word; lia|]. split; [discriminate|]. vm_compute. split; reflexivity.
Qed.
Print Assumptions C106_cut_refuted.

(* A file with 200 complex numbers takes several turns of the buffer. *)
Definition ex_aix : list (list Z * value) :=
  [([97; 98], VR (mkST [2; 1] [5; 2 ^ 63 + 7])); ([], VInt (-3)); ([99], VC (mkST [200] (map (fun k => (Z.of_nat k, 2 ^ 62 + 1)) (seq 0 200)))); ([100], VSize 12)].
Example C106_nonvacuous :
  Forall (fun r => ok_name (fst r) /\ ok_value (snd r)) ex_aix /\
  Forall2 (fun asked r => asks_for asked (fst r)) [[97; 98]; []; []; [100]] ex_aix /\
  exists f, file_aix (fun _ => 0) ex_aix = Ok f /\ 2048 < Z.of_nat (length f).
Proof.
  split; [|split].
  - unfold ex_aix. repeat apply Forall_cons; try apply Forall_nil; cbn [fst snd ok_value]; (split; [split; [cbn; lia|repeat constructor; cbn; lia]|]).
    + unfold ok_tensor. cbn [sdims selts]. repeat split; try (repeat constructor; cbn; lia).
    + lia.
    + unfold ok_tensor. cbn [sdims selts]. split; [repeat constructor; cbn; lia|]. split; [|rewrite map_length, seq_length; cbn; lia].
      apply Forall_forall. intros x H. apply in_map_iff in H as (k & <- & H). apply in_seq in H. split; cbn [fst snd]; unfold is_word; lia.
    + lia.
  - unfold ex_aix, asks_for. repeat (apply Forall2_cons; [cbn; auto|]). apply Forall2_nil.
  - eexists. split; [apply file_aix_ok|]. vm_compute. reflexivity.
Qed.

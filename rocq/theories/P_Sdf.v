(* C39-C43, C60, C61: SDF files.  Statements and their proofs. *)
From Verif Require Import Base Spec S_Reduce S_Sdf M_Tensor M_Sdf L_Sdf L_Sdf2.
Local Open Scope Z_scope.

Lemma asks_accepts asked name : ok_name name -> asks_for asked name -> accepts asked name.
Proof. intros H [->| ->]; [left; reflexivity|right; symmetry; apply kept_ok; auto]. Qed.
Lemma asks_all rs asks : Forall (fun r : list Z * value => ok_name (fst r)) rs -> Forall2 (fun asked r => asks_for asked (fst r)) asks rs ->
  Forall2 (fun asked r => accepts asked (fst r)) asks rs.
Proof. intros Hn H. induction H; [constructor|]. inversion Hn; subst. constructor; auto using asks_accepts. Qed.
Lemma complete_file_ok rs : complete_file rs = Some (header ++ records rs).
Proof. unfold complete_file. destruct (session_overwrite rs (mkFS None None)) as (tr & E). rewrite E. reflexivity. Qed.
Lemma open_in_ok junk b t : open_in junk Shared (mkFS (Some (header ++ b)) t) = (Ok (mkRS b false 1), mkFS (Some (header ++ b)) t, [mkFS (Some (header ++ b)) t]).
Proof. unfold open_in, datafile. rewrite seqp_ret. cbn [file actual main]. unfold header. rewrite read_header_ok. reflexivity. Qed.

(* ---- C39: round trip ---- *)

(* Whatever is dumped into a new file is loaded back, for any sequence of
   records, and nothing is left over.  Partial: size_t only below 2^53. *)
Theorem C39_round_trip_partial : forall (junk : nat -> nat -> Z) m rs asks s,
  m = Shared /\ main s = None \/ m = Overwrite \/ m = Paranoid ->
  Forall (fun r => ok_name (fst r) /\ ok_value (snd r)) rs ->
  Forall2 (fun asked r => asks_for asked (fst r)) asks rs ->
  exists s' tr, session m rs s = (Ok tt, s', tr) /\
  exists st tr', open_in junk Shared s' = (Ok st, s', tr') /\
  exists st', load_all junk (combine (map (fun r => kind_of (snd r)) rs) asks) st = Ok (map snd rs, st') /\
    rest st' = [] /\ failed st' = false.
Proof.
  intros junk m rs asks s Hm Hr Ha.
  assert (Hs : exists t tr, session m rs s = (Ok tt, mkFS (Some (header ++ records rs)) t, tr)).
  { destruct Hm as [[-> Hm]|[->| ->]].
    - destruct (session_shared rs s) as (tr & E). rewrite Hm in E. eauto.
    - destruct (session_overwrite rs s) as (tr & E). eauto.
    - destruct (session_paranoid rs s) as (tr & E & _). eauto. }
  destruct Hs as (t & tr & E). exists (mkFS (Some (header ++ records rs)) t), tr. split; [exact E|].
  eexists _, _. split; [apply open_in_ok|].
  destruct (load_all_ok junk rs asks [] 1) as (c' & H).
  - apply asks_all; auto. eapply Forall_impl; [|exact Hr]. cbn; tauto.
  - eapply Forall_impl; [|exact Hr]. cbn; tauto.
  - rewrite app_nil_r in H. eexists. split; [exact H|]. auto.
Qed.
Print Assumptions C39_round_trip_partial.

(* size_t is stored as a double: 2^53 + 1 comes back as 2^53 *)
Theorem C39_size_t_refuted : forall junk, exists v st,
  is_word v /\ load junk KSize [] (mkRS (concat (dump (VSize v) [97])) false 0) = Ok (VSize (v - 1), st).
Proof. intros junk. exists (2 ^ 53 + 1). eexists. split; [unfold is_word; lia|]. vm_compute. reflexivity. Qed.
Print Assumptions C39_size_t_refuted.
(* and 2^64 - 1 as 2^64, whose conversion is undefined *)
Theorem C39_largest_size_t_refuted : forall junk, exists v,
  is_word v /\ load junk KSize [] (mkRS (concat (dump (VSize v) [97])) false 0) = UB.
Proof. intros junk. exists (2 ^ 64 - 1). split; [unfold is_word; lia|]. vm_compute. reflexivity. Qed.
Print Assumptions C39_largest_size_t_refuted.

Definition ex_rs : list (list Z * value) :=
  [([97; 98], VR (mkST [2; 1] [5; 2 ^ 63 + 7])); ([], VInt (-3)); ([99], VCs [mkST [1] [(1, 2)]; mkST [0; 3] []]); ([100], VSize 12)].
Example C39_nonvacuous :
  Forall (fun r => ok_name (fst r) /\ ok_value (snd r)) ex_rs /\
  Forall2 (fun asked r => asks_for asked (fst r)) [[97; 98]; []; []; [100]] ex_rs /\
  (forall junk s, exists s' tr st tr' st', session Overwrite ex_rs s = (Ok tt, s', tr) /\ open_in junk Shared s' = (Ok st, s', tr') /\
     load_all junk [(KR, [97; 98]); (KInt, []); (KCs, []); (KSize, [100])] st = Ok (map snd ex_rs, st')).
Proof.
  assert (H1 : Forall (fun r => ok_name (fst r) /\ ok_value (snd r)) ex_rs).
  { unfold ex_rs, ok_name, ok_value, ok_tensor, is_word, is_long, is_byte, is_cword, is_word. repeat (constructor || lia || (cbn; lia) || (cbn; split)). }
  assert (H2 : Forall2 (fun asked r => asks_for asked (fst r)) [[97; 98]; []; []; [100]] ex_rs).
  { unfold ex_rs, asks_for. repeat (apply Forall2_cons; [cbn; auto|]). apply Forall2_nil. }
  split; [exact H1|]. split; [exact H2|]. intros junk s.
  destruct (C39_round_trip_partial junk Overwrite ex_rs _ s (or_intror (or_introl eq_refl)) H1 H2) as (s' & tr & E1 & st & tr' & E2 & st' & E3 & _).
  exists s', tr, st, tr', st'. auto.
Qed.

(* ---- C40: names, types and headers ---- *)

(* load() aborts on another name, on a record of another type *)
Theorem C40_name : forall junk k asked v name b c,
  ok_name name -> asked <> [] -> asked <> name ->
  load junk k asked (mkRS (concat (dump v name) ++ b) false c) = Abort.
Proof. intros junk k asked v name b c Hn H1 H2. apply load_reject. left. rewrite kept_ok by auto. auto. Qed.
Print Assumptions C40_name.
Theorem C40_type : forall junk k asked v name b c,
  family_of k <> family_of (kind_of v) ->
  load junk k asked (mkRS (concat (dump v name) ++ b) false c) = Abort.
Proof. intros junk k asked v name b c H. apply load_reject. right. destruct k, v; cbn in *; congruence. Qed.
Print Assumptions C40_type.
(* a tensor of several elements is not a number *)
Theorem C40_number : forall junk k asked name t b c,
  k = KInt \/ k = KSize \/ k = KDouble -> ok_name name -> asks_for asked name -> ok_tensor is_word t -> (1 < length (selts t))%nat ->
  load junk k asked (mkRS (concat (dump (VR t) name) ++ b) false c) = Abort.
Proof.
  intros junk k asked name t b c Hk Hn Ha Ht Hl. destruct (load_R_ok junk asked name t b c) as (c' & E); auto using asks_accepts.
  assert (Ed : load_double junk asked (mkRS (concat (dump (VR t) name) ++ b) false c) = Abort).
  { unfold load_double. cbn [dump]. rewrite E. cbn [bind]. replace (1 <? length (selts t))%nat with true by lia. reflexivity. }
  destruct Hk as [->|[->| ->]]; unfold load; rewrite Ed; reflexivity.
Qed.
Print Assumptions C40_number.
Theorem C40_complex_number : forall junk asked name t b c,
  ok_name name -> asks_for asked name -> ok_tensor is_cword t -> (1 < length (selts t))%nat ->
  load junk KComplex asked (mkRS (concat (dump (VC t) name) ++ b) false c) = Abort.
Proof.
  intros junk asked name t b c Hn Ha Ht Hl. destruct (load_C_ok junk asked name t b c) as (c' & E); auto using asks_accepts.
  unfold load, load_cdouble. cbn [dump]. rewrite E. cbn [bind]. replace (1 <? length (selts t))%nat with true by lia. reflexivity.
Qed.
Print Assumptions C40_complex_number.
(* but one without elements is read out of bounds *)
Theorem C40_empty_number_refuted : forall junk, exists t, ok_tensor is_word t /\
  load junk KDouble [] (mkRS (concat (dump (VR t) [97])) false 0) = UB.
Proof.
  intros junk. exists (mkST [0] []). split; [|reflexivity].
  unfold ok_tensor, is_long. repeat (constructor || (cbn; lia)).
Qed.
Print Assumptions C40_empty_number_refuted.

(* A file whose first 64 bytes hold a string is accepted exactly when the
   string starts with "sdf481": ints of 4 bytes, longs of 8, little endian *)
Theorem C40_header : forall junk block b t, length block = 64%nat -> In 0 block ->
  ((exists st tr s', open_in junk Shared (mkFS (Some (block ++ b)) t) = (Ok st, s', tr)) <->
   exists rest, cstr block = [115; 100; 102; 52; 56; 49] ++ rest).
Proof.
  intros junk block b t Hl Hz. unfold open_in, datafile.
  transitivity (firstn 6 (cstr block) = header_name).
  - rewrite <- (header_accept_iff junk block b 0) by auto. cbn. split.
    + intros (st & tr & s' & H). exists st. inversion H. reflexivity.
    + intros (st & H). rewrite H. eauto.
  - unfold header_name. cbn [Z.add]. split.
    + intros H. exists (skipn 6 (cstr block)). rewrite <- (firstn_skipn 6 (cstr block)) at 1. rewrite H. reflexivity.
    + intros (r & ->). reflexivity.
Qed.
Print Assumptions C40_header.
(* other files are refused, except that "sdf" alone or with one more character
   is read out of bounds *)
Theorem C40_foreign_partial : forall junk block b t, length block = 64%nat -> In 0 block ->
  ~ (exists rest, cstr block = [115; 100; 102; 52; 56; 49] ++ rest) ->
  cstr block <> [115; 100; 102] -> ~ (exists x, cstr block = [115; 100; 102; x]) ->
  exists s' tr, open_in junk Shared (mkFS (Some (block ++ b)) t) = (Abort, s', tr).
Proof.
  intros junk block b t Hl Hz H1 H2 H3. unfold open_in, datafile. cbn. rewrite header_reject; eauto.
  - intros E. apply H1. exists (skipn 6 (cstr block)). rewrite <- (firstn_skipn 6 (cstr block)) at 1. rewrite E. reflexivity.
  - intros [E L]. destruct (cstr block) as [|a [|a' [|a'' [|x [|]]]]]; cbn in *; try discriminate; try lia.
    + congruence.
    + apply H3. exists x. congruence.
Qed.
Print Assumptions C40_foreign_partial.
Theorem C40_short_header_refuted : forall junk t, exists block s' tr, length block = 64%nat /\
  open_in junk Shared (mkFS (Some block) t) = (UB, s', tr).
Proof. intros. exists ([115; 100; 102] ++ repeat 0 61). eexists _, _. split; reflexivity. Qed.
Print Assumptions C40_short_header_refuted.
(* a variable with a name of 64 characters cannot be loaded by its name, and
   is loaded by another name *)
Theorem C40_long_name_refuted : forall junk, exists name other st,
  length name = 64%nat /\ other <> name /\
  load junk KInt name (mkRS (concat (dump (VInt 5) name)) false 0) = Abort /\
  load junk KInt other (mkRS (concat (dump (VInt 5) name)) false 0) = Ok (VInt 5, st).
Proof.
  intros junk. exists (repeat 97 64), (repeat 97 63). eexists. split; [reflexivity|]. split; [discriminate|]. split; vm_compute; reflexivity.
Qed.
Print Assumptions C40_long_name_refuted.

Example C40_nonvacuous :
  ok_name [97; 98] /\ [97] <> @nil Z /\ [97] <> [97; 98] /\ family_of KC <> family_of (kind_of (VDouble 0)) /\
  ok_tensor is_word (mkST [2] [3; 4]) /\ ok_tensor is_cword (mkST [2] [(3, 4); (0, 0)]) /\
  (forall junk, load junk KDouble [] (mkRS (concat (dump (VInt 1) [97])) false 0) = Ok (VDouble (1023 * 2 ^ 52), mkRS [] false 6)) /\
  (let block := [115; 100; 102; 52; 56; 50] ++ repeat 0 58 in length block = 64%nat /\ In 0 block /\
     cstr block <> [115; 100; 102] /\ ~ (exists x, cstr block = [115; 100; 102; x])).
Proof.
  split. { unfold ok_name, is_byte. repeat (constructor || (cbn; lia)). }
  split; [discriminate|]. split; [discriminate|]. split; [discriminate|].
  split. { unfold ok_tensor, is_long, is_word. repeat (constructor || (cbn; lia)). }
  split. { unfold ok_tensor, is_cword, is_long, is_word. repeat (constructor || (cbn; lia)). }
  split. { intros junk. vm_compute. reflexivity. }
  split; [reflexivity|]. split; [cbn; tauto|]. split; [discriminate|]. intros (x & H). discriminate H.
Qed.

(* ---- C41: truncated files ---- *)

(* What the file holds in full is loaded right, wherever it has been cut
   afterwards; loading beyond is C41_truncated_refuted *)
Theorem C41_complete_records_partial : forall junk rs r n asks t file,
  complete_file rs = Some file -> Forall (fun r => ok_name (fst r) /\ ok_value (snd r)) rs ->
  Forall2 (fun asked r => asks_for asked (fst r)) asks rs ->
  let cut := mkFS (Some (file ++ firstn n (concat (dump (snd r) (fst r))))) t in
  exists st tr st', open_in junk Shared cut = (Ok st, cut, tr) /\
    load_all junk (combine (map (fun r => kind_of (snd r)) rs) asks) st = Ok (map snd rs, st').
Proof.
  intros junk rs r n asks t file Hf Hr Ha. rewrite complete_file_ok in Hf. assert (file = header ++ records rs) by congruence. subst file. cbv zeta. rewrite <- ?app_assoc.
  destruct (load_all_ok junk rs asks (firstn n (concat (dump (snd r) (fst r)))) 1) as (c' & H).
  - apply asks_all; auto. eapply Forall_impl; [|exact Hr]. cbn; tauto.
  - eapply Forall_impl; [|exact Hr]. cbn; tauto.
  - eexists _, _, _. split; [apply open_in_ok|]. exact H.
Qed.
Print Assumptions C41_complete_records_partial.

(* Cut the file of any real tensor among its elements: loading it can return,
   without an error, any values at all in place of those that were lost *)
Theorem C41_truncated_refuted : forall name ds kept lost invented,
  ok_name name -> ok_tensor is_word (mkST ds (kept ++ lost)) -> lost <> [] ->
  length invented = length lost -> Forall is_word invented ->
  exists n junk st, (n < length (concat (dump (VR (mkST ds (kept ++ lost))) name)))%nat /\
    load junk KR name (mkRS (firstn n (concat (dump (VR (mkST ds (kept ++ lost))) name))) false 0) = Ok (VR (mkST ds (kept ++ invented)), st).
Proof.
  intros name ds es lost inv Hn Ht Hne Hl Hi.
  destruct (load_R_truncated name name ds es inv lost 0) as (junk & st & E); auto.
  { right. symmetry. apply kept_ok. auto. }
  set (pre := concat (write_tag name TAG_RTENSOR ++ dump_vector (length ds) (map to_word ds)) ++ write_words [Z.of_nat (length (es ++ lost))] ++ write_words es) in E.
  assert (Ed : concat (dump (VR (mkST ds (es ++ lost))) name) = pre ++ write_words lost).
  { unfold pre. cbn [dump]. unfold dump_R. cbn [sdims selts]. rewrite !concat_app. rewrite <- !app_assoc. f_equal. f_equal.
    unfold dump_vector at 1. cbn [concat]. rewrite app_nil_r. unfold write_words. rewrite flat_map_app. rewrite <- ?app_assoc. reflexivity. }
  exists (length pre), junk, st. rewrite Ed. split.
  - rewrite app_length, write_words_length. destruct lost; [contradiction|]. cbn [length]. lia.
  - rewrite firstn_app, firstn_all2, Nat.sub_diag, firstn_O, app_nil_r by lia. unfold load. rewrite E. reflexivity.
Qed.
Print Assumptions C41_truncated_refuted.

Example C41_nonvacuous : exists file, complete_file ex_rs = Some file /\ (length file = 64 + 120 + 104 + 80 + 72 + 24 + 16 + 72 + 8 + 16 + 8 + 104)%nat /\
  ok_tensor is_word (mkST [2] ([3] ++ [4])).
Proof.
  eexists. split; [vm_compute; reflexivity|]. split; [reflexivity|]. unfold ok_tensor, is_long, is_word. repeat (constructor || (cbn; lia)).
Qed.

(* ---- C42: appending ---- *)

(* Any number of sessions adds up to the file of one session with all the
   records, and so can be read back as such *)
Theorem C42_append : forall l s f0 rs0, l <> [] ->
  (main s = None /\ rs0 = [] \/ main s = Some f0 /\ complete_file rs0 = Some f0) ->
  exists s' tr, sessions Shared l s = (Ok tt, s', tr) /\ main s' = complete_file (rs0 ++ concat l) /\ tmp s' = tmp s.
Proof.
  intros l s f0 rs0 Hl Hs. destruct (sessions_shared l s) as (tr & E). eexists _, _. split; [exact E|]. rewrite complete_file_ok. cbn [main tmp]. split; [|reflexivity].
  destruct l as [|rs l]; [contradiction|]. set (all := concat (rs :: l)).
  assert (Er : records (rs0 ++ all) = records rs0 ++ records all) by (unfold records; rewrite flat_map_app, concat_app; reflexivity).
  rewrite Er. destruct Hs as [[-> ->]|[-> Hf]]; [reflexivity|]. rewrite complete_file_ok in Hf. assert (f0 = header ++ records rs0) by congruence. subst f0. rewrite <- app_assoc. reflexivity.
Qed.
Print Assumptions C42_append.
Theorem C42_read_back : forall junk l s asks, main s = None -> l <> [] ->
  Forall (fun r => ok_name (fst r) /\ ok_value (snd r)) (concat l) ->
  Forall2 (fun asked r => asks_for asked (fst r)) asks (concat l) ->
  exists s' tr st tr' st', sessions Shared l s = (Ok tt, s', tr) /\ open_in junk Shared s' = (Ok st, s', tr') /\
    load_all junk (combine (map (fun r => kind_of (snd r)) (concat l)) asks) st = Ok (map snd (concat l), st') /\ rest st' = [].
Proof.
  intros junk l s asks Hs Hl Hr Ha. destruct (C42_append l s [] [] Hl) as (s' & tr & E & Em & Et); [auto|].
  rewrite complete_file_ok in Em. destruct s' as [m t]. cbn [main tmp] in *. subst m. cbn [app] in *.
  destruct (load_all_ok junk (concat l) asks [] 1) as (c' & H).
  - apply asks_all; auto. eapply Forall_impl; [|exact Hr]. cbn; tauto.
  - eapply Forall_impl; [|exact Hr]. cbn; tauto.
  - rewrite app_nil_r in H. eexists _, _, _, _, _. split; [exact E|]. split; [apply open_in_ok|]. split; [exact H|reflexivity].
Qed.
Print Assumptions C42_read_back.

(* but if a session is killed before it has written the header, the sessions
   that follow make a file that cannot be opened *)
Theorem C42_after_crash_refuted : forall junk, exists rs s c,
  main s = None /\ In c (snd (session Shared rs s)) /\ main c = Some [] /\
  exists s' tr s'' tr', session Shared rs c = (Ok tt, s', tr) /\ open_in junk Shared s' = (Abort, s'', tr').
Proof.
  intros junk. exists [([97], VInt 1)], (mkFS None None), (mkFS (Some []) None). split; [reflexivity|]. split.
  - cbn. auto.
  - split; [reflexivity|]. destruct (session_shared [([97], VInt 1)] (mkFS (Some []) None)) as (tr & E). eexists _, tr, _, _. split; [exact E|]. vm_compute. reflexivity.
Qed.
Print Assumptions C42_after_crash_refuted.

Example C42_nonvacuous : Forall (fun r => ok_name (fst r) /\ ok_value (snd r)) (concat [ex_rs; []; ex_rs]) /\
  exists asks, Forall2 (fun asked r => asks_for asked (fst r)) asks (concat [ex_rs; []; ex_rs]).
Proof.
  destruct C39_nonvacuous as (H1 & H2 & _). split.
  - cbn [concat]. rewrite app_nil_r. cbn [app]. apply Forall_app. auto.
  - eexists. cbn [concat]. rewrite app_nil_r. cbn [app]. apply Forall2_app; eassumption.
Qed.

(* ---- C43: crashes in paranoid mode ---- *)

(* The named file is never incomplete: it has its previous contents or the new
   ones, or is missing, in which case the new ones are in the temporary file *)
Theorem C43_crash_partial : forall rs s s' tr o, session Paranoid rs s = (o, s', tr) ->
  o = Ok tt /\ main s' = complete_file rs /\ tmp s' = None /\
  forall c, In c tr -> main c = main s \/ main c = complete_file rs \/ main c = None /\ tmp c = complete_file rs.
Proof.
  intros rs s s' tr o E. destruct (session_paranoid rs s) as (tr' & E' & H & _). rewrite E in E'. inversion E'; subst.
  rewrite complete_file_ok. split; [reflexivity|]. split; [reflexivity|]. split; [reflexivity|]. intros c Hc.
  rewrite Forall_forall in H. destruct (H c Hc) as [?|[[? ?]|[? ?]]]; auto.
Qed.
Print Assumptions C43_crash_partial.
(* a file that did not exist appears complete *)
Theorem C43_new_file : forall rs s c, main s = None -> In c (snd (session Paranoid rs s)) -> main c = None \/ main c = complete_file rs.
Proof.
  intros rs s c Hs Hc. destruct (session Paranoid rs s) as [[o s'] tr] eqn:E. destruct (C43_crash_partial rs s s' tr o E) as (_ & _ & _ & H).
  destruct (H c Hc) as [H1|[H1|[H1 _]]]; [left; congruence|right; auto|left; auto].
Qed.
Print Assumptions C43_new_file.
(* the same for any history of sessions, each killed at some point *)
Theorem C43_crash_history_partial : forall s l c, crashed s l c ->
  main c = main s \/ main c = None \/ exists rs, In rs l /\ main c = complete_file rs.
Proof.
  induction 1 as [s|s l c rs c' Hc IH Hin]; [auto|].
  destruct (session Paranoid rs c) as [[o s'] tr] eqn:E. destruct (C43_crash_partial rs c s' tr o E) as (_ & _ & _ & H).
  destruct (H c' Hin) as [H1|[H1|[H1 _]]]; [|right; right; exists rs; split; [apply in_or_app; right; left; reflexivity|auto]|auto].
  rewrite H1. destruct IH as [->|[->|(r & Hr & ->)]]; auto. right. right. exists r. split; [apply in_or_app; auto|auto].
Qed.
Print Assumptions C43_crash_history_partial.
(* Whatever is stored, there is an instant when the file is missing *)
Theorem C43_window_refuted : forall rs s, main s <> None -> exists c, In c (snd (session Paranoid rs s)) /\ main c = None.
Proof.
  intros rs s Hs. destruct (session_paranoid rs s) as (tr & E & _ & H). rewrite E. exists (mkFS None (Some (header ++ records rs))). split; [apply H; auto|reflexivity].
Qed.
Print Assumptions C43_window_refuted.
(* and a second session that is killed loses both the previous and the new contents *)
Theorem C43_total_loss_refuted : forall rs rs' s, main s <> None -> exists c, crashed s [rs; rs'] c /\ main c = None /\ tmp c = None.
Proof.
  intros rs rs' s Hs. exists (mkFS None None). split; [|auto].
  change [rs; rs'] with (([] ++ [rs]) ++ [rs']). eapply crashed_once with (c := mkFS None (Some (header ++ records rs))).
  - eapply crashed_once; [apply crashed_none|]. destruct (session_paranoid rs s) as (tr & E & _ & H). rewrite E. apply H. auto.
  - rewrite session_split. cbn [datafile]. unfold delete_file. unfold seqp at 1. 
    unfold seqp at 1. cbn [file tmp set_file main ret app].
    match goal with |- context [seqp ?p ?q ?s] => destruct (seqp p q s) as [[o s1] tr] end. left. reflexivity.
Qed.
Print Assumptions C43_total_loss_refuted.

Example C43_nonvacuous : exists s c, main s <> None /\ session Paranoid ex_rs s = (Ok tt, mkFS (complete_file ex_rs) None, c) /\ (200 < length c)%nat /\
  crashed s [ex_rs; []] (mkFS None None).
Proof.
  exists (mkFS (Some [1]) None). destruct (session Paranoid ex_rs (mkFS (Some [1]) None)) as [[o s'] tr] eqn:E. exists tr. split; [discriminate|]. split.
  - destruct (session_paranoid ex_rs (mkFS (Some [1]) None)) as (tr' & E' & _). rewrite E in E'. rewrite complete_file_ok. inversion E'; subst. reflexivity.
  - split.
    + replace tr with (snd (session Paranoid ex_rs (mkFS (Some [1]) None))) by (rewrite E; reflexivity). apply Nat.ltb_lt. vm_compute. reflexivity.
    + destruct (C43_total_loss_refuted ex_rs [] (mkFS (Some [1]) None)) as ([m t] & H & H1 & H2); [discriminate|]. cbn in H1, H2. subst. exact H.
Qed.

(* ---- C60: reading leaves the file as it is ---- *)

(* Partial: with SDF_SHARED, the default *)
Theorem C60_input_partial : forall junk s o s' tr, open_in junk Shared s = (o, s', tr) -> s' = s /\ forall c, In c tr -> c = s.
Proof. intros junk s o s' tr H. cbn in H. inversion H. subst. split; [reflexivity|]. intros c [<-|[]]. reflexivity. Qed.
Print Assumptions C60_input_partial.
(* with SDF_OVERWRITE any file is deleted; with SDF_PARANOID it is not opened *)
Theorem C60_input_overwrite_refuted : forall junk f t, exists o tr, open_in junk Overwrite (mkFS (Some f) t) = (o, mkFS None t, tr).
Proof. intros. eexists _, _. cbn. reflexivity. Qed.
Print Assumptions C60_input_overwrite_refuted.
Theorem C60_input_paranoid_refuted : forall f t, exists junk tr st, open_in junk Paranoid (mkFS (Some f) t) = (Ok st, mkFS (Some f) None, tr).
Proof. intros f t. exists (fun _ i => nth i header 0). eexists _, _. vm_compute. reflexivity. Qed.
Print Assumptions C60_input_paranoid_refuted.
Example C60_nonvacuous : exists f, complete_file ex_rs = Some f /\ forall junk, exists st tr, open_in junk Shared (mkFS (Some f) None) = (Ok st, mkFS (Some f) None, tr).
Proof. eexists. split; [apply complete_file_ok|]. intros junk. eexists _, _. apply open_in_ok. Qed.

(* ---- C61: closed files ---- *)

(* After close() the file takes no more data, in any mode, and closing again
   does nothing *)
Theorem C61_closed : forall m s f s1 tr1 rs r f' s2 tr2,
  (f <~ open_out m ;;; _ <~ dump_all f rs ;;; ret f) s = (Ok f, s1, tr1) ->
  close_out f s1 = (Ok f', s2, tr2) ->
  dump_to f' r s2 = (Abort, s2, []) /\ (forall more, dump_all f' (r :: more) s2 = (Abort, s2, [])) /\
  close_out f' s2 = (Ok f', s2, []).
Proof.
  intros m s f s1 tr1 rs r f' s2 tr2 H Hc.
  assert (Hf : oopen f' = false).
  { unfold close_out in Hc. destruct (oopen f) eqn:E.
    - unfold seqp, ret in Hc. destruct (datafile_close (omode f) s1) as [[[]]]; inversion Hc; subst. reflexivity.
    - inversion Hc; subst. exact E. }
  cbn [dump_all]. unfold dump_to, emit, close_out, seqp. rewrite Hf. auto.
Qed.
Print Assumptions C61_closed.
Example C61_nonvacuous : exists f s1 tr1 s2 tr2,
  (f <~ open_out Paranoid ;;; _ <~ dump_all f [([97], VInt 1)] ;;; ret f) (mkFS None None) = (Ok f, s1, tr1) /\
  main s1 = None /\ close_out f s1 = (Ok (mkOF Paranoid false), s2, tr2) /\ main s2 = complete_file [([97], VInt 1)].
Proof. eexists _, _, _, _, _. split; [vm_compute; reflexivity|]. repeat split; vm_compute; reflexivity. Qed.

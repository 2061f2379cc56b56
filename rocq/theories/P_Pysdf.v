(* C75: the Python reader of SDF files.  C76: datasets in Python. *)
From Verif Require Import Base Spec S_Sdf S_Pysdf M_Sdf L_Sdf L_Sdf2 P_Sdf M_Pysdf L_Pysdf L_Pysdf2.
From Verif Require M_Dataset P_Dataset.
From Coq Require Import Permutation.
Local Open Scope Z_scope.

(* ASCII is its own UTF-8 *)
Definition decodes_ascii (decode : list Z -> option (list Z)) : Prop :=
  forall n, Forall (fun c => 0 < c < 128) n -> decode n = Some n.
(* a record that both sides understand *)
Definition portable (maxdims : nat) (r : list Z * value) : Prop :=
  ok_name (fst r) /\ py_name (fst r) /\ ok_value (snd r) /\ py_value maxdims (snd r).

Section Reader.
Context (maxdims : nat) (decode : list Z -> option (list Z)) (junk : nat -> nat -> Z) (depth : nat).
Context (Hmax : (1 <= maxdims)%nat) (Hdec : decodes_ascii decode) (Hdepth : (2 <= depth)%nat).

(* What the library writes into a new file, whatever the mode, the Python reader
   loads on a little-endian machine: the dictionary has, for each name, the last
   value written under it, with the same shape and the same elements bit by bit,
   and nothing else. *)
Theorem C75_load : forall m rs s,
  m = Shared /\ main s = None \/ m = Overwrite \/ m = Paranoid ->
  Forall (portable maxdims) rs -> rs <> [] ->
  exists s' tr file d, session m rs s = (Ok tt, s', tr) /\ main s' = Some file /\
    py_load false maxdims decode junk depth file = Ok d /\
    forall name, get_item d name = option_map (as_python double_bits) (last_value rs name).
Proof using Hmax Hdec Hdepth.
  intros m rs s Hm Hr Hn.
  assert (Hs : exists t tr, session m rs s = (Ok tt, mkFS (Some (header ++ records rs)) t, tr)).
  { destruct Hm as [[-> Hm]|[->| ->]].
    - destruct (session_shared rs s) as (tr & E). rewrite Hm in E. eauto.
    - destruct (session_overwrite rs s) as (tr & E). eauto.
    - destruct (session_paranoid rs s) as (tr & E & _). eauto. }
  destruct Hs as (t & tr & E). exists (mkFS (Some (header ++ records rs)) t), tr, (header ++ records rs), (into [] rs). split; [exact E|]. split; [reflexivity|].
  split; [apply py_load_ok; auto|]. intros name. rewrite get_into. cbn [get_item]. destruct (last_value rs name); reflexivity.
Qed.
(* The same after several sessions that append to one file. *)
Theorem C75_load_appended : forall l s, main s = None -> Forall (Forall (portable maxdims)) l -> concat l <> [] ->
  exists s' tr file d, sessions Shared l s = (Ok tt, s', tr) /\ main s' = Some file /\
    py_load false maxdims decode junk depth file = Ok d /\
    forall name, get_item d name = option_map (as_python double_bits) (last_value (concat l) name).
Proof using Hmax Hdec Hdepth.
  intros l s Hm Hr Hn. destruct (sessions_shared l s) as (tr & E). rewrite Hm in E. destruct l as [|rs l]; [contradiction|].
  eexists _, tr, _, (into [] (concat (rs :: l))). split; [exact E|]. split; [reflexivity|].
  split; [apply py_load_ok; auto; apply Forall_concat; auto|]. intros name. rewrite get_into. cbn [get_item]. destruct (last_value _ name); reflexivity.
Qed.

(* numbers: a double is its own bits, an integer below 2^53 is the double with
   that value *)
Theorem C75_numbers : forall v, (Z.abs v < 2 ^ 53) -> double_trunc (double_bits v) = Some v.
Proof using Type. clear. intros v H. apply double_int. auto. Qed.

(* a dataset: one file for each list of records, in the order of the directory *)
Definition written (rss : list (list (list Z * value))) (files : list (list Z)) : Prop :=
  Forall2 (fun rs file => complete_file rs = Some file) rss files.
Definition value_at (rs : list (list Z * value)) (name : list Z) : option pyobj := option_map (as_python double_bits) (last_value rs name).

(* If the other files have the names of the first, and arrays of the same shapes
   under them, load_dataset returns for each name of the first the arrays of all
   files along a new last dimension. *)
Theorem C76_load_dataset : forall rs rss files,
  written (rs :: rss) files -> Forall (fun rs => Forall (portable maxdims) rs /\ rs <> []) (rs :: rss) ->
  (forall name o, value_at rs name = Some o -> (length (np_shape o) < maxdims)%nat /\
     forall rs', In rs' rss -> exists o', value_at rs' name = Some o' /\ (o <> PyNil -> o' <> PyNil /\ np_shape o' = np_shape o)) ->
  exists d, load_dataset false maxdims decode junk depth files = Ok d /\
    forall name, match value_at rs name with
      | None => get_item d name = None
      | Some _ => exists objs c, Forall2 (fun rs o => value_at rs name = Some o) (rs :: rss) objs /\ get_item d name = Some c /\ column objs c
      end.
Proof using Hmax Hdec Hdepth.
  intros rs rss files W G S.
  assert (GI : forall rs name, get_item (into [] rs) name = value_at rs name).
  { intros rs' name. rewrite get_into. unfold value_at. cbn [get_item]. destruct (last_value rs' name); reflexivity. }
  assert (L : mapM (py_load false maxdims decode junk depth) files = Ok (map (into []) (rs :: rss))).
  { apply mapM_in. clear S. revert files W. induction G as [|r0 l [G1 G2] G IH]; intros files W; inversion W as [|? f ? fs E W']; subst; [constructor|].
    cbn [map]. constructor; [|apply IH; auto]. rewrite complete_file_ok in E. injection E as <-. apply py_load_ok; auto. }
  unfold load_dataset. rewrite L. cbn [bind map combine_dataset].
  assert (AW : forall rs' name o, In rs' (rs :: rss) -> value_at rs' name = Some o -> awf o).
  { intros rs' name o I E. unfold value_at in E. destruct (last_value rs' name) as [v|] eqn:Ev; [|discriminate]. injection E as <-.
    rewrite Forall_forall in G. destruct (G rs' I) as [G1 _]. rewrite Forall_forall in G1. destruct (G1 _ (last_value_in _ _ _ Ev)) as (_ & _ & H1 & H2). eapply python_awf; eauto. }
  destruct (combine_ok maxdims (into [] rs) (map (into []) rss) (map fst (into [] rs))) as (d & E & Hd).
  { intros name I. apply keys_get in I. rewrite GI in I. destruct (value_at rs name) as [o|] eqn:Eo; [|congruence].
    destruct (S name o Eo) as [Sm Sr]. rewrite GI.
    assert (X : exists objs, Forall2 (fun r o' => value_at r name = Some o') rss objs).
    { clear - Sr. induction rss as [|r l IH]; [exists []; constructor|]. destruct IH as (objs & F); [intros; apply Sr; right; auto|]. destruct (Sr r (or_introl eq_refl)) as (o' & E' & _). exists (o' :: objs). constructor; auto. }
    destruct X as (objs & F). exists o, objs. split; [auto|]. split.
    - clear - F GI. induction F; cbn [map]; constructor; auto. rewrite GI. auto.
    - intros No. split; [apply (AW rs name); [left; auto|auto]|]. split; [auto|]. intros o' I'.
      assert (K : exists rs', In rs' rss /\ value_at rs' name = Some o').
      { clear - F I'. induction F as [|r x l l' E F IH]; [contradiction|]. destruct I' as [<-|I']; [exists r; split; [left|]; auto|]. destruct (IH I') as (r' & I2 & E2). exists r'. split; [right|]; auto. }
      destruct K as (rs' & I2 & E2). destruct (Sr rs' I2) as (o2 & E3 & E4). assert (o2 = o') by congruence. subst o2. destruct (E4 No) as [E5 E6].
      split; [auto|]. split; [apply (AW rs' name); [right; auto|auto]|auto]. }
  exists d. split; [exact E|]. intros name. destruct (Hd name) as [H1 H2]. destruct (value_at rs name) as [o|] eqn:Eo.
  - destruct H1 as (objs & c & F & Hc & Cc); [apply keys_get; rewrite GI; congruence|]. exists objs, c. split; [|auto].
    clear - F GI. change (into [] rs :: map (into []) rss) with (map (into []) (rs :: rss)) in F. remember (rs :: rss) as l eqn:El. clear El. revert objs F.
    induction l as [|r l IH]; intros objs F; inversion F; subst; constructor; auto. rewrite <- GI. auto.
  - apply H2. intros I. apply keys_get in I. rewrite GI in I. congruence.
Qed.

(* It never returns part of the data: it raises an exception if there are no files,
   if another file lacks a name of the first, or if two arrays under one name have
   different shapes. *)
Theorem C76_raises :
  load_dataset false maxdims decode junk depth [] = Abort /\
  forall rs rss files name o,
    written (rs :: rss) files -> Forall (fun rs => Forall (portable maxdims) rs /\ rs <> []) (rs :: rss) ->
    value_at rs name = Some o ->
    (exists rs', In rs' rss /\ value_at rs' name = None) \/
    (o <> PyNil /\ exists rs' o', In rs' rss /\ value_at rs' name = Some o' /\
       (* an empty list has the shape of an empty vector *)
       match o' with PyNil => [0%nat] | _ => np_shape o' end <> np_shape o) ->
    load_dataset false maxdims decode junk depth files = Abort.
Proof using Hmax Hdec Hdepth.
  split; [reflexivity|]. intros rs rss files name o W G Eo K.
  assert (GI : forall rs name, get_item (into [] rs) name = value_at rs name).
  { intros rs' name'. rewrite get_into. unfold value_at. cbn [get_item]. destruct (last_value rs' name'); reflexivity. }
  assert (L : mapM (py_load false maxdims decode junk depth) files = Ok (map (into []) (rs :: rss))).
  { apply mapM_in. clear K Eo. revert files W. induction G as [|r0 l [G1 G2] G IH]; intros files W; inversion W as [|? f ? fs E W']; subst; [constructor|].
    cbn [map]. constructor; [|apply IH; auto]. rewrite complete_file_ok in E. injection E as <-. apply py_load_ok; auto. }
  unfold load_dataset. rewrite L. cbn [bind map combine_dataset].
  apply combine_abort; [intros n I; apply keys_get; auto|]. exists name. split; [apply keys_get; rewrite GI; congruence|].
  exists o. split; [rewrite GI; auto|]. destruct K as [(rs' & I & E)|(No & rs' & o' & I & E & Ns)].
  - left. exists (into [] rs'). split; [apply in_map; auto|rewrite GI; auto].
  - right. split; [auto|]. exists (into [] rs'), o'. split; [apply in_map; auto|]. rewrite GI. auto.
Qed.

(* Sorting by a field whose first element is a real number is the same as reading
   the files in increasing order of that number, files with the same number in
   the order of the directory. *)
Theorem C76_load_sorted : forall sort rss files field key,
  (* list.sort *)
  (forall l, Forall (fun kd => ~ is_nan (fst kd)) l -> stably_sorted (fun kd : Z * dict => double_key (fst kd)) l (sort l)) ->
  written rss files -> Forall (fun rs => Forall (portable maxdims) rs /\ rs <> []) rss ->
  (forall rs, In rs rss -> exists n w ws, value_at rs field = Some (PyReal (mkT [n] (w :: ws))) /\ ~ is_nan w /\ key rs = double_key w) ->
  exists rss' files', stably_sorted key rss rss' /\ written rss' files' /\
    load_sorted_dataset false maxdims decode junk sort depth files field = load_dataset false maxdims decode junk depth files'.
Proof using Hmax Hdec Hdepth.
  intros sort rss files field key HS W G K.
  assert (GI : forall rs name, get_item (into [] rs) name = value_at rs name).
  { intros rs' name. rewrite get_into. unfold value_at. cbn [get_item]. destruct (last_value rs' name); reflexivity. }
  assert (LD : forall rss files, written rss files -> Forall (fun rs => Forall (portable maxdims) rs /\ rs <> []) rss -> mapM (py_load false maxdims decode junk depth) files = Ok (map (into []) rss)).
  { clear - Hmax Hdec Hdepth. intros rss files W G. apply mapM_in. revert files W. induction G as [|r0 l [G1 G2] G IH]; intros files W; inversion W as [|? f ? fs E W']; subst; [constructor|].
    cbn [map]. constructor; [|apply IH; auto]. rewrite complete_file_ok in E. injection E as <-. apply py_load_ok; auto. }
  set (kof := fun rs => match value_at rs field with Some (PyReal (mkT [_] (w :: _))) => w | _ => 0 end).
  set (kd := fun rs => (kof rs, into [] rs)).
  assert (KM : mapM (fun d => k <- sort_key field d ;; Ok (k, d)) (map (into []) rss) = Ok (map kd rss)).
  { apply mapM_in. clear - K GI. induction rss as [|r l IH]; cbn [map]; constructor; [|apply IH; intros; apply K; right; auto].
    destruct (K r (or_introl eq_refl)) as (n & w & ws & E & _). unfold sort_key, item. rewrite GI, E. cbn. unfold kd, kof. rewrite E. reflexivity. }
  assert (KK : forall rs, In rs rss -> ~ is_nan (kof rs) /\ key rs = double_key (kof rs)).
  { intros rs I. destruct (K rs I) as (n & w & ws & E & H1 & H2). unfold kof. rewrite E. auto. }
  assert (SS : stably_sorted (fun kd : Z * dict => double_key (fst kd)) (map kd rss) (sort (map kd rss))).
  { apply HS. apply Forall_map, Forall_forall. intros rs I. apply KK. auto. }
  set (rss' := isort (fun rs => double_key (fst (kd rs))) rss).
  assert (SI := isort_stable (fun rs => double_key (fst (kd rs))) rss). fold rss' in SI.
  assert (E' : sort (map kd rss) = map kd rss') by (eapply stable_unique; [exact SS|apply (stable_map kd (fun kd : Z * dict => double_key (fst kd))); auto]).
  exists rss', (map (fun rs => header ++ records rs) rss').
  assert (W' : written rss' (map (fun rs => header ++ records rs) rss')).
  { clear. unfold written. induction rss' as [|r l IH]; cbn [map]; constructor; auto. apply complete_file_ok. }
  split; [|split; [exact W'|]].
  - eapply stable_ext; [|exact SI]. intros rs I. cbn [kd fst]. symmetry. apply KK. auto.
  - unfold load_sorted_dataset. rewrite (LD rss files W G). cbn [bind]. rewrite KM. cbn [bind]. rewrite E', map_map. unfold load_dataset.
    rewrite (LD rss' _ W'); [reflexivity|]. apply Forall_forall. intros rs I. rewrite Forall_forall in G. apply G. eapply Permutation_in; [apply Permutation_sym; apply SI|auto].
Qed.
End Reader.
Print Assumptions C75_load.
Print Assumptions C75_load_appended.
Print Assumptions C75_numbers.
Print Assumptions C76_load_dataset.
Print Assumptions C76_load_sorted.
Print Assumptions C76_raises.

(* A file without records, which holds only the header: the reader takes the tag
   of a record from the memory of a new array.  Depending on it the reader
   answers as it should, or fails. *)
Theorem C75_no_records_refuted : forall maxdims decode depth, decodes_ascii decode -> (1 <= depth)%nat ->
  exists file, complete_file [] = Some file /\
  (exists junk, py_load false maxdims decode junk depth file = Ok []) /\
  (exists junk, py_load false maxdims decode junk depth file = Abort).
Proof.
  intros maxdims decode depth Hd Hn. exists header. split; [rewrite complete_file_ok; unfold records; cbn [flat_map concat]; rewrite app_nil_r; reflexivity|].
  destruct depth as [|depth]; [lia|].
  assert (L : forall junk, load_tag false decode junk (mkP header 4 false 0) = Ok ([], to_signed (of_le (alloc (junk 0%nat) 8)), mkP [] 8 false 1)).
  { intros junk. unfold load_tag. rewrite <- (app_nil_r header). rewrite py_read_ok by reflexivity. change (length header =? 0)%nat with false. cbv iota.
    change (is_header header) with (@Ok bool true). cbn [bind]. change (char header 4) with (@Ok Z 56). change (char header 5) with (@Ok Z 49).
    cbn -[of_le to_signed alloc]. rewrite Hd by constructor. reflexivity. }
  split.
  - exists (fun _ _ => 255). unfold py_load. cbn [load_loop load_record]. rewrite L. reflexivity.
  - exists (fun _ _ => 7). unfold py_load. cbn [load_loop load_record]. rewrite L. reflexivity.
Qed.
Print Assumptions C75_no_records_refuted.

(* A variable whose name starts with "sdf" is taken for a header, unless it is the
   first of the file. *)
Theorem C75_name_sdf_refuted : forall maxdims decode junk depth, decodes_ascii decode -> (1 <= maxdims)%nat -> (2 <= depth)%nat ->
  exists name v file, ok_name name /\ ok_value v /\ py_value maxdims v /\ complete_file [([97], VDouble 0); (name, v)] = Some file /\
    py_load false maxdims decode junk depth file = Abort.
Proof.
  intros maxdims decode junk depth Hd Hm Hn. set (name := [115; 100; 102; 95; 120]).
  exists name, (VDouble 0), (header ++ records [([97], VDouble 0); (name, VDouble 0)]).
  split; [|split; [|split; [|split]]].
  - split; [cbn; lia|]. unfold is_byte, name. repeat constructor; lia.
  - cbn. unfold is_word. lia.
  - exact I.
  - apply complete_file_ok.
  - destruct depth as [|[|depth]]; try lia. unfold py_load. remember (length (header ++ _)) as F eqn:EF. destruct F as [|F]; [discriminate|]. clear EF. cbn [load_loop].
    replace (records [([97], VDouble 0); (name, VDouble 0)]) with (concat (dump (VDouble 0) [97]) ++ records [(name, VDouble 0)]) by reflexivity.
    destruct (record_first maxdims decode junk Hd depth ([97], VDouble 0) (records [(name, VDouble 0)]) 4 false 0) as (c & E); auto.
    { repeat split; cbn; auto; unfold is_byte, is_word; try lia; repeat constructor; try lia; discriminate. }
    cbn [fst snd] in E. rewrite E. cbn [bind]. reflexivity.
Qed.
Print Assumptions C75_name_sdf_refuted.

(* A variable without a name ends the reading: the ones after it are lost. *)
Theorem C75_no_name_refuted : forall maxdims decode junk depth, decodes_ascii decode -> (1 <= maxdims)%nat -> (2 <= depth)%nat ->
  exists file, complete_file [([97], VDouble 0); ([], VDouble 1); ([98], VDouble 2)] = Some file /\
    py_load false maxdims decode junk depth file = Ok [([97], PyReal (mkT [1%nat] [0]))].
Proof.
  intros maxdims decode junk depth Hd Hm Hn. set (rs := [([97], VDouble 0); ([], VDouble 1); ([98], VDouble 2)]).
  exists (header ++ records rs). split; [apply complete_file_ok|]. destruct depth as [|[|depth]]; try lia.
  unfold py_load. assert (EF : exists F, S (length (header ++ records rs)) = S (S F)) by (exists 375%nat; vm_compute; reflexivity). destruct EF as (F & ->). cbn [load_loop].
  replace (records rs) with (concat (dump (VDouble 0) [97]) ++ concat (dump_R (mkST [1] [1]) []) ++ records [([98], VDouble 2)]) by reflexivity.
  destruct (record_first maxdims decode junk Hd depth ([97], VDouble 0) (concat (dump_R (mkST [1] [1]) []) ++ records [([98], VDouble 2)]) 4 false 0) as (c & E); auto.
  { repeat split; cbn; auto; unfold is_byte, is_word; try lia; repeat constructor; try lia; discriminate. }
  cbn [fst snd] in E. rewrite E. cbn [bind].
  destruct (record_R maxdims decode junk Hd (S depth) (mkST [1] [1]) (records [([98], VDouble 2)]) c) as (c' & E').
  { apply one_tensor_ok. unfold is_word. lia. }
  { split; [cbn; lia|]. repeat constructor; lia. }
  rewrite E'. reflexivity.
Qed.
Print Assumptions C75_no_name_refuted.

(* A tensor without dimensions, such as RTensor(), makes the reader fail. *)
Theorem C75_no_dimensions_refuted : forall maxdims decode junk depth, decodes_ascii decode -> (1 <= maxdims)%nat -> (2 <= depth)%nat ->
  exists file, ok_value (VR (mkST [] [])) /\ complete_file [([97], VR (mkST [] []))] = Some file /\
    py_load false maxdims decode junk depth file = Abort.
Proof.
  intros maxdims decode junk depth Hd Hm Hn. exists (header ++ records [([97], VR (mkST [] []))]).
  split; [repeat split; cbn; auto; lia|]. split; [apply complete_file_ok|]. destruct depth as [|[|depth]]; try lia.
  unfold py_load. set (F := length _). cbn [load_loop]. rewrite record_tag.
  replace (records [([97], VR (mkST [] []))]) with (concat (write_tag [97] 0) ++ body (VR (mkST [] []))) by reflexivity.
  rewrite load_tag_first; [| |apply Hd; repeat constructor; lia|lia].
  2:{ split; [cbn; lia|]. unfold is_byte. repeat constructor; lia. }
  cbn [bind]. unfold after_tag. cbn [Z.eqb]. destruct maxdims as [|m]; [lia|]. vm_compute. reflexivity.
Qed.
Print Assumptions C75_no_dimensions_refuted.

(* On a big-endian machine the reader never succeeds with what the library wrote
   on a little-endian one. *)
Theorem C75_big_endian_refuted : forall maxdims decode junk depth rs file,
  complete_file rs = Some file -> py_load true maxdims decode junk depth file = Abort.
Proof.
  intros maxdims decode junk depth rs file E. rewrite complete_file_ok in E. assert (E' : file = header ++ records rs) by congruence. subst file. clear E.
  unfold py_load. set (F := length _). cbn [load_loop]. destruct depth as [|depth]; [reflexivity|]. cbn [load_record].
  unfold load_tag at 1. rewrite py_read_ok by reflexivity. change (length header =? 0)%nat with false. cbv iota.
  change (is_header header) with (@Ok bool true). cbn [bind]. change (char header 4) with (@Ok Z 56). change (char header 5) with (@Ok Z 49). cbn [bind].
  change (56 =? 52) with false. change (56 =? 56) with true. change (49 =? 49) with true. cbv iota. cbn [bind negb xorb prest arrays]. cbn [py_read prest longs interpret arrays].
  destruct (decode (cstr (firstn 64 (records rs)))) as [name|]; reflexivity.
Qed.
Print Assumptions C75_big_endian_refuted.

(* The contents of vectors of tensors do not come out. *)
Theorem C75_vectors_refuted : forall maxdims decode junk depth, decodes_ascii decode -> (1 <= maxdims)%nat -> (2 <= depth)%nat ->
  exists l l' file file', l <> l' /\ complete_file [([97], VRs l)] = Some file /\ complete_file [([97], VRs l')] = Some file' /\
    py_load false maxdims decode junk depth file = Ok [([97], PyNil)] /\ py_load false maxdims decode junk depth file' = Ok [([97], PyNil)].
Proof.
  intros maxdims decode junk depth Hd Hm Hn. exists [mkST [1] [5]], [mkST [1] [6]], (header ++ records [([97], VRs [mkST [1] [5]])]), (header ++ records [([97], VRs [mkST [1] [6]])]).
  split; [discriminate|]. split; [apply complete_file_ok|]. split; [apply complete_file_ok|].
  assert (G : forall w, is_word w -> Forall (good maxdims) [([97], VRs [mkST [1] [w]])]).
  { intros w Hw. constructor; [|constructor]. split; [|split; [|split]].
    - split; [cbn; lia|]. unfold is_byte. repeat constructor; lia.
    - split; [discriminate|]. split; [repeat constructor; lia|discriminate].
    - split; [|cbn; lia]. constructor; [|constructor]. apply one_tensor_ok. auto.
    - constructor; [|constructor]. split; [cbn; lia|]. repeat constructor; lia. }
  split; (rewrite py_load_ok; [reflexivity|auto|apply G; unfold is_word; lia|discriminate|auto|auto]).
Qed.
Print Assumptions C75_vectors_refuted.

(* A file that was cut is read without complaint: the elements that are missing
   are whatever the memory held. *)
Theorem C75_cut_refuted : forall maxdims decode depth x, decodes_ascii decode -> (1 <= maxdims)%nat -> (2 <= depth)%nat -> is_word x ->
  exists file n junk, complete_file [([97], VR (mkST [2] [1; 2]))] = Some file /\ (n < length file)%nat /\
    py_load false maxdims decode junk depth (firstn n file) = Ok [([97], PyReal (mkT [2%nat] [1; x]))].
Proof.
  intros maxdims decode depth x Hd Hm Hn Hx. set (file := header ++ records [([97], VR (mkST [2] [1; 2]))]).
  exists file, (length file - 8)%nat, (fun _ i => nth (i - 8) (le 8 x) 0). split; [apply complete_file_ok|]. split; [vm_compute; lia|].
  destruct depth as [|[|depth]]; try lia.
  set (rest := write_words [1; to_word 2; 2; 1]).
  replace (firstn (length file - 8) file) with (header ++ concat (write_tag [97] 0) ++ rest) by (vm_compute; reflexivity).
  unfold py_load. set (F := length _). assert (EF : exists F', F = S F') by (exists (pred F); vm_compute; reflexivity). destruct EF as (F' & ->). cbn [load_loop]. rewrite record_tag.
  rewrite load_tag_first; [| |apply Hd; repeat constructor; lia|lia].
  2:{ split; [cbn; lia|]. unfold is_byte. repeat constructor; lia. }
  cbn [bind]. unfold after_tag. cbn [Z.eqb].
  assert (E : load_tensor false maxdims (fun _ i => nth (i - 8) (le 8 x) 0) false (mkP rest 8 false 1) = Ok (PyReal (mkT [2%nat] [1; x]), mkP [] 8 false 5)).
  { unfold load_tensor, rest. change [1; to_word 2; 2; 1] with ([1] ++ [to_word 2] ++ [2] ++ [1]). unfold write_words. rewrite !flat_map_app. fold (write_words [1]). fold (write_words [to_word 2]). fold (write_words [2]).
    rewrite read_long_ok by (unfold is_word; lia). cbn [bind]. change (to_signed 1) with (Z.of_nat (length [to_word 2])).
    rewrite read_longs_ok; [|constructor; [apply to_word_word|constructor]|cbn; lia]. cbn [bind]. rewrite read_long_ok by (unfold is_word; lia). cbn [bind].
    change (to_signed 2) with 2. unfold read_doubles, py_readinto. change ((2 <? 0) || (2 ^ 63 <=? 2 * Z.of_nat 8)) with false. cbv iota. cbn [prest arrays longs interpret bind].
    change (8 * Z.to_nat 2)%nat with 16%nat. change (firstn 16 (write_words [1])) with (write_words [1]). change (skipn 16 (write_words [1])) with (@nil Z). change (length (write_words [1])) with 8%nat.
    replace (skipn 8 (alloc (fun i => nth (i - 8) (le 8 x) 0) 16)) with (le 8 x) by reflexivity.
    rewrite elements_words. change (Z.to_nat 2) with 2%nat. replace (write_words [1] ++ le 8 x) with (write_words [1; x]) by (unfold write_words; cbn [flat_map]; rewrite !app_nil_r; reflexivity).
    change 2%nat with (length [1; x]) at 1. rewrite words_write by (constructor; [unfold is_word; lia|constructor; [exact Hx|constructor]]).
    cbn [map]. unfold np_ndarray. cbn [length]. rewrite signed_word by (unfold is_long; lia). replace (maxdims <? 1)%nat with false by lia. reflexivity. }
  rewrite E. cbn [bind]. destruct F' as [|F']; reflexivity.
Qed.
Print Assumptions C75_cut_refuted.

(* A job that was killed leaves its temporary file in the directory, and
   load_dataset takes it for a record.  Here the job 0 has written its record, and
   the job 1 was killed when it had created its file: if the directory lists that
   file first the result is empty, if it lists it last there is none. *)
Theorem C76_leftover_refuted : forall maxdims decode junk depth, decodes_ascii decode -> (2 <= maxdims)%nat -> (2 <= depth)%nat ->
  exists (s : @M_Dataset.sys Z) file i,
    let result p := records [([120], VDouble (Z.of_nat p))] in
    M_Dataset.star (M_Dataset.step header (fun p => p) result M_Dataset.anytime) (M_Dataset.start_with M_Dataset.Directory) s /\
    M_Dataset.procs s 0 = M_Dataset.Written /\ M_Dataset.procs s 1 = M_Dataset.Dead /\
    (* the directory holds these two files and no other *)
    M_Dataset.record s 0 = Some file /\ M_Dataset.tmp (M_Dataset.disk s) 1 = Some i /\ M_Dataset.contents (M_Dataset.disk s) i = [] /\
    (forall j, j <> 0%nat -> M_Dataset.record s j = None) /\ (forall j, j <> 1%nat -> M_Dataset.tmp (M_Dataset.disk s) j = None) /\
    (* without the temporary one, and with it *)
    load_dataset false maxdims decode junk depth [file] = Ok [([120], PyArray (PyReal (mkT [1; 1]%nat [0])))] /\
    load_dataset false maxdims decode junk depth [[]; file] = Ok [] /\
    load_dataset false maxdims decode junk depth [file; []] = Abort.
Proof.
  intros maxdims decode junk depth Hd Hm Hn. set (result := fun p => records [([120], VDouble (Z.of_nat p))]).
  pose (l := [P_Dataset.Start 0; P_Dataset.Start 1] ++ P_Dataset.calls 179 0 ++ P_Dataset.calls 6 1 ++ [P_Dataset.Kill 1]).
  destruct (P_Dataset.exec header (fun p => p) result (M_Dataset.start_with M_Dataset.Directory) l) as [s|] eqn:E; [|vm_compute in E; discriminate].
  assert (R : M_Dataset.star (M_Dataset.step header (fun p => p) result M_Dataset.anytime) (M_Dataset.start_with M_Dataset.Directory) s)
    by (eapply P_Dataset.exec_star; [intros; exact I|apply M_Dataset.star_refl|exact E]).
  exists s, (header ++ result 0%nat), 1%nat. cbv zeta. split; [exact R|]. clear R.
  assert (L : py_load false maxdims decode junk depth (header ++ result 0%nat) = Ok [([120], PyReal (mkT [1%nat] [0]))]).
  { unfold result. rewrite py_load_ok; [reflexivity|auto| |discriminate|lia|auto].
    constructor; [|constructor]. split; [split; [cbn; lia|unfold is_byte; repeat constructor; lia]|]. split; [split; [discriminate|split; [repeat constructor; lia|discriminate]]|]. split; [cbn; unfold is_word; lia|exact I]. }
  assert (L0 : py_load false maxdims decode junk depth [] = Ok []) by (destruct depth as [|depth]; [lia|reflexivity]).
  assert (S : np_stack maxdims (PyReal (mkT [1%nat] [0])) [] = Ok (PyReal (mkT [1; 1]%nat [0]))) by (unfold np_stack; cbn [shape_of as_array dims forallb negb length]; replace (maxdims <=? 1)%nat with false by lia; reflexivity).
  vm_compute in E. injection E as <-.
  repeat match goal with |- _ /\ _ => split end.
  1-5: vm_compute; reflexivity.
  - intros [|j] Hj; [contradiction|]. vm_compute. reflexivity.
  - intros [|[|j]] Hj; try contradiction; vm_compute; reflexivity.
  - unfold load_dataset. cbn [mapM]. rewrite L. cbn [bind].
    transitivity (a <- np_stack maxdims (PyReal (mkT [1%nat] [0])) [] ;; Ok [([120], PyArray a)]); [|rewrite S; reflexivity].
    cbn [combine_dataset map fst combine_loop]. replace (item [([120], PyReal (mkT [1%nat] [0]))] [120]) with (Ok (PyReal (mkT [1%nat] [0]))) by reflexivity.
    cbn [bind mapM]. rewrite S. reflexivity.
  - unfold load_dataset. cbn [mapM]. rewrite L0, L. reflexivity.
  - unfold load_dataset. cbn [mapM]. rewrite L, L0. reflexivity.
Qed.
Print Assumptions C76_leftover_refuted.

(* A file with two real tensors under one name, a complex number, a vector of
   tensors and an integer; and two datasets of such files. *)
Definition ex_py (x : Z) : list (list Z * value) :=
  [([97], VR (mkST [2; 1] [5; x])); ([98], VComplex 3 4); ([99], VRs [mkST [1] [7]]); ([97], VR (mkST [3] [x; 6; 8])); ([100], VInt (-3))].
Lemma ex_py_portable x : is_word x -> Forall (portable 32) (ex_py x).
Proof.
  intros Hx. assert (OT : forall E (P : E -> Prop) ds es, Forall is_long ds -> Forall P es -> Z.of_nat (length es) = size_of ds -> (length ds < 10)%nat -> (length es < 10)%nat -> ok_tensor P (mkST ds es))
      by (intros; repeat split; cbn; auto; lia).
    assert (NM : forall c, 0 < c < 115 -> ok_name [c] /\ py_name [c]).
    { intros c Hc. split; [split; [cbn; lia|unfold is_byte; repeat constructor; lia]|]. split; [discriminate|]. split; [repeat constructor; lia|discriminate]. }
    assert (SH : forall E ds (es : list E), (1 <= length ds <= 32)%nat -> Forall (fun d => 0 <= d) ds -> py_shape 32 (mkST ds es)) by (intros; split; auto).
    unfold ex_py. repeat apply Forall_cons; try apply Forall_nil; (split; [apply NM; lia|split; [apply NM; lia|]]); cbn [snd ok_value py_value].
    - split; [apply OT|apply SH]; cbn; unfold is_long; try lia; repeat (exact Hx || (unfold is_word; lia) || lia || constructor).
    - unfold is_word. repeat split; lia.
    - split; [split; [constructor; [apply one_tensor_ok; unfold is_word; lia|constructor]|cbn; lia]|constructor; [apply SH; cbn; try lia; repeat constructor; lia|constructor]].
    - split; [apply OT|apply SH]; cbn; unfold is_long; try lia; repeat (exact Hx || (unfold is_word; lia) || lia || constructor).
    - split; [lia|exact I].
Qed.
Example C75_nonvacuous : Forall (portable 32) (ex_py 9) /\ ex_py 9 <> [] /\
  (forall decode junk, decodes_ascii decode -> exists s' tr file d, session Shared (ex_py 9) (mkFS None None) = (Ok tt, s', tr) /\ main s' = Some file /\
     py_load false 32 decode junk 2 file = Ok d /\
     d = [([97], PyReal (mkT [3%nat] [9; 6; 8])); ([98], PyComplex (mkT [1%nat] [(3, 4)])); ([99], PyNil); ([100], PyReal (mkT [1%nat] [13837309855095848960]))]).
Proof.
  assert (G : Forall (portable 32) (ex_py 9)) by (apply ex_py_portable; unfold is_word; lia).
  split; [exact G|]. split; [discriminate|]. intros decode junk Hd.
  destruct (session_shared (ex_py 9) (mkFS None None)) as (tr & E). eexists _, tr, _, _. split; [exact E|]. split; [reflexivity|]. split; [apply py_load_ok; auto; [discriminate|lia]|].
  vm_compute. reflexivity.
Qed.

Example C76_nonvacuous :
  let sort := isort (fun kd : Z * dict => double_key (fst kd)) in
  Forall (fun rs => Forall (portable 32) rs /\ rs <> []) [ex_py 9; ex_py 5] /\
  (forall name o, value_at (ex_py 9) name = Some o -> (length (np_shape o) < 32)%nat /\
     forall rs', In rs' [ex_py 5] -> exists o', value_at rs' name = Some o' /\ (o <> PyNil -> o' <> PyNil /\ np_shape o' = np_shape o)) /\
  (forall l, Forall (fun kd => ~ is_nan (fst kd)) l -> stably_sorted (fun kd : Z * dict => double_key (fst kd)) l (sort l)) /\
  (forall decode junk, decodes_ascii decode -> exists f1 f2, written [ex_py 9; ex_py 5] [f1; f2] /\
     load_dataset false 32 decode junk 2 [f1; f2] = Ok [([97], PyArray (PyReal (mkT [3; 2]%nat [9; 6; 8; 5; 6; 8])));
       ([98], PyArray (PyComplex (mkT [1; 2]%nat [(3, 4); (3, 4)]))); ([99], PyList [PyNil; PyNil]);
       ([100], PyArray (PyReal (mkT [1; 2]%nat [13837309855095848960; 13837309855095848960])))] /\
     load_sorted_dataset false 32 decode junk sort 2 [f1; f2] [97] = load_dataset false 32 decode junk 2 [f2; f1]).
Proof.
  intros sort. assert (G : forall x, is_word x -> Forall (portable 32) (ex_py x) /\ ex_py x <> []) by (intros x Hx; split; [apply ex_py_portable; auto|discriminate]).
  split; [repeat (constructor; [apply G; unfold is_word; lia|]); constructor|]. split; [|split].
  - intros name o H. unfold value_at in *. cbn [ex_py last_value] in *. 
    repeat match type of H with context [list_eq_dec Z.eq_dec ?a name] => destruct (list_eq_dec Z.eq_dec a name) as [<-|]; cbn [option_map] in H; try discriminate H end;
    injection H as <-; (split; [cbn; lia|]); intros rs' [<-|[]]; vm_compute; eexists; (split; [reflexivity|]); intros Hn; try contradiction; split; congruence.
  - intros l _. apply isort_stable.
  - intros decode junk Hd. eexists _, _. split; [repeat (constructor; [apply complete_file_ok|]); constructor|].
    assert (L : forall x, is_word x -> py_load false 32 decode junk 2 (header ++ records (ex_py x)) = Ok (into [] (ex_py x))) by (intros x Hx; apply py_load_ok; auto; try lia; apply G; auto).
    unfold load_sorted_dataset, load_dataset. cbn [mapM]. rewrite !L by (unfold is_word; lia). split; vm_compute; reflexivity.
Qed.

Example C76_raises_nonvacuous :
  let rs' := firstn 1 (ex_py 5) in
  Forall (fun rs => Forall (portable 32) rs /\ rs <> []) [ex_py 9; rs'] /\
  value_at (ex_py 9) [98] <> None /\ value_at rs' [98] = None.
Proof.
  cbn zeta. split; [|split; [vm_compute; discriminate|reflexivity]].
  assert (G : forall x, is_word x -> Forall (portable 32) (ex_py x)) by (intros x Hx; apply ex_py_portable; auto).
  constructor; [split; [apply G; unfold is_word; lia|discriminate]|].
  constructor; [|constructor]. split; [|discriminate]. apply Forall_forall. intros r Hr.
  assert (G5 := G 5 ltac:(unfold is_word; lia)). rewrite Forall_forall in G5. apply G5.
  cbn in Hr. destruct Hr as [<-|[]]. left. reflexivity.
Qed.

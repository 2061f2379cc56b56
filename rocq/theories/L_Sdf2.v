(* Lemmas for SDF files: headers, truncation, sessions and crashes. *)
From Verif Require Import Base Spec S_Reduce S_Sdf M_Tensor M_Sdf L_Reduce L_Sdf.
Local Open Scope Z_scope.

Section H.
Context (junk : nat -> nat -> Z).

(* ---- headers ---- *)
Lemma header_accept_iff block b c : length block = 64%nat -> In 0 block ->
  ((exists st, read_header junk (mkRS (block ++ b) false c) = Ok st) <-> firstn 6 (cstr block) = header_name).
Proof.
  intros Hl Hz. unfold read_header, read_variable_name. rewrite read_raw_ok by auto.
  replace (existsb (fun c0 => c0 =? 0) block) with true by (symmetry; apply existsb_exists; exists 0; auto). cbn [bind].
  generalize (cstr block) as s. intros s.
  destruct s as [|c0 [|c1 [|c2 [|c3 [|c4 [|c5 s]]]]]]; cbn [char_at length Nat.eqb rd nth_error bind firstn];
  repeat match goal with |- context [negb (?x =? ?y)] => destruct (Z.eqb_spec x y); cbn [negb orb bind] end;
  unfold header_name; split; try (intros [st H]; discriminate H); try (intros H; injection H; intros; lia); try discriminate.
  - intros _. f_equal; [lia|]. repeat (f_equal; try lia).
  - intros _. eexists. reflexivity.
Qed.
Lemma header_reject block b c : length block = 64%nat -> In 0 block -> firstn 6 (cstr block) <> header_name ->
  ~ (firstn 3 (cstr block) = [115; 100; 102] /\ (length (cstr block) < 5)%nat) ->
  read_header junk (mkRS (block ++ b) false c) = Abort.
Proof.
  intros Hl Hz Hh H5. destruct (read_header junk (mkRS (block ++ b) false c)) eqn:E; auto; exfalso.
  - apply Hh. apply (header_accept_iff block b c); auto. eauto.
  - revert E. unfold read_header, read_variable_name. rewrite read_raw_ok by auto.
    replace (existsb (fun c0 => c0 =? 0) block) with true by (symmetry; apply existsb_exists; exists 0; auto). cbn [bind].
    revert H5. generalize (cstr block) as s. clear. intros s H5.
    destruct s as [|c0 [|c1 [|c2 [|c3 [|c4 [|c5 s]]]]]]; cbn [char_at length Nat.eqb rd nth_error bind firstn] in *;
    repeat match goal with |- context [negb (?x =? ?y)] => destruct (Z.eqb_spec x y); cbn [negb orb bind] end; try discriminate;
    intros _; apply H5; (split; [congruence|lia]).
  - revert E. unfold read_header, read_variable_name. rewrite read_raw_ok by auto.
    replace (existsb (fun c0 => c0 =? 0) block) with true by (symmetry; apply existsb_exists; exists 0; auto). cbn [bind].
    generalize (cstr block) as s. clear. intros s.
    destruct s as [|c0 [|c1 [|c2 [|c3 [|c4 [|c5 s]]]]]]; cbn [char_at length Nat.eqb rd nth_error bind firstn] in *;
    repeat match goal with |- context [negb (?x =? ?y)] => destruct (Z.eqb_spec x y); cbn [negb orb bind] end; discriminate.
Qed.
End H.

(* ---- truncation ---- *)
Lemma words_app l1 n2 bs : Forall is_word l1 -> words (length l1 + n2) (write_words l1 ++ bs) = l1 ++ words n2 bs.
Proof.
  induction 1 as [|w ws Hw H IH]; [reflexivity|]. cbn [length Nat.add words app]. unfold write_words. cbn [flat_map]. rewrite <- app_assoc.
  rewrite firstn_app, skipn_app, le_length, Nat.sub_diag, firstn_all2, skipn_all2 by (rewrite le_length; lia).
  rewrite firstn_O, app_nil_r. simpl skipn. rewrite of_le_word by auto. f_equal. exact IH.
Qed.
Lemma alloc_nth l : alloc (fun i => nth i l 0) (length l) = l.
Proof.
  apply list_eq_nth_len; [apply length_alloc|]. intros i Hi. rewrite length_alloc in Hi. unfold alloc. rewrite nth_error_map_seq by auto.
  symmetry. apply nth_error_nth'. auto.
Qed.
Lemma load_R_truncated asked name ds es1 es2 lost c : accepts asked name ->
  ok_tensor is_word (mkST ds (es1 ++ lost)) -> length es2 = length lost -> Forall is_word es2 -> lost <> [] ->
  exists junk st, load_R junk asked (mkRS (concat (write_tag name TAG_RTENSOR ++ dump_vector (length ds) (map to_word ds)) ++
       write_words [Z.of_nat (length (es1 ++ lost))] ++ write_words es1) false c) = Ok (mkST ds (es1 ++ es2), st).
Proof.
  intros Ha (H1 & H2 & H3 & H4 & H5) Hl He2 Hne. cbn [sdims selts] in *.
  exists (fun _ i => nth i (write_words es1 ++ write_words es2) 0).
  unfold load_R. rewrite !concat_app, <- !app_assoc.
  rewrite (read_tag_ok _ asked name TAG_RTENSOR) by (auto; unfold TAG_RTENSOR; lia). cbn [bind]. rewrite load_indices_ok by auto. cbn [bind].
  unfold load_reals. rewrite read_word_ok by (apply small_word; auto). rewrite new_vector_ok by auto. cbn [bind].
  unfold read_words, read_raw. cbn [failed rest reads].
  assert (Hlw : length (write_words es1 ++ write_words es2) = (8 * length (es1 ++ lost))%nat) by (rewrite app_length, !write_words_length, app_length; lia).
  assert (Hpos : (0 < length lost)%nat) by (destruct lost; [contradiction|cbn; lia]).
  replace (8 * length (es1 ++ lost) <=? length (write_words es1))%nat with false by (rewrite write_words_length, app_length; lia).
  rewrite <- Hlw, alloc_nth. rewrite skipn_app, Nat.sub_diag, skipn_all. cbn [app]. change (skipn 0 (write_words es2)) with (write_words es2).
  rewrite app_length. apply Forall_app in H2. destruct H2 as [He1 _]. rewrite words_app by auto. rewrite <- Hl, words_write by auto. cbn [bind].
  rewrite total_size_of. cbn [sdims selts] in H3. rewrite <- H3, !app_length, Hl, Z.eqb_refl. cbn [assert_ bind]. eexists. reflexivity.
Qed.

(* ---- sessions ---- *)
Lemma set_get w s c : file w (set_file w c s) = c.
Proof. destruct w; reflexivity. Qed.
Lemma set_set w s c c' : set_file w c (set_file w c' s) = set_file w c s.
Proof. destruct w, s; reflexivity. Qed.
Definition contents (w : which) (s : fs) : list Z := match file w s with Some c => c | None => [] end.

Lemma write_all_ok w l s : file w s <> None ->
  exists tr, write_all w l s = (Ok tt, set_file w (Some (contents w s ++ concat l)) s, tr) /\
    Forall (fun s' => exists k, s' = set_file w (Some (contents w s ++ firstn k (concat l))) s) tr.
Proof.
  revert s. induction l as [|c l IH]; intros s Hs.
  - exists []. split; [|constructor]. unfold ret, write_all. cbn. rewrite app_nil_r. unfold contents.
    destruct (file w s) as [x|] eqn:E; [|contradiction]. f_equal. f_equal. destruct w, s; cbn in *; subst; reflexivity.
  - cbn [write_all]. unfold seqp, append.
    set (s1 := set_file w (Some (contents w s ++ firstn (length c) c)) s).
    assert (Hf : file w s1 = Some (contents w s ++ c)) by (unfold s1; rewrite set_get, firstn_all; reflexivity).
    destruct (IH s1) as (tr & E & Htr); [congruence|]. fold (contents w s). fold s1. rewrite E. eexists. split.
    + f_equal. f_equal. unfold s1. rewrite set_set. f_equal. f_equal. unfold contents at 1. rewrite set_get. rewrite firstn_all. cbn [concat]. rewrite app_assoc. reflexivity.
    + apply Forall_app. split.
      * rewrite Forall_forall. intros s' Hin. apply in_map_iff in Hin. destruct Hin as (k & <- & Hk). apply in_seq in Hk. exists k.
        f_equal. f_equal. f_equal. cbn [concat]. rewrite firstn_app. replace (k - length c)%nat with 0%nat by lia. rewrite firstn_O, app_nil_r. reflexivity.
      * eapply Forall_impl; [|exact Htr]. intros s' (k & ->). exists (length c + k)%nat. unfold s1. rewrite set_set. f_equal. f_equal.
        unfold contents at 1. rewrite set_get, firstn_all. cbn [concat]. rewrite firstn_app_2. rewrite app_assoc. reflexivity.
Qed.

Lemma seqp_assoc {T U V} (p : prog T) (q : T -> prog U) (r : U -> prog V) s : seqp (seqp p q) r s = seqp p (fun x => seqp (q x) r) s.
Proof.
  unfold seqp. destruct (p s) as [[o s1] tr]. destruct o; auto. destruct (q a s1) as [[o' s2] tr']. destruct o'; auto.
  destruct (r a0 s2) as [[o'' s3] tr'']. rewrite app_assoc. reflexivity.
Qed.
Lemma seqp_ext {T U} (p : prog T) (q q' : T -> prog U) s : (forall x s, q x s = q' x s) -> seqp p q s = seqp p q' s.
Proof. intros H. unfold seqp. destruct (p s) as [[o s1] tr]. destruct o; auto. rewrite H. reflexivity. Qed.
Lemma seqp_ret {T U} (x : T) (q : T -> prog U) s : seqp (ret x) q s = q x s.
Proof. unfold seqp, ret. destruct (q x s) as [[o s1] tr]. reflexivity. Qed.
Lemma seqp_ok {T U} (p : prog T) (q : T -> prog U) s x s1 tr : p s = (Ok x, s1, tr) -> 
  seqp p q s = (fst (fst (q x s1)), snd (fst (q x s1)), tr ++ snd (q x s1)).
Proof. intros H. unfold seqp. rewrite H. destruct (q x s1) as [[o s2] tr']. reflexivity. Qed.
Lemma write_all_app w l1 l2 s : write_all w (l1 ++ l2) s = seqp (write_all w l1) (fun _ => write_all w l2) s.
Proof.
  revert s. induction l1 as [|c l1 IH]; intros s; cbn [write_all app]; [rewrite seqp_ret; reflexivity|].
  rewrite seqp_assoc. apply seqp_ext. intros _ s'. apply IH.
Qed.
Lemma dump_all_write f rs s : oopen f = true -> dump_all f rs s = write_all (actual (omode f)) (flat_map (fun r => dump (snd r) (fst r)) rs) s.
Proof.
  intros Ho. revert s. induction rs as [|r rs IH]; intros s; [reflexivity|]. cbn [dump_all flat_map]. rewrite write_all_app.
  unfold dump_to, emit. rewrite Ho. apply seqp_ext. intros _ s'. apply IH.
Qed.

(* the contents after a session, and the states in between *)
Definition appended (w : which) (s : fs) (bs : list Z) : fs := set_file w (Some (contents w s ++ bs)) s.

Lemma open_dump m rs s : 
  (* after DataFile's constructor *)
  exists tr, (f <~ (existed <~ file_exists (actual m) ;;; _ <~ open_append (actual m) ;;;
               _ <~ (if existed : bool then ret tt else emit (mkOF m true) write_header) ;;; ret (mkOF m true)) ;;;
             _ <~ dump_all f rs ;;; ret f) s =
    (Ok (mkOF m true), appended (actual m) s ((match file (actual m) s with None => concat write_header | _ => [] end) ++ records rs), tr) /\
    Forall (fun s' => s' = s \/ exists k, s' = appended (actual m) s (firstn k ((match file (actual m) s with None => concat write_header | _ => [] end) ++ records rs))) tr.
Proof.
  set (w := actual m). set (hd := match file w s with None => concat write_header | _ => [] end).
  set (s1 := appended w s []). assert (F1 : file w s1 = Some (contents w s)) by (unfold s1, appended; rewrite set_get, app_nil_r; reflexivity).
  assert (Ew : exists ch, concat ch = hd ++ records rs /\ forall s', (_ <~ (if (match file w s with Some _ => true | None => false end) then ret tt else emit (mkOF m true) write_header) ;;;
     dump_all (mkOF m true) rs) s' = write_all w ch s').
  { unfold hd, records. destruct (file w s).
    - exists (flat_map (fun r => dump (snd r) (fst r)) rs). split; [reflexivity|]. intros s'. rewrite seqp_ret. apply dump_all_write. reflexivity.
    - exists (write_header ++ flat_map (fun r => dump (snd r) (fst r)) rs). split; [apply concat_app|]. intros s'. rewrite write_all_app. cbn [emit oopen omode].
      apply seqp_ext. intros _ s''. apply dump_all_write. reflexivity. }
  destruct Ew as (ch & Ech & Hch). destruct (write_all_ok w ch s1) as (tr & E & Htr); [congruence|].
  exists ([s] ++ [s1] ++ tr ++ []). split.
  - rewrite seqp_assoc. rewrite (seqp_ok _ _ s _ s [s] eq_refl). fold w.
    match goal with |- (fst (fst (?p s)), _, _) = _ => assert (Ep : p s = (Ok (mkOF m true), appended w s (hd ++ records rs), [s1] ++ tr ++ [])) end.
    { rewrite seqp_assoc. rewrite (seqp_ok _ _ s tt s1 [s1]).
      2:{ unfold open_append. fold (contents w s). unfold s1, appended. rewrite app_nil_r. reflexivity. }
      match goal with |- (fst (fst (?p s1)), _, _) = _ => assert (Ep : p s1 = (Ok (mkOF m true), appended w s (hd ++ records rs), tr ++ [])) end; [|rewrite Ep; reflexivity].
      rewrite seqp_assoc.
      transitivity (seqp (write_all w ch) (fun _ => ret (mkOF m true)) s1).
      - transitivity (seqp (_ <~ (if (match file w s with Some _ => true | None => false end) then ret tt else emit (mkOF m true) write_header) ;;; dump_all (mkOF m true) rs) (fun _ => ret (mkOF m true)) s1).
        + rewrite seqp_assoc. apply seqp_ext. intros x s'. rewrite seqp_ret. reflexivity.
        + unfold seqp at 1. rewrite Hch. reflexivity.
      - rewrite (seqp_ok _ _ _ _ _ _ E). cbn [ret fst snd]. f_equal. f_equal. unfold appended. unfold s1, appended. rewrite set_set. f_equal. f_equal.
        unfold contents at 1. rewrite set_get, Ech, app_nil_r. reflexivity. }
    rewrite Ep. reflexivity.
  - constructor; [left; reflexivity|]. constructor; [right; exists 0%nat; reflexivity|]. apply Forall_app. split; [|constructor].
    eapply Forall_impl; [|exact Htr]. intros s' (k & ->). right. exists k. rewrite Ech. unfold s1, appended. rewrite set_set. f_equal. f_equal.
    unfold contents at 1. rewrite set_get, app_nil_r. reflexivity.
Qed.

Lemma session_split m rs s : session m rs s =
  seqp (datafile m) (fun _ => f <~ (f <~ (existed <~ file_exists (actual m) ;;; _ <~ open_append (actual m) ;;;
               _ <~ (if existed : bool then ret tt else emit (mkOF m true) write_header) ;;; ret (mkOF m true)) ;;;
             _ <~ dump_all f rs ;;; ret f) ;;; _ <~ close_out f ;;; ret tt) s.
Proof.
  unfold session, open_out. rewrite seqp_assoc. apply seqp_ext. intros _ s'. rewrite (seqp_assoc _ (fun f => _ <~ dump_all f rs;;; ret f)). apply seqp_ext. intros f s''.
  rewrite seqp_assoc. apply seqp_ext. intros _ s3. rewrite seqp_ret. reflexivity.
Qed.

Definition header := concat write_header.

Lemma session_shared rs s : exists tr, session Shared rs s =
  (Ok tt, mkFS (Some ((match main s with Some c => c | None => header end) ++ records rs)) (tmp s), tr).
Proof.
  rewrite session_split. cbn [datafile]. rewrite seqp_ret. destruct (open_dump Shared rs s) as (tr & E & _). rewrite (seqp_ok _ _ _ _ _ _ E).
  eexists. cbn [close_out oopen omode datafile_close]. f_equal. f_equal. unfold appended. cbn [actual set_file file contents fst snd seqp ret].
  unfold contents. cbn [file]. destruct (main s); cbn; f_equal; f_equal; reflexivity.
Qed.
Lemma session_overwrite rs s : exists tr, session Overwrite rs s = (Ok tt, mkFS (Some (header ++ records rs)) (tmp s), tr).
Proof.
  rewrite session_split.
  assert (Ed : exists tr0, datafile Overwrite s = (Ok tt, mkFS None (tmp s), tr0)).
  { unfold datafile, file_exists, delete_file, seqp, ret. cbn [file]. destruct s as [[c|] t]; cbn; eexists; reflexivity. }
  destruct Ed as (tr0 & Ed). rewrite (seqp_ok _ _ _ _ _ _ Ed).
  destruct (open_dump Overwrite rs (mkFS None (tmp s))) as (tr & E & _). rewrite (seqp_ok _ _ _ _ _ _ E). eexists. reflexivity.
Qed.

Lemma sessions_shared l s : exists tr, sessions Shared l s =
  (Ok tt, mkFS (match l with [] => main s | _ => Some ((match main s with Some c => c | None => header end) ++ records (concat l)) end) (tmp s), tr).
Proof.
  revert s. induction l as [|rs l IH]; intros s; cbn [sessions].
  - exists []. destruct s; reflexivity.
  - destruct (session_shared rs s) as (tr & E). rewrite (seqp_ok _ _ _ _ _ _ E).
    destruct (IH (mkFS (Some ((match main s with Some c => c | None => header end) ++ records rs)) (tmp s))) as (tr' & E').
    rewrite E'. eexists. cbn [fst snd main tmp]. f_equal. f_equal. f_equal. cbn [concat].
    assert (Er : records (rs ++ concat l) = records rs ++ records (concat l)) by (unfold records; rewrite flat_map_app, concat_app; reflexivity).
    rewrite Er. destruct l; [|rewrite app_assoc; reflexivity]. change (records (concat [])) with (@nil Z). rewrite app_nil_r. reflexivity.
Qed.

(* paranoid sessions *)
Lemma session_paranoid rs s : exists tr, session Paranoid rs s = (Ok tt, mkFS (Some (header ++ records rs)) None, tr) /\
  Forall (fun s' => (main s' = main s) \/
                    (main s' = Some (header ++ records rs) /\ tmp s' = None) \/
                    (main s' = None /\ tmp s' = Some (header ++ records rs))) tr /\
  (main s <> None -> In (mkFS None (Some (header ++ records rs))) tr).
Proof.
  rewrite session_split. set (new := header ++ records rs).
  assert (Ed : datafile Paranoid s = (Ok tt, mkFS (main s) None, [mkFS (main s) None])) by reflexivity.
  rewrite (seqp_ok _ _ _ _ _ _ Ed).
  destruct (open_dump Paranoid rs (mkFS (main s) None)) as (tr & E & Htr). rewrite (seqp_ok _ _ _ _ _ _ E).
  change (appended (actual Paranoid) (mkFS (main s) None)
       (match file (actual Paranoid) (mkFS (main s) None) with Some _ => [] | None => concat write_header end ++ records rs)) with (mkFS (main s) (Some new)) in *.
  eexists. split; [|split].
  - cbn [close_out oopen omode]. destruct s as [[old|] t]; reflexivity.
  - cbn [fst snd close_out oopen omode main]. constructor; [left; reflexivity|]. apply Forall_app. split.
    + eapply Forall_impl; [|exact Htr]. intros s' [->|(k & ->)]; left; reflexivity.
    + clear E Htr Ed. clearbody new. destruct s as [[old|] t]; cbn; repeat (apply Forall_cons; [cbn; auto|]); apply Forall_nil.
  - intros Hm. destruct s as [[old|] t]; [|contradiction]. clear E Htr Ed Hm. cbn [main] in *. clearbody new.
    apply in_or_app. right. cbn. apply in_or_app. right. cbn. auto 10.
Qed.

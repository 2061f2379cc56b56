(* C84: errors while writing SDF files. *)
From Verif Require Import Base Spec S_Sdf M_Sdf L_Sdf L_Sdf2 P_Sdf M_SdfErr.
Local Open Scope Z_scope.

(* ---- lemmas ---- *)
Section Lemmas.
Context (faults : nat -> fault).
Lemma grow_contents w bs s : contents w (grow w bs s) = contents w s ++ bs.
Proof using Type. unfold grow, contents. rewrite set_get. reflexivity. Qed.
Lemma grow_grow w a b s : grow w b (grow w a s) = grow w (a ++ b) s.
Proof using Type. unfold grow. rewrite set_set, set_get, app_assoc. reflexivity. Qed.
Lemma grow_appended w bs s : grow w bs s = appended w s bs.
Proof using Type. reflexivity. Qed.

(* the stream after some calls that returned, from a good one *)
Definition written_so_far (w : which) (s : fs) (l : list chunk) (st : ostream) : Prop :=
  ofail st = false /\
  (obad st = false /\ obuffer st = [] /\ ofs st = grow w (concat l) s \/
   obad st = true /\ exists l0 c n k, l = l0 ++ [c] /\ obuffer st = skipn k c /\ ofs st = grow w (concat l0 ++ firstn n c) s).
Lemma write_seq_app w l1 l2 st : write_seq faults w (l1 ++ l2) st =
  let '(o, st) := write_seq faults w l1 st in match o with Ok _ => write_seq faults w l2 st | _ => (o, st) end.
Proof using Type.
  revert st. induction l1 as [|c l1 IH]; intros st; [reflexivity|]. cbn [app write_seq].
  destruct (write_raw faults w c st) as [[[]| | |] st']; [apply IH|reflexivity..].
Qed.
Lemma dump_seq_write w rs st : dump_seq faults w rs st = write_seq faults w (flat_map (fun r => dump (snd r) (fst r)) rs) st.
Proof using Type.
  revert st. induction rs as [|r rs IH]; intros st; [reflexivity|]. cbn [dump_seq flat_map]. rewrite write_seq_app.
  destruct (write_seq faults w (dump (snd r) (fst r)) st) as [[[]| | |] st']; [apply IH|reflexivity..].
Qed.
Lemma write_seq_ok w s l : forall l0 st st', written_so_far w s l0 st -> write_seq faults w l st = (Ok tt, st') -> written_so_far w s (l0 ++ l) st'.
Proof using Type.
  induction l as [|c l IH]; intros l0 st st' H E; cbn [write_seq] in E.
  - injection E as <-. rewrite app_nil_r. exact H.
  - destruct H as [Hf H]. unfold write_raw in E. destruct (obad st) eqn:Eb; [discriminate|]. rewrite Hf in E.
    destruct H as [(_ & Hb & Hs)|(H & _)]; [|discriminate].
    replace (l0 ++ c :: l) with ((l0 ++ [c]) ++ l) by (rewrite <- app_assoc; reflexivity).
    destruct (faults (ocalls st)) as [|n|n k]; try discriminate; (eapply IH; [|exact E]); (split; [reflexivity|]).
    + left. cbn. split; [reflexivity|]. split; [reflexivity|]. rewrite Hs, grow_grow, concat_app. cbn [concat]. rewrite app_nil_r. reflexivity.
    + right. cbn. split; [reflexivity|]. exists l0, c, n, k. split; [reflexivity|]. split; [reflexivity|]. rewrite Hs, grow_grow. reflexivity.
Qed.
Lemma write_seq_other w s l : forall st o st', (exists bs, ofs st = grow w bs s) -> write_seq faults w l st = (o, st') -> exists bs, ofs st' = grow w bs s.
Proof using Type.
  induction l as [|c l IH]; intros st o st' (bs & H) E; cbn [write_seq] in E.
  - injection E as _ <-. eauto.
  - assert (K : exists bs', ofs (snd (write_raw faults w c st)) = grow w bs' s).
    { unfold write_raw. destruct (obad st); [eauto|]. destruct (ofail st); [eauto|]. destruct (faults (ocalls st)); cbn; rewrite H, grow_grow; eauto. }
    destruct (write_raw faults w c st) as [o1 st1]. cbn in K. destruct o1 as [[]| | |]; [eapply IH; eauto|injection E as _ <-; eauto..].
Qed.
Lemma write_seq_abort w s l : forall l0 st o st', written_so_far w s l0 st -> write_seq faults w l st = (o, st') -> o <> Ok tt ->
  o = Abort /\ exists k, ofs st' = grow w (firstn k (concat (l0 ++ l))) s.
Proof using Type.
  induction l as [|c l IH]; intros l0 st o st' H E Ho; cbn [write_seq] in E; [congruence|].
  replace (l0 ++ c :: l) with ((l0 ++ [c]) ++ l) by (rewrite <- app_assoc; reflexivity).
  destruct H as [Hf H]. unfold write_raw in E. destruct (obad st) eqn:Eb.
  - injection E as <- <-. split; [reflexivity|]. destruct H as [(H & _)|(_ & l1 & c1 & n & k & -> & _ & Hs)]; [discriminate|].
    exists (length (concat l1) + Nat.min n (length c1))%nat. rewrite Hs. f_equal. rewrite !concat_app. cbn [concat]. rewrite !app_nil_r, <- !app_assoc.
    rewrite firstn_app_2. f_equal. rewrite firstn_app. replace (Nat.min n (length c1) - length c1)%nat with 0%nat by lia. rewrite firstn_O, app_nil_r.
    rewrite <- firstn_firstn, firstn_all. reflexivity.
  - rewrite Hf in E. destruct H as [(_ & Hb & Hs)|(H & _)]; [|discriminate].
    destruct (faults (ocalls st)) as [|n|n k] eqn:Ef.
    + eapply IH; [|exact E|exact Ho]. split; [reflexivity|]. left. cbn. split; [reflexivity|]. split; [reflexivity|].
      rewrite Hs, grow_grow, concat_app. cbn [concat]. rewrite app_nil_r. reflexivity.
    + injection E as <- <-. split; [reflexivity|]. cbn [ofs]. exists (length (concat l0) + Nat.min n (length c))%nat. rewrite Hs, grow_grow. f_equal.
      rewrite !concat_app. cbn [concat]. rewrite !app_nil_r, <- !app_assoc.
      rewrite firstn_app_2. f_equal. rewrite firstn_app. replace (Nat.min n (length c) - length c)%nat with 0%nat by lia. rewrite firstn_O, app_nil_r.
      rewrite <- firstn_firstn, firstn_all. reflexivity.
    + eapply IH; [|exact E|exact Ho]. split; [reflexivity|]. right. cbn. split; [reflexivity|]. exists l0, c, n, k. split; [reflexivity|]. split; [reflexivity|].
      rewrite Hs, grow_grow. reflexivity.
Qed.
(* no error in the first calls *)
Lemma write_seq_first w s l : forall l0 st, (forall k, (k < ocalls st + length l)%nat -> faults k = NoFault) ->
  ofail st = false -> obad st = false -> obuffer st = [] -> ofs st = grow w (concat l0) s ->
  write_seq faults w l st = (Ok tt, mkO (grow w (concat (l0 ++ l)) s) false false [] (ocalls st + length l)).
Proof using Type.
  induction l as [|c l IH]; intros l0 st HF H1 H2 H3 H4; cbn [write_seq].
  - rewrite app_nil_r, <- H4. cbn [length]. rewrite Nat.add_0_r. destruct st; cbn in *; subst; reflexivity.
  - replace (l0 ++ c :: l) with ((l0 ++ [c]) ++ l) by (rewrite <- app_assoc; reflexivity).
    unfold write_raw. rewrite H1, H2, HF by (cbn; lia). rewrite (IH (l0 ++ [c])); cbn; try reflexivity.
    + do 2 f_equal. lia.
    + intros k Hk. apply HF. cbn. lia.
    + rewrite H4, grow_grow, concat_app. cbn [concat]. rewrite app_nil_r. reflexivity.
Qed.
Lemma write_seq_dead w l st : ofail st = true -> obad st = false -> exists k, write_seq faults w l st = (Ok tt, mkO (ofs st) true false (obuffer st) k).
Proof using Type.
  revert st. induction l as [|c l IH]; intros st H1 H2; cbn [write_seq].
  - exists (ocalls st). destruct st; cbn in *; subst; reflexivity.
  - unfold write_raw. rewrite H1, H2. destruct (IH (mkO (ofs st) true false (obuffer st) (S (ocalls st)))) as (k & E); [reflexivity..|]. exists k. exact E.
Qed.
Lemma write_seq_good w l st : (forall k, faults k = NoFault) -> ofail st = false -> obad st = false -> obuffer st = [] ->
  exists st', write_seq faults w l st = (Ok tt, st') /\ ofail st' = false /\ obuffer st' = [] /\ (l <> [] \/ file w (ofs st) <> None -> ofs st' = grow w (concat l) (ofs st)).
Proof using Type.
  intros HF. revert st. induction l as [|c l IH]; intros st H1 H2 H3; cbn [write_seq].
  - exists st. split; [reflexivity|]. split; [auto|]. split; [auto|]. intros [[]|H]; [reflexivity|]. unfold grow. cbn. rewrite app_nil_r.
    destruct (file w (ofs st)) as [c|] eqn:E; [|contradiction]. destruct w, (ofs st); cbn in *; subst; reflexivity.
  - unfold write_raw. rewrite H1, H2, HF. destruct (IH (mkO (grow w c (ofs st)) false false [] (S (ocalls st)))) as (st' & E & K1 & K2 & K3); [reflexivity..|].
    exists st'. split; [exact E|]. split; [auto|]. split; [auto|]. intros _. rewrite K3; cbn [ofs]; [apply grow_grow|]. right. unfold grow. rewrite set_get. discriminate.
Qed.
End Lemmas.

(* all the chunks of a session *)
Definition chunks_of (existed : bool) (rs : list (list Z * value)) : list chunk :=
  (if existed then [] else write_header) ++ flat_map (fun r => dump (snd r) (fst r)) rs.
Lemma session_err_split can_open faults at_close m rs s : session_err can_open faults at_close m rs s =
  let w := actual m in
  let '(o, s, _) := datafile m s in
  match o with
  | Ok _ =>
    let st := if can_open then mkO (grow w [] s) false false [] 0 else mkO s true false [] 0 in
    let '(o, st) := write_seq faults w (chunks_of (match file w s with Some _ => true | None => false end) rs) st in
    match o with
    | Ok _ =>
        let s := if ofail st then ofs st else grow w (firstn at_close (obuffer st)) (ofs st) in
        let '(o, s, _) := datafile_close m s in (o, s)
    | _ => (o, ofs st)
    end
  | _ => (o, s)
  end.
Proof.
  unfold session_err, chunks_of. destruct (datafile m s) as [[[[]| | |] s1] tr]; try reflexivity. cbv zeta. rewrite write_seq_app.
  destruct (file (actual m) s1); [cbn [write_seq]; rewrite dump_seq_write; reflexivity|].
  destruct (write_seq faults (actual m) write_header _) as [[[]| | |] st]; try reflexivity. rewrite dump_seq_write. reflexivity.
Qed.

(* ---- specification ---- *)
(* the bytes of the elements of a tensor, and of what is written last of a value:
   the elements of its last tensor, or its number of tensors *)
Definition elements_bytes {E} (word : nat) (t : stored E) : nat := (word * length (selts t))%nat.
Definition last_bytes (v : value) : nat :=
  match v with
  | VInt _ | VSize _ | VDouble _ => 8
  | VComplex _ _ => 16
  | VR t => elements_bytes 8 t
  | VC t => elements_bytes 16 t
  | VRs l => match rev l with [] => 8 | t :: _ => elements_bytes 8 t end
  | VCs l => match rev l with [] => 8 | t :: _ => elements_bytes 16 t end
  end%nat.
(* of a session: of the last value, or of the header *)
Definition tail_bytes (rs : list (list Z * value)) : nat := match rev rs with [] => 64 | r :: _ => last_bytes (snd r) end%nat.

(* ---- more lemmas ---- *)
Definition last_chunk (l : list chunk) : nat := match rev l with [] => 0%nat | c :: _ => length c end.
Lemma last_chunk_app a b : b <> [] -> last_chunk (a ++ b) = last_chunk b.
Proof. unfold last_chunk. rewrite rev_app_distr. destruct (rev b) eqn:E; [|reflexivity]. intros H. apply (f_equal (@rev _)) in E. rewrite rev_involutive in E. contradiction. Qed.
Lemma last_chunk_snoc a c : last_chunk (a ++ [c]) = length c.
Proof. rewrite last_chunk_app by discriminate. reflexivity. Qed.
Lemma complex_words_length l : length (complex_words l) = (2 * length l)%nat.
Proof. unfold complex_words. induction l as [|w l IH]; [reflexivity|]. cbn [flat_map length app]. rewrite IH. lia. Qed.
Lemma last_dump_R t name : last_chunk (dump_R t name) = elements_bytes 8 t /\ dump_R t name <> [].
Proof. split; [|discriminate]. unfold dump_R, dump_vector. rewrite !last_chunk_app by discriminate. unfold last_chunk. cbn [rev app]. apply write_words_length. Qed.
Lemma last_dump_C t name : last_chunk (dump_C t name) = elements_bytes 16 t /\ dump_C t name <> [].
Proof.
  split; [|discriminate]. unfold dump_C, dump_vector. rewrite !last_chunk_app by discriminate. unfold last_chunk. cbn [rev app].
  rewrite write_words_length, complex_words_length. unfold elements_bytes. lia.
Qed.
Lemma last_flat {T} (f : T -> list chunk) l t l' : rev l = t :: l' -> f t <> [] -> last_chunk (flat_map f l) = last_chunk (f t) /\ flat_map f l <> [].
Proof.
  intros E H. apply (f_equal (@rev _)) in E. rewrite rev_involutive in E. cbn in E. subst l. rewrite flat_map_app. cbn [flat_map]. rewrite app_nil_r, last_chunk_app by auto.
  split; [reflexivity|]. intros K. apply app_eq_nil in K. tauto.
Qed.
Lemma last_dump v name : last_chunk (dump v name) = last_bytes v /\ dump v name <> [].
Proof.
  destruct v; cbn [dump last_bytes]; try apply last_dump_R; try apply last_dump_C; (split; [|discriminate]);
    (rewrite (last_chunk_app (write_tag _ _)) by discriminate); destruct (rev l) as [|t l'] eqn:E;
    try (apply (f_equal (@rev _)) in E; rewrite rev_involutive in E; subst l; reflexivity).
  - destruct (last_flat (fun t => dump_R t []) l t l' E) as [K1 K2]; [apply last_dump_R|]. rewrite last_chunk_app by exact K2. rewrite K1. apply last_dump_R.
  - destruct (last_flat (fun t => dump_C t []) l t l' E) as [K1 K2]; [apply last_dump_C|]. rewrite last_chunk_app by exact K2. rewrite K1. apply last_dump_C.
Qed.
Lemma last_of existed rs : (last_chunk (chunks_of existed rs) <= tail_bytes rs)%nat.
Proof.
  unfold chunks_of, tail_bytes. destruct (rev rs) as [|r rs'] eqn:E.
  - apply (f_equal (@rev _)) in E. rewrite rev_involutive in E. subst rs. destruct existed; vm_compute; lia.
  - destruct (last_flat (fun r => dump (snd r) (fst r)) rs r rs' E) as [K1 K2]; [apply last_dump|]. rewrite last_chunk_app by exact K2. rewrite K1.
    rewrite (proj1 (last_dump (snd r) (fst r))). lia.
Qed.

(* the files after the constructor of DataFile, and after close() when the
   stream has put bs at the end of the file it writes *)
Definition opened (m : mode) (s : fs) : fs :=
  match m with Shared => s | Overwrite => mkFS None (tmp s) | Paranoid => mkFS (main s) None end.
Lemma datafile_opened m s : exists tr, datafile m s = (Ok tt, opened m s, tr).
Proof. destruct m, s as [[c|] [t|]]; cbn; eexists; reflexivity. Qed.
Definition before (m : mode) (s : fs) : list Z := match m, main s with Shared, Some c => c | _, _ => [] end.
Lemma closed m s bs : exists tr s', datafile_close m (grow (actual m) bs (opened m s)) = (Ok tt, s', tr) /\
  main s' = Some (before m s ++ bs) /\ (m = Paranoid -> tmp s' = None) /\ (m <> Paranoid -> tmp s' = tmp s).
Proof. destruct m, s as [[c|] [t|]]; cbn; do 2 eexists; (split; [reflexivity|]); (split; [reflexivity|]); split; intros; cbn; congruence. Qed.
Definition there (m : mode) (s : fs) : bool := match file (actual m) (opened m s) with Some _ => true | None => false end.
Lemma session_good m rs s : exists tr s', session m rs s = (Ok tt, s', tr) /\ main s' = Some (before m s ++ concat (chunks_of (there m s) rs)) /\
  (m = Paranoid -> tmp s' = None) /\ (m <> Paranoid -> tmp s' = tmp s).
Proof.
  unfold chunks_of, there, before. rewrite concat_app. fold (records rs). destruct m; cbn [actual opened file main tmp].
  - destruct (session_shared rs s) as (tr & E). exists tr. eexists. split; [exact E|]. cbn. destruct (main s); (split; [reflexivity|]); split; intros; congruence.
  - destruct (session_overwrite rs s) as (tr & E). exists tr. eexists. split; [exact E|]. cbn. (split; [reflexivity|]); split; intros; congruence.
  - destruct (session_paranoid rs s) as (tr & E & _). exists tr. eexists. split; [exact E|]. cbn. (split; [reflexivity|]); split; intros; congruence.
Qed.
Lemma there_grow m s bs : grow (actual m) bs (grow (actual m) [] (opened m s)) = grow (actual m) bs (opened m s).
Proof. apply grow_grow. Qed.

(* ---- theorems ---- *)

(* C84 When the file can be opened and no write fails, this is the session of
   M_Sdf, about which C38-C44 speak. *)
Theorem C84_no_faults faults at_close m rs s : (forall k, faults k = NoFault) ->
  session_err true faults at_close m rs s = fst (session m rs s).
Proof.
  intros HF. rewrite session_err_split. cbv zeta. destruct (datafile_opened m s) as (tr & ->). fold (there m s).
  destruct (write_seq_good faults (actual m) (chunks_of (there m s) rs) (mkO (grow (actual m) [] (opened m s)) false false [] 0)) as (st' & E & K1 & K2 & K3);
    [auto..|]. rewrite E, K1, K2, firstn_nil, K3 by (right; cbn; unfold grow; rewrite set_get; discriminate). cbn [ofs]. rewrite !grow_grow, app_nil_r, app_nil_l.
  destruct (closed m s (concat (chunks_of (there m s) rs))) as (tr1 & s1 & -> & M1 & P1 & T1).
  destruct (session_good m rs s) as (tr2 & s2 & -> & M2 & P2 & T2). cbn. f_equal. destruct s1 as [a1 b1], s2 as [a2 b2]. cbn in *. rewrite M1, M2. f_equal.
  destruct m; [rewrite T1, T2 by discriminate|rewrite T1, T2 by discriminate|rewrite P1, P2 by reflexivity]; reflexivity.
Qed.

(* C84 When the file can be opened and the program is not ended by an exception,
   everything is in the file, except perhaps for the last bytes of the last value:
   of the elements of the last tensor, at most.  What is found in their place is
   the beginning of them, unless the system writes in the end what it first could
   not. *)
Theorem C84_reported_partial faults at_close m rs s s' good tr : session m rs s = (Ok tt, good, tr) ->
  session_err true faults at_close m rs s = (Ok tt, s') ->
  exists c1 lost extra, main good = Some (c1 ++ lost) /\ main s' = Some (c1 ++ extra) /\
    (length lost <= tail_bytes rs)%nat /\ (length extra <= 2 * length lost)%nat /\
    (at_close = 0%nat -> exists n, extra = firstn n lost).
Proof.
  intros E0 E. destruct (session_good m rs s) as (tr2 & s2 & E2 & M2 & _). rewrite E0 in E2. injection E2 as E2 _. subst s2. clear E0.
  rewrite session_err_split in E. cbv zeta in E. destruct (datafile_opened m s) as (tr1 & E1). rewrite E1 in E. fold (there m s) in E.
  set (l := chunks_of (there m s) rs) in *.
  destruct (write_seq faults (actual m) l _) as [[[]| | |] st] eqn:Ew; try discriminate.
  apply (write_seq_ok faults (actual m) (opened m s) l []) in Ew.
  2:{ split; [reflexivity|]. left. split; [reflexivity|]. split; reflexivity. }
  cbn [app] in Ew. destruct Ew as [Hf H]. rewrite Hf in E. rewrite M2.
  destruct H as [(_ & Hb & Hs)|(_ & l0 & c & n & k & Hl & Hb & Hs)]; rewrite Hb, Hs, grow_grow in E.
  - rewrite firstn_nil, app_nil_r in E. destruct (closed m s (concat l)) as (tr3 & s3 & E3 & M3 & _). rewrite E3 in E. injection E as <-.
    exists (before m s ++ concat l), [], []. rewrite !app_nil_r. split; [reflexivity|]. split; [exact M3|]. cbn. split; [lia|]. split; [lia|]. intros _. exists 0%nat. reflexivity.
  - rewrite <- app_assoc in E. destruct (closed m s (concat l0 ++ firstn n c ++ firstn at_close (skipn k c))) as (tr3 & s3 & E3 & M3 & _). rewrite E3 in E. injection E as <-.
    exists (before m s ++ concat l0), c, (firstn n c ++ firstn at_close (skipn k c)). rewrite M3, Hl, concat_app. cbn [concat]. rewrite app_nil_r, <- !app_assoc.
    split; [reflexivity|]. split; [reflexivity|]. split; [|split].
    + pose proof (last_of (there m s) rs) as K. fold l in K. rewrite Hl, last_chunk_snoc in K. exact K.
    + rewrite app_length, !firstn_length, skipn_length. lia.
    + intros ->. exists n. rewrite firstn_O, app_nil_r. reflexivity.
Qed.

(* C84 Otherwise it ends by an exception, and then the file has the beginning of
   what it was to have.  In paranoid mode the previous file is as it was. *)
Theorem C84_aborted faults at_close m rs s o s' good tr : session m rs s = (Ok tt, good, tr) ->
  session_err true faults at_close m rs s = (o, s') -> o <> Ok tt ->
  o = Abort /\
  (m = Paranoid -> main s' = main s /\ exists c n, main good = Some c /\ tmp s' = Some (firstn n c)) /\
  (m <> Paranoid -> tmp s' = tmp s /\ exists c n, main good = Some c /\ main s' = Some (firstn n c) /\
    (m = Shared -> forall old, main s = Some old -> (length old <= n)%nat)).
Proof.
  intros E0 E Ho. destruct (session_good m rs s) as (tr2 & s2 & E2 & M2 & _). rewrite E0 in E2. injection E2 as E2 _. subst s2. clear E0.
  rewrite session_err_split in E. cbv zeta in E. destruct (datafile_opened m s) as (tr1 & E1). rewrite E1 in E. fold (there m s) in E.
  set (l := chunks_of (there m s) rs) in *.
  destruct (write_seq faults (actual m) l _) as [o1 st] eqn:Ew.
  assert (W0 : written_so_far (actual m) (opened m s) [] (mkO (grow (actual m) [] (opened m s)) false false [] 0)).
  { split; [reflexivity|]. left. split; [reflexivity|]. split; reflexivity. }
  destruct o1 as [[]| | |].
  { exfalso. apply (write_seq_ok faults (actual m) (opened m s) l []) in Ew; [|exact W0].
    destruct Ew as [Hf H]. rewrite Hf in E. assert (K : exists bs, grow (actual m) (firstn at_close (obuffer st)) (ofs st) = grow (actual m) bs (opened m s)).
    { destruct H as [(_ & _ & ->)|(_ & l0 & c & n & k & _ & _ & ->)]; rewrite grow_grow; eauto. }
    destruct K as (bs & K). rewrite K in E. destruct (closed m s bs) as (tr3 & s3 & E3 & _). rewrite E3 in E. injection E as <- <-. apply Ho. reflexivity. }
  all: pose proof (write_seq_abort faults (actual m) (opened m s) l [] _ _ _ W0 Ew ltac:(discriminate)) as (A & k & Hs); try discriminate.
  injection E as <- <-. split; [reflexivity|]. cbn [app] in Hs. rewrite M2, Hs. split.
  - intros ->. cbn. split; [reflexivity|]. exists (concat l), k. split; reflexivity.
  - intros Hm. destruct m; [| |contradiction].
    + cbn. split; [reflexivity|]. exists (before Shared s ++ concat l), (length (before Shared s) + k)%nat. split; [reflexivity|].
      rewrite firstn_app_2. unfold before. destruct (main s) as [old|]; (split; [reflexivity|]); intros _ old' H; [injection H as <-; lia|discriminate].
    + cbn. split; [reflexivity|]. exists (concat l), k. split; [reflexivity|]. split; [reflexivity|]. discriminate.
Qed.

(* C84 An error in the last write of a session is not reported: for all records
   but those that end in an empty tensor, and in every mode, the session returns
   although the file lacks its last bytes.  In paranoid mode too the previous
   file is replaced. *)
Theorem C84_full_disk_refuted m rs s good tr : (rs <> [] \/ m <> Shared \/ main s = None) ->
  session m rs s = (Ok tt, good, tr) -> exists faults s' c lost,
  session_err true faults 0 m rs s = (Ok tt, s') /\ main good = Some (c ++ lost) /\ main s' = Some c /\ length lost = tail_bytes rs.
Proof.
  intros Hr E0. destruct (session_good m rs s) as (tr2 & s2 & E2 & M2 & _). rewrite E0 in E2. injection E2 as E2 _. subst s2. clear E0.
  set (l := chunks_of (there m s) rs) in *.
  assert (L : exists l0 c, l = l0 ++ [c] /\ length c = tail_bytes rs).
  { assert (K : last_chunk l = tail_bytes rs /\ l <> []).
    { unfold l, chunks_of, tail_bytes. destruct (rev rs) as [|r rs'] eqn:E.
      - apply (f_equal (@rev _)) in E. rewrite rev_involutive in E. subst rs. replace (there m s) with false; [split; [vm_compute; reflexivity|discriminate]|].
        unfold there. destruct m, s as [[c|] [t|]]; cbn; try reflexivity; destruct Hr as [[]|[H|H]]; cbn in *; congruence.
      - destruct (last_flat (fun r => dump (snd r) (fst r)) rs r rs' E) as [K1 K2]; [apply last_dump|]. rewrite last_chunk_app by exact K2. rewrite K1.
        split; [apply last_dump|]. intros H. apply app_eq_nil in H. tauto. }
    destruct K as [K1 K2]. destruct (exists_last K2) as (l0 & c & ->). exists l0, c. split; [reflexivity|]. rewrite <- K1. symmetry. apply last_chunk_snoc. }
  destruct L as (l0 & c & Hl & Hc).
  set (faults := fun k => if (k =? length l0)%nat then AtFlush 0 0 else NoFault).
  exists faults. rewrite session_err_split. cbv zeta. destruct (datafile_opened m s) as (tr1 & ->). fold (there m s). fold l.
  rewrite Hl, write_seq_app.
  rewrite (write_seq_first faults (actual m) (opened m s) l0 []); cbn [ofail obad obuffer ofs ocalls concat]; try reflexivity.
  2:{ intros k Hk. unfold faults. destruct (Nat.eqb_spec k (length l0)); [lia|reflexivity]. }
  cbn [app write_seq write_raw obad ofail ocalls]. unfold write_raw. cbn [obad ofail ocalls Nat.add]. unfold faults at 1. rewrite Nat.eqb_refl. cbn [ofail ofs obuffer firstn].
  rewrite !grow_grow, !app_nil_r. destruct (closed m s (concat l0)) as (tr3 & s3 & -> & M3 & _).
  exists s3, (before m s ++ concat l0), c. split; [reflexivity|]. split; [|split; [exact M3|exact Hc]].
  rewrite M2, Hl, concat_app. cbn [concat]. rewrite app_nil_r, app_assoc. reflexivity.
Qed.

(* C84 A file that cannot be opened is not reported at all: whatever is dumped,
   the session returns; the previous file is as it was, or deleted. *)
Theorem C84_unwritable_refuted faults at_close m rs s : exists s',
  session_err false faults at_close m rs s = (Ok tt, s') /\ main s' = match m with Overwrite => None | _ => main s end.
Proof.
  rewrite session_err_split. cbv zeta. destruct (datafile_opened m s) as (tr & ->).
  destruct (write_seq_dead faults (actual m) (chunks_of (there m s) rs) (mkO (opened m s) true false [] 0)) as (k & E); [reflexivity..|].
  unfold there in E. rewrite E. cbn [ofail ofs]. destruct m, s as [[c|] [t|]]; cbn; eexists; split; reflexivity.
Qed.

(* A paranoid session over a good file: the disk fills while the elements of the
   last tensor are written, the session returns, and what load() finds in the
   file that has taken the place of the old one are values nobody wrote. *)
Example C84_nonvacuous :
  let rs := [([97], VInt 1); ([98], VR (mkST [2] [3; 4]))] in
  let old := mkFS (Some [1; 2; 3]) None in
  let faults at_call f k := if (k =? at_call)%nat then f else NoFault in
  tail_bytes rs = 16%nat /\
  (exists c, session_err true (faults 12%nat (AtFlush 5 0)) 0 Paranoid rs old = (Ok tt, mkFS (Some c) None) /\ length c = 269%nat /\
     let junk : nat -> nat -> Z := fun _ _ => 7 in
     match open_in junk Shared (mkFS (Some c) None) with
     | (Ok st, _, _) => match load_all junk [(KInt, [97]); (KR, [98])] st with Ok (vs, _) => vs = [VInt 1; VR (mkST [2] [3 + 7 * 2 ^ 40 + 7 * 2 ^ 48 + 7 * 2 ^ 56; 506381209866536711])] | _ => False end
     | _ => False
     end) /\
  (exists t, session_err true (faults 11%nat (AtFlush 5 0)) 0 Paranoid rs old = (Abort, mkFS (Some [1; 2; 3]) (Some t)) /\ length t = 261%nat) /\
  (exists t, session_err true (faults 12%nat (AtWrite 5)) 0 Paranoid rs old = (Abort, mkFS (Some [1; 2; 3]) (Some t)) /\ length t = 269%nat).
Proof.
  cbv zeta. split; [reflexivity|]. split; [|split; (eexists; split; [vm_compute; reflexivity|reflexivity])].
  eexists. split; [vm_compute; reflexivity|]. split; [reflexivity|]. vm_compute. reflexivity.
Qed.
Print Assumptions C84_no_faults.
Print Assumptions C84_reported_partial.
Print Assumptions C84_aborted.
Print Assumptions C84_full_disk_refuted.
Print Assumptions C84_unwritable_refuted.

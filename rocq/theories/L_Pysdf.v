(* Lemmas for P_Pysdf. *)
From Verif Require Import Base Spec S_Sdf S_Pysdf M_Sdf L_Sdf L_Sdf2 M_Pysdf.
From Coq Require Import Permutation.
Local Open Scope Z_scope.

Section Reader.
Context (maxdims : nat) (decode : list Z -> option (list Z)) (junk : nat -> nat -> Z).
Notation P b a := (mkP b 8 false a).

Lemma elements_words n bs : elements false 8 n bs = words n bs.
Proof using Type. clear. revert bs. induction n as [|n IH]; intros bs; [reflexivity|]. cbn [elements words]. rewrite IH. reflexivity. Qed.
Lemma signed_to w : signed 8 w = to_signed w.
Proof using Type. reflexivity. Qed.

Lemma readinto_ok k n a b c : length a = (k * n)%nat -> Z.of_nat n * Z.of_nat k < 2 ^ 63 ->
  py_readinto junk k (Z.of_nat n) (P (a ++ b) c) = Ok (a, P b (S c)).
Proof using Type.
  clear. intros Ha Hn. unfold py_readinto. replace ((Z.of_nat n <? 0) || (2 ^ 63 <=? Z.of_nat n * Z.of_nat k)) with false by lia.
  cbn [prest longs interpret arrays]. rewrite Nat2Z.id. rewrite <- Ha. rewrite firstn_app, skipn_app, Nat.sub_diag, firstn_all, skipn_all, firstn_O, app_nil_r.
  rewrite skipn_all2 by (rewrite length_alloc; lia). rewrite app_nil_r. reflexivity.
Qed.
Lemma read_longs_ok ws b c : Forall is_word ws -> Z.of_nat (length ws) < 2 ^ 59 ->
  read_longs false junk (Z.of_nat (length ws)) (P (write_words ws ++ b) c) = Ok (map to_signed ws, P b (S c)).
Proof using Type.
  clear. intros H Hl. unfold read_longs. cbn [longs]. rewrite readinto_ok by (try apply write_words_length; lia). cbn [bind interpret longs].
  rewrite elements_words, Nat2Z.id, words_write by auto. reflexivity.
Qed.
Lemma read_long_ok w b c : is_word w -> read_long false junk (P (write_words [w] ++ b) c) = Ok (to_signed w, P b (S c)).
Proof using Type. clear. intros H. unfold read_long. rewrite (read_longs_ok [w]) by (cbn; auto; lia). reflexivity. Qed.
Lemma read_doubles_ok ws b c : Forall is_word ws -> Z.of_nat (length ws) < 2 ^ 59 ->
  read_doubles false junk (Z.of_nat (length ws)) (P (write_words ws ++ b) c) = Ok (ws, P b (S c)).
Proof using Type.
  clear. intros H Hl. unfold read_doubles. rewrite readinto_ok by (try apply write_words_length; lia). cbn [bind interpret].
  rewrite elements_words, Nat2Z.id, words_write by auto. reflexivity.
Qed.
Lemma read_complex_ok cs b c : Forall is_cword cs -> Z.of_nat (length cs) < 2 ^ 59 ->
  read_complex false junk (Z.of_nat (length cs)) (P (write_words (complex_words cs) ++ b) c) = Ok (cs, P b (S c)).
Proof using Type.
  clear. intros H Hl. unfold read_complex. rewrite readinto_ok by (try (rewrite write_words_length, complex_words_length); lia). cbn [bind interpret].
  rewrite elements_words, Nat2Z.id. rewrite <- complex_words_length, words_write by (apply complex_words_ok; auto). rewrite pairs_complex. reflexivity.
Qed.
Lemma small_signed n : Z.of_nat n < 2 ^ 59 -> to_signed (Z.of_nat n) = Z.of_nat n.
Proof using Type. clear. intros H. unfold to_signed. replace (Z.of_nat n <? 2 ^ 63) with true by lia. reflexivity. Qed.

(* the shapes numpy takes *)
Lemma np_ok {E} (Pe : E -> Prop) (t : stored E) : ok_tensor Pe t -> py_shape maxdims t -> np_ndarray maxdims (sdims t) (selts t) = Ok (array_of t).
Proof using Type.
  clear. intros (H1 & H2 & H3 & H4 & H5) [[L1 L2] Hd]. unfold np_ndarray. replace (maxdims <? length (sdims t))%nat with false by lia.
  assert (E0 : existsb (fun d => d <? 0) (sdims t) = false).
  { clear - Hd. induction Hd as [|d l H Hd IH]; [reflexivity|]. cbn. rewrite IH. replace (d <? 0) with false by lia. reflexivity. }
  rewrite E0. unfold size_of in H3. rewrite E0 in H3. destruct (sdims t) as [|d l] eqn:Ed; [cbn in L1; lia|]. rewrite <- H3, Z.ltb_irrefl, Nat2Z.id, firstn_all.
  unfold array_of. rewrite Ed. reflexivity.
Qed.
Lemma load_tensor_R t b c : ok_tensor is_word t -> py_shape maxdims t -> exists c',
  load_tensor false maxdims junk false (P (concat (dump_vector (length (sdims t)) (map to_word (sdims t)) ++ dump_vector (length (selts t)) (selts t)) ++ b) c)
  = Ok (PyReal (array_of t), P b c').
Proof using Type.
  clear decode. intros H S. assert (N := np_ok _ t H S). destruct H as (H1 & H2 & H3 & H4 & H5). eexists. unfold load_tensor, dump_vector. cbn [concat app]. rewrite app_nil_r, <- !app_assoc.
  rewrite read_long_ok by (apply small_word; auto). cbn [bind]. rewrite small_signed by auto.
  rewrite <- (map_length to_word (sdims t)) at 1. rewrite read_longs_ok; [|apply Forall_map, Forall_forall; intros; apply to_word_word|rewrite map_length; auto]. cbn [bind].
  rewrite read_long_ok by (apply small_word; auto). cbn [bind]. rewrite small_signed by auto.
  rewrite read_doubles_ok by auto. cbn [bind]. rewrite map_map.
  replace (map (fun x => to_signed (to_word x)) (sdims t)) with (sdims t).
  2:{ clear - H1. induction H1 as [|x l Hx H1 IH]; [reflexivity|]. cbn. rewrite signed_word, <- IH by auto. reflexivity. }
  rewrite N. reflexivity.
Qed.
Lemma load_tensor_C t b c : ok_tensor is_cword t -> py_shape maxdims t -> exists c',
  load_tensor false maxdims junk true (P (concat (dump_vector (length (sdims t)) (map to_word (sdims t)) ++ dump_vector (length (selts t)) (complex_words (selts t))) ++ b) c)
  = Ok (PyComplex (array_of t), P b c').
Proof using Type.
  clear decode. intros H S. assert (N := np_ok _ t H S). destruct H as (H1 & H2 & H3 & H4 & H5). eexists. unfold load_tensor, dump_vector. cbn [concat app]. rewrite app_nil_r, <- !app_assoc.
  rewrite read_long_ok by (apply small_word; auto). cbn [bind]. rewrite small_signed by auto.
  rewrite <- (map_length to_word (sdims t)) at 1. rewrite read_longs_ok; [|apply Forall_map, Forall_forall; intros; apply to_word_word|rewrite map_length; auto]. cbn [bind].
  rewrite read_long_ok by (apply small_word; auto). cbn [bind]. rewrite small_signed by auto.
  rewrite read_complex_ok by auto. cbn [bind]. rewrite map_map.
  replace (map (fun x => to_signed (to_word x)) (sdims t)) with (sdims t).
  2:{ clear - H1. induction H1 as [|x l Hx H1 IH]; [reflexivity|]. cbn. rewrite signed_word, <- IH by auto. reflexivity. }
  rewrite N. reflexivity.
Qed.

(* tags *)
Definition name_block (name : list Z) : list Z := name ++ repeat 0 (64 - length name).
Lemma wvn_block name : ok_name name -> concat (write_variable_name name) = name_block name.
Proof using Type. clear. intros H. rewrite wvn. cbn [concat]. rewrite app_nil_r, kept_ok by auto. reflexivity. Qed.
Lemma block_length name : ok_name name -> length (name_block name) = 64%nat.
Proof using Type. clear. intros [H _]. unfold name_block. rewrite app_length, repeat_length. lia. Qed.
Lemma block_cstr name : ok_name name -> cstr (name_block name) = name.
Proof using Type.
  clear. intros [H1 H2]. unfold name_block. destruct (64 - length name)%nat as [|n] eqn:E; [lia|]. apply cstr_pad.
  eapply Forall_impl; [|exact H2]. cbn. tauto.
Qed.
Lemma py_read_ok a b k i c : length a = 64%nat -> py_read 64 (mkP (a ++ b) k i c) = (a, mkP b k i c).
Proof using Type.
  clear. intros H. unfold py_read. cbn [prest longs interpret arrays]. rewrite <- H. rewrite firstn_app, skipn_app, Nat.sub_diag, firstn_all, skipn_all, firstn_O, app_nil_r. reflexivity.
Qed.
Lemma not_header name : ok_name name -> firstn 3 name <> [115; 100; 102] -> is_header (name_block name) = Ok false.
Proof using Type.
  clear. intros [H1 H2] H3. unfold is_header, char, name_block. destruct name as [|c0 [|c1 [|c2 name]]].
  - reflexivity.
  - cbn. destruct (c0 =? 115); reflexivity.
  - cbn. destruct (c0 =? 115); [|reflexivity]. cbn. destruct (c1 =? 100); reflexivity.
  - cbn [app nth_error bind]. destruct (Z.eqb_spec c0 115); [|reflexivity]. cbn [negb bind]. destruct (Z.eqb_spec c1 100); [|reflexivity]. cbn [negb bind].
    destruct (Z.eqb_spec c2 102); [|reflexivity]. subst. cbn in H3. contradiction.
Qed.
Lemma load_tag_ok name type b c : ok_name name -> firstn 3 name <> [115; 100; 102] -> decode name = Some name -> 0 <= type < 4 ->
  load_tag false decode junk (P (concat (write_tag name type) ++ b) c) = Ok (name, type, P b (S c)).
Proof using Type.
  intros H1 H2 H3 Ht. unfold load_tag, write_tag. rewrite concat_app, wvn_block, <- app_assoc by auto. rewrite py_read_ok by (apply block_length; auto).
  rewrite block_length by auto. cbn [Nat.eqb]. rewrite not_header by auto. cbn [bind]. rewrite block_cstr, H3 by auto. cbn [concat]. rewrite app_nil_r.
  rewrite read_long_ok by apply to_word_word. rewrite signed_word by (unfold is_long; lia). reflexivity.
Qed.
(* the first tag comes after the header *)
Lemma load_tag_first name type b k i c : ok_name name -> decode name = Some name -> 0 <= type < 4 ->
  load_tag false decode junk (mkP (header ++ concat (write_tag name type) ++ b) k i c) = Ok (name, type, P b (S c)).
Proof using Type.
  intros H1 H3 Ht. unfold load_tag, write_tag. rewrite py_read_ok by reflexivity.
  change (length header =? 0)%nat with false. cbv iota. change (is_header header) with (@Ok bool true). cbn [bind].
  change (char header 4) with (@Ok Z 56). change (char header 5) with (@Ok Z 49). cbn [bind prest arrays].
  change (56 =? 52) with false. change (56 =? 56) with true. change (49 =? 49) with true. cbv iota. cbn [bind negb xorb].
  rewrite concat_app, wvn_block, <- app_assoc by auto. rewrite py_read_ok by (apply block_length; auto). cbn [bind].
  rewrite block_cstr, H3 by auto. cbn [concat]. rewrite app_nil_r.
  rewrite read_long_ok by apply to_word_word. rewrite signed_word by (unfold is_long; lia). reflexivity.
Qed.

(* what follows the tag *)
Definition body (v : value) : list Z := skipn 72 (concat (dump v [])).
Lemma dump_body v name : ok_name name -> concat (dump v name) = concat (write_tag name (tag_of v)) ++ body v.
Proof using Type.
  clear. intros H. destruct (dump_tag v name) as (l & E). unfold body.
  assert (K : exists l, forall name, dump v name = write_tag name (tag_of v) ++ l).
  { destruct v; cbn [dump tag_of]; eexists; intros; reflexivity. }
  destruct K as (l2 & K). rewrite !K, !concat_app. f_equal; reflexivity.
Qed.
Lemma nil_name : ok_name [].
Proof using Type. clear. split; [cbn; lia|constructor]. Qed.
Lemma repeat_ok {T} (Q : T -> Prop) (dp : T -> list chunk) (load1 : pst -> outcome (pyobj * list Z * pst)) l b c :
  (forall t b c, Q t -> exists o n c', load1 (P (concat (dp t) ++ b) c) = Ok (o, n, P b c')) -> Forall Q l ->
  exists c', repeat_load load1 (length l) (P (concat (flat_map dp l) ++ b) c) = Ok (P b c').
Proof using Type.
  clear. intros H1 H. revert c. induction H as [|t l Ht H IH]; intros c; [exists c; reflexivity|]. cbn [length repeat_load flat_map]. rewrite concat_app, <- app_assoc.
  destruct (H1 t (concat (flat_map dp l) ++ b) c Ht) as (o & n & c' & E). rewrite E. cbn [bind]. destruct (IH c') as (c'' & E'). exists c''. exact E'.
Qed.
Context (ascii_ok : forall n, Forall (fun c => 0 < c < 128) n -> decode n = Some n).
Lemma record_R depth t b c : ok_tensor is_word t -> py_shape maxdims t ->
  exists c', load_record false maxdims decode junk (S depth) (P (concat (dump_R t []) ++ b) c) = Ok (PyReal (array_of t), [], P b c').
Proof using ascii_ok.
  intros H1 H2. unfold dump_R. rewrite concat_app, <- app_assoc. cbn [load_record]. rewrite load_tag_ok; [|apply nil_name|discriminate|apply ascii_ok; constructor|unfold TAG_RTENSOR; lia]. cbn [bind].
  unfold TAG_RTENSOR. cbn [Z.eqb]. destruct (load_tensor_R t b (S c) H1 H2) as (c' & E). rewrite E. exists c'. reflexivity.
Qed.
Lemma record_C depth t b c : ok_tensor is_cword t -> py_shape maxdims t ->
  exists c', load_record false maxdims decode junk (S depth) (P (concat (dump_C t []) ++ b) c) = Ok (PyComplex (array_of t), [], P b c').
Proof using ascii_ok.
  intros H1 H2. unfold dump_C. rewrite concat_app, <- app_assoc. cbn [load_record]. rewrite load_tag_ok; [|apply nil_name|discriminate|apply ascii_ok; constructor|unfold TAG_CTENSOR; lia]. cbn [bind].
  unfold TAG_CTENSOR. cbn [Z.eqb Pos.eqb]. destruct (load_tensor_C t b (S c) H1 H2) as (c' & E). rewrite E. exists c'. reflexivity.
Qed.
Definition after_tag (depth : nat) (name : list Z) (code : Z) (s : pst) : outcome (pyobj * list Z * pst) :=
  if code =? -1 then Ok (PyNil, [], s)
    else if code =? 0 then '(obj, s) <- load_tensor false maxdims junk false s ;; Ok (obj, name, s)
    else if code =? 1 then '(obj, s) <- load_tensor false maxdims junk true s ;; Ok (obj, name, s)
    else if (code =? 2) || (code =? 3) then
      '(L, s) <- read_long false junk s ;;
      s <- repeat_load (load_record false maxdims decode junk depth) (Z.to_nat L) s ;;
      Ok (PyNil, name, s)
    else Abort.
Lemma record_tag depth s : load_record false maxdims decode junk (S depth) s =
  ('(name, code, s) <- load_tag false decode junk s ;; after_tag depth name code s).
Proof using Type. reflexivity. Qed.
Lemma after_ok depth name v b c : ok_value v -> py_value maxdims v -> (1 <= maxdims)%nat ->
  exists c', after_tag (S depth) name (tag_of v) (P (body v ++ b) c) = Ok (as_python double_bits v, name, P b c').
Proof using ascii_ok.
  intros Hv Hp Hm. assert (one : forall {E} (x : E), py_shape maxdims (mkST [1] [x])).
  { intros E x. split; [cbn; lia|]. repeat constructor; lia. }
  destruct v as [v|v|w|re im|t|t|l|l]; cbn [ok_value py_value tag_of as_python] in *; unfold after_tag, TAG_RTENSOR, TAG_CTENSOR, TAG_RTENSOR_VECTOR, TAG_CTENSOR_VECTOR in *; cbn [Z.eqb Pos.eqb orb].
  - change (body (VInt v)) with (concat (dump_vector 1 (map to_word [1]) ++ dump_vector 1 [double_bits v])).
    destruct (load_tensor_R (mkST [1] [double_bits v]) b c) as (c' & E); [apply one_tensor_ok, double_int; lia|apply one|]. cbn [sdims selts length] in E. rewrite E. exists c'. reflexivity.
  - change (body (VSize v)) with (concat (dump_vector 1 (map to_word [1]) ++ dump_vector 1 [double_bits v])).
    destruct (load_tensor_R (mkST [1] [double_bits v]) b c) as (c' & E); [apply one_tensor_ok, double_int; lia|apply one|]. cbn [sdims selts length] in E. rewrite E. exists c'. reflexivity.
  - change (body (VDouble w)) with (concat (dump_vector 1 (map to_word [1]) ++ dump_vector 1 [w])).
    destruct (load_tensor_R (mkST [1] [w]) b c) as (c' & E); [apply one_tensor_ok; auto|apply one|]. cbn [sdims selts length] in E. rewrite E. exists c'. reflexivity.
  - change (body (VComplex re im)) with (concat (dump_vector 1 (map to_word [1]) ++ dump_vector 1 (complex_words [(re, im)]))).
    destruct (load_tensor_C (mkST [1] [(re, im)]) b c) as (c' & E); [apply one_tensor_ok; split; tauto|apply one|]. cbn [sdims selts length] in E. rewrite E. exists c'. reflexivity.
  - change (body (VR t)) with (concat (dump_vector (length (sdims t)) (map to_word (sdims t)) ++ dump_vector (length (selts t)) (selts t))).
    destruct (load_tensor_R t b c Hv Hp) as (c' & E). rewrite E. exists c'. reflexivity.
  - change (body (VC t)) with (concat (dump_vector (length (sdims t)) (map to_word (sdims t)) ++ dump_vector (length (selts t)) (complex_words (selts t)))).
    destruct (load_tensor_C t b c Hv Hp) as (c' & E). rewrite E. exists c'. reflexivity.
  - change (body (VRs l)) with (concat ([write_words [Z.of_nat (length l)]] ++ flat_map (fun t => dump_R t []) l)). rewrite concat_app, <- app_assoc. cbn [concat]. rewrite app_nil_r.
    rewrite read_long_ok by (unfold is_word; lia). cbn [bind]. rewrite small_signed, Nat2Z.id by lia.
    destruct (repeat_ok (fun t => ok_tensor is_word t /\ py_shape maxdims t) (fun t => dump_R t []) (load_record false maxdims decode junk (S depth)) l b (S c)) as (c' & E).
    + intros t b' c' [H1 H2]. destruct (record_R depth t b' c' H1 H2) as (c'' & E). eauto.
    + destruct Hv as [Hv _]. clear - Hv Hp. induction Hv; inversion Hp; subst; constructor; auto.
    + rewrite E. exists c'. reflexivity.
  - change (body (VCs l)) with (concat ([write_words [Z.of_nat (length l)]] ++ flat_map (fun t => dump_C t []) l)). rewrite concat_app, <- app_assoc. cbn [concat]. rewrite app_nil_r.
    rewrite read_long_ok by (unfold is_word; lia). cbn [bind]. rewrite small_signed, Nat2Z.id by lia.
    destruct (repeat_ok (fun t => ok_tensor is_cword t /\ py_shape maxdims t) (fun t => dump_C t []) (load_record false maxdims decode junk (S depth)) l b (S c)) as (c' & E).
    + intros t b' c' [H1 H2]. destruct (record_C depth t b' c' H1 H2) as (c'' & E). eauto.
    + destruct Hv as [Hv _]. clear - Hv Hp. induction Hv; inversion Hp; subst; constructor; auto.
    + rewrite E. exists c'. reflexivity.
Qed.

Definition good (r : list Z * value) : Prop := ok_name (fst r) /\ py_name (fst r) /\ ok_value (snd r) /\ py_value maxdims (snd r).
Definition item_of (r : list Z * value) : list Z * pyobj := (fst r, as_python double_bits (snd r)).
Definition into (d : dict) (rs : list (list Z * value)) : dict := fold_left (fun d r => set_item d (fst r) (as_python double_bits (snd r))) rs d.
Lemma record_ok depth r b c : good r -> (1 <= maxdims)%nat -> exists c',
  load_record false maxdims decode junk (S (S depth)) (P (concat (dump (snd r) (fst r)) ++ b) c) = Ok (as_python double_bits (snd r), fst r, P b c').
Proof using ascii_ok.
  intros (H1 & (H2 & H3 & H4) & H5 & H6) Hm. rewrite record_tag, dump_body, <- app_assoc by auto. rewrite load_tag_ok; auto; [|destruct (snd r); cbn; lia].
  cbn [bind]. apply after_ok; auto.
Qed.
Lemma record_first depth r b k i c : good r -> (1 <= maxdims)%nat -> exists c',
  load_record false maxdims decode junk (S (S depth)) (mkP (header ++ concat (dump (snd r) (fst r)) ++ b) k i c) = Ok (as_python double_bits (snd r), fst r, P b c').
Proof using ascii_ok.
  intros (H1 & (H2 & H3 & H4) & H5 & H6) Hm. rewrite record_tag, dump_body, <- app_assoc by auto. rewrite load_tag_first; auto; [|destruct (snd r); cbn; lia].
  cbn [bind]. apply after_ok; auto.
Qed.
Lemma loop_ok depth rs : Forall good rs -> (1 <= maxdims)%nat -> forall fuel d c, (length rs < fuel)%nat ->
  load_loop false maxdims decode junk (S (S depth)) fuel d (P (records rs) c) = Ok (into d rs).
Proof using ascii_ok.
  intros H Hm. induction H as [|r rs Hr H IH]; intros [|fuel] d c Hf; cbn [length] in Hf; try lia; cbn [load_loop].
  - reflexivity.
  - unfold records. cbn [flat_map]. rewrite concat_app. destruct (record_ok depth r (records rs) c Hr Hm) as (c' & E). unfold records in E. rewrite E. cbn [bind].
    destruct (fst r) as [|x n] eqn:En; [destruct Hr as (_ & (Hn & _) & _); rewrite En in Hn; contradiction|]. rewrite <- En.
    cbn [into fold_left]. apply (IH fuel _ c'). lia.
Qed.
Lemma records_length rs : (length rs <= length (records rs))%nat.
Proof using Type.
  clear. unfold records. induction rs as [|r rs IH]; [cbn; lia|]. cbn [flat_map length]. rewrite concat_app, app_length.
  destruct (dump_tag (snd r) (fst r)) as (l & ->). rewrite concat_app, app_length. unfold write_tag. rewrite concat_app, app_length. cbn [concat]. rewrite app_nil_r, write_words_length. cbn [length]. lia.
Qed.
Lemma py_load_ok depth rs : Forall good rs -> rs <> [] -> (1 <= maxdims)%nat -> (2 <= depth)%nat ->
  py_load false maxdims decode junk depth (header ++ records rs) = Ok (into [] rs).
Proof using ascii_ok.
  intros H Hn Hm Hd. destruct depth as [|[|depth]]; try lia. destruct H as [|r rs Hr H]; [contradiction|].
  unfold py_load. assert (L := records_length (r :: rs)). assert (LF := app_length header (records (r :: rs))). remember (length (header ++ records (r :: rs))) as F eqn:EF. clear EF.
  change (length header) with 64%nat in LF. cbn [load_loop].
  replace (records (r :: rs)) with (concat (dump (snd r) (fst r)) ++ records rs) by (unfold records; cbn [flat_map]; rewrite concat_app; reflexivity).
  destruct (record_first depth r (records rs) 4 false 0 Hr Hm) as (c' & E). rewrite E. cbn [bind].
  destruct (fst r) as [|x n] eqn:En; [destruct Hr as (_ & (Hn' & _) & _); rewrite En in Hn'; contradiction|]. rewrite <- En.
  apply (loop_ok depth rs); auto. cbn [length] in L. lia.
Qed.
End Reader.

(* dictionaries *)
Lemma get_set {V} (d : list (list Z * V)) n o m : get_item (set_item d n o) m = if list_eq_dec Z.eq_dec n m then Some o else get_item d m.
Proof.
  induction d as [|[k v] d IH]; cbn [set_item get_item]; [reflexivity|].
  destruct (list_eq_dec Z.eq_dec k n) as [->|N1]; cbn [get_item].
  - destruct (list_eq_dec Z.eq_dec n m); reflexivity.
  - rewrite IH. destruct (list_eq_dec Z.eq_dec k m) as [->|]; destruct (list_eq_dec Z.eq_dec n m); congruence.
Qed.
Lemma get_into rs d m : get_item (into d rs) m = match last_value rs m with Some v => Some (as_python double_bits v) | None => get_item d m end.
Proof.
  revert d. induction rs as [|[n v] rs IH]; intros d; [reflexivity|]. cbn [into fold_left last_value fst snd]. unfold into in IH. rewrite IH, get_set.
  destruct (last_value rs m); [reflexivity|]. destruct (list_eq_dec Z.eq_dec n m); reflexivity.
Qed.

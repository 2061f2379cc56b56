(* Lemmas for SDF files: reading back what was written. *)
From Verif Require Import Base Spec S_Reduce S_Sdf M_Tensor M_Sdf L_Reduce.
Local Open Scope Z_scope.

Lemma le_length k w : length (le k w) = k.
Proof. revert w; induction k as [|k IH]; intros w; simpl; auto. Qed.
Lemma of_le_le k w : of_le (le k w) = w mod 256 ^ Z.of_nat k.
Proof.
  revert w; induction k as [|k IH]; intros w; cbn [le of_le]; [rewrite Z.mod_1_r; reflexivity|].
  rewrite IH, Nat2Z.inj_succ, Z.pow_succ_r by lia. rewrite (Z.rem_mul_r w 256) by (try apply Z.pow_pos_nonneg; lia). reflexivity.
Qed.
Lemma of_le_word w : is_word w -> of_le (le 8 w) = w.
Proof. intros H. rewrite of_le_le. apply Z.mod_small. exact H. Qed.
Lemma le_bytes k w : Forall is_byte (le k w).
Proof. revert w; induction k as [|k IH]; intros w; cbn [le]; constructor; auto. unfold is_byte. apply Z.mod_pos_bound. lia. Qed.

Lemma write_words_length ws : length (write_words ws) = (8 * length ws)%nat.
Proof. unfold write_words. induction ws as [|w ws IH]; [reflexivity|]. cbn [flat_map length]. rewrite app_length, le_length, IH. lia. Qed.
Lemma words_write ws : Forall is_word ws -> words (length ws) (write_words ws) = ws.
Proof.
  induction 1 as [|w ws Hw H IH]; [reflexivity|]. cbn [length words]. unfold write_words. cbn [flat_map].
  rewrite firstn_app, skipn_app, le_length, Nat.sub_diag, firstn_all2, skipn_all2 by (rewrite le_length; lia).
  rewrite firstn_O, app_nil_r. simpl skipn. rewrite of_le_word by auto. f_equal. exact IH.
Qed.

Lemma to_word_word x : is_word (to_word x).
Proof. unfold is_word, to_word. apply Z.mod_pos_bound. lia. Qed.
Lemma signed_word x : is_long x -> to_signed (to_word x) = x.
Proof.
  unfold is_long, to_signed, to_word. intros H. destruct (Z_lt_dec x 0).
  - replace (x mod 2 ^ 64) with (x + 2 ^ 64); [destruct (Z.ltb_spec (x + 2 ^ 64) (2 ^ 63)); lia|].
    apply (Z.mod_unique _ _ (-1)); lia.
  - rewrite Z.mod_small by lia. destruct (Z.ltb_spec x (2 ^ 63)); lia.
Qed.

Lemma pairs_complex l : pairs (complex_words l) = l.
Proof. induction l as [|[a b] l IH]; [reflexivity|]. cbn. f_equal. exact IH. Qed.
Lemma complex_words_length l : length (complex_words l) = (2 * length l)%nat.
Proof. induction l as [|c l IH]; [reflexivity|]. cbn [complex_words flat_map length app]. unfold complex_words in IH. cbn. rewrite IH. lia. Qed.
Lemma complex_words_ok l : Forall is_cword l -> Forall is_word (complex_words l).
Proof. induction 1 as [|[a b] l [H1 H2] H IH]; [constructor|]. cbn. constructor; auto. Qed.

(* ---- strings ---- *)
Lemma cstr_clean l : Forall (fun c => is_byte c /\ c <> 0) l -> cstr l = l.
Proof. induction 1 as [|c l [_ Hc] H IH]; [reflexivity|]. cbn. destruct (Z.eqb_spec c 0); [contradiction|]. f_equal. auto. Qed.
Lemma cstr_pad l n : Forall (fun c => c <> 0) l -> cstr (l ++ repeat 0 (S n)) = l.
Proof. induction 1 as [|c l Hc H IH]; [reflexivity|]. cbn in *. destruct (Z.eqb_spec c 0); [contradiction|]. f_equal. auto. Qed.
Lemma cstr_nonzero l : Forall (fun c => c <> 0) (cstr l).
Proof. induction l as [|c l IH]; cbn; [constructor|]. destruct (Z.eqb_spec c 0); constructor; auto. Qed.
Lemma cstr_length l : (length (cstr l) <= length l)%nat.
Proof. induction l as [|c l IH]; cbn; [lia|]. destruct (Z.eqb_spec c 0); cbn; lia. Qed.
Lemma eqb_string_iff a b : eqb_string a b = true <-> a = b.
Proof.
  revert b; induction a as [|x a IH]; intros [|y b]; cbn; split; try discriminate; auto.
  - rewrite andb_true_iff, IH. intros [H ->]. f_equal. lia.
  - intros H. inversion H; subst. rewrite andb_true_iff, IH. split; [lia|auto].
Qed.

(* the name that is kept of the given one *)
Definition kept (name : list Z) : list Z := cstr (firstn 63 name).
Lemma kept_ok name : ok_name name -> kept name = name.
Proof. intros [H1 H2]. unfold kept. rewrite firstn_all2 by auto. apply cstr_clean. auto. Qed.
Lemma wvn name : write_variable_name name = [kept name ++ repeat 0 (64 - length (kept name))].
Proof.
  unfold write_variable_name, kept. f_equal. f_equal.
  - f_equal. destruct (Nat.le_ge_cases 63 (length name)); [f_equal; lia|]. rewrite Nat.min_r by auto. rewrite !firstn_all2 by lia. reflexivity.
  - f_equal. f_equal. f_equal. f_equal. destruct (Nat.le_ge_cases 63 (length name)); [f_equal; lia|]. rewrite Nat.min_r by auto. rewrite !firstn_all2 by lia. reflexivity.
Qed.
Lemma kept_length name : (length (kept name) <= 63)%nat.
Proof. unfold kept. rewrite cstr_length, firstn_length. lia. Qed.

Lemma total_size_loop_ok ds aux : total_size_loop aux ds = if existsb (fun d => d <? 0) ds then 0 else aux * fold_right Z.mul 1 ds.
Proof.
  revert aux; induction ds as [|d ds IH]; intros aux; cbn [total_size_loop existsb fold_right]; [lia|].
  destruct (d <? 0); [reflexivity|]. rewrite IH. cbn [orb]. destruct (existsb _ ds); lia.
Qed.
Lemma total_size_of ds : total_sizeZ ds = size_of ds.
Proof. unfold total_sizeZ, size_of. destruct ds as [|d ds]; [reflexivity|]. rewrite total_size_loop_ok. destruct (existsb _ _); lia. Qed.

Lemma new_vector_ok n : Z.of_nat n < 2 ^ 59 -> new_vector (Z.of_nat n) = Ok n.
Proof. intros H. unfold new_vector. replace (Z.of_nat n <? 2 ^ 59) with true by lia. rewrite Nat2Z.id. reflexivity. Qed.
Lemma small_word n : Z.of_nat n < 2 ^ 59 -> is_word (Z.of_nat n).
Proof. unfold is_word. lia. Qed.

Lemma double_int v : Z.abs v < 2 ^ 53 -> double_trunc (double_bits v) = Some v /\ is_word (double_bits v).
Proof.
  intros H. unfold double_bits. rewrite round_small by lia. destruct (Z.eqb_spec v 0) as [->|Hv]; [split; [reflexivity|unfold is_word; lia]|].
  set (e := Z.log2 (Z.abs v)). assert (He : 0 <= e <= 52).
  { split; [apply Z.log2_nonneg|]. assert (e < 53) by (apply Z.log2_lt_pow2; lia). lia. }
  assert (Hs : 2 ^ e <= Z.abs v < 2 ^ Z.succ e) by (apply Z.log2_spec; lia).
  set (m := Z.shiftl (Z.abs v) (52 - e)). assert (Em : m = Z.abs v * 2 ^ (52 - e)) by (apply Z.shiftl_mul_pow2; lia).
  assert (E52 : 2 ^ 52 = 2 ^ e * 2 ^ (52 - e)) by (rewrite <- Z.pow_add_r by lia; f_equal; lia).
  assert (Hp : 0 < 2 ^ (52 - e)) by (apply Z.pow_pos_nonneg; lia).
  assert (Hm : 2 ^ 52 <= m < 2 * 2 ^ 52).
  { rewrite Em. rewrite Z.pow_succ_r in Hs by lia. rewrite E52. nia. }
  set (s := if v <? 0 then 2 ^ 63 else 0). set (w := s + (1023 + e) * 2 ^ 52 + (m - 2 ^ 52)).
  assert (Hw : w = ((if v <? 0 then 2 ^ 11 else 0) + (1023 + e)) * 2 ^ 52 + (m - 2 ^ 52)) by (unfold w, s; destruct (v <? 0); lia).
  assert (Hdiv : w / 2 ^ 52 = (if v <? 0 then 2 ^ 11 else 0) + (1023 + e)) by (symmetry; apply (Z.div_unique _ _ _ (m - 2 ^ 52)); lia).
  assert (Hmod : w mod 2 ^ 52 = m - 2 ^ 52) by (symmetry; apply (Z.mod_unique _ _ ((if v <? 0 then 2 ^ 11 else 0) + (1023 + e))); lia).
  assert (Hexp : (w / 2 ^ 52) mod 2 ^ 11 = 1023 + e).
  { rewrite Hdiv. symmetry. apply (Z.mod_unique _ _ (if v <? 0 then 1 else 0)); [lia|]. destruct (v <? 0); lia. }
  split.
  - unfold double_trunc. rewrite Hexp, Hmod. replace (1023 + e =? 2047) with false by lia. replace (1023 + e =? 0) with false by lia.
    replace (2 ^ 52 + (m - 2 ^ 52)) with m by lia. replace (1023 + e - 1075) with (- (52 - e)) by lia. rewrite Z.shiftl_opp_r.
    rewrite Z.shiftr_div_pow2 by lia. rewrite Em, Z.div_mul by lia. f_equal. unfold w, s.
    destruct (Z.ltb_spec v 0).
    + replace (_ <? 2 ^ 63) with false by lia. lia.
    + replace (_ <? 2 ^ 63) with true; [lia|]. symmetry. apply Z.ltb_lt. nia.
  - unfold is_word, w, s. destruct (v <? 0); nia.
Qed.

Lemma one_tensor_ok {E} (P : E -> Prop) x : P x -> ok_tensor P (mkST [1] [x]).
Proof. intros H. repeat split; cbn; repeat constructor; auto; unfold is_long; lia. Qed.

Section R.
Context (junk : nat -> nat -> Z).
Notation St b c := (mkRS b false c).

Lemma read_raw_ok n a b c : length a = n -> read_raw junk n (St (a ++ b) c) = (a, St b (S c)).
Proof.
  intros <-. unfold read_raw. cbn [failed rest reads]. rewrite app_length. replace (length a <=? length a + length b)%nat with true by lia.
  rewrite firstn_app, skipn_app, Nat.sub_diag, firstn_all, skipn_all. cbn. rewrite app_nil_r. reflexivity.
Qed.
Lemma read_words_ok ws b c : Forall is_word ws -> read_words junk (length ws) (St (write_words ws ++ b) c) = (ws, St b (S c)).
Proof. intros H. unfold read_words. rewrite read_raw_ok by apply write_words_length. rewrite words_write by auto. reflexivity. Qed.
Lemma read_word_ok w b c : is_word w -> read_word junk (St (write_words [w] ++ b) c) = (w, St b (S c)).
Proof.
  intros H. unfold read_word, write_words. cbn [flat_map]. rewrite app_nil_r. rewrite read_raw_ok by apply le_length. rewrite of_le_word; auto.
Qed.

Lemma read_name_ok name b c : read_variable_name junk (St (concat (write_variable_name name) ++ b) c) = Ok (kept name, St b (S c)).
Proof.
  rewrite wvn. cbn [concat]. rewrite app_nil_r. unfold read_variable_name. assert (Hl := kept_length name).
  rewrite read_raw_ok by (rewrite app_length, repeat_length; lia).
  replace (64 - length (kept name))%nat with (S (63 - length (kept name)))%nat by lia.
  replace (existsb _ _) with true; [|symmetry; rewrite existsb_app; cbn; apply orb_true_r].
  rewrite cstr_pad by apply cstr_nonzero. reflexivity.
Qed.

(* asking for the stored name, or for any *)
Definition accepts (asked name : list Z) : Prop := asked = [] \/ asked = kept name.

Lemma read_tag_ok asked name type b c : accepts asked name -> 0 <= type < 4 ->
  read_tag junk asked type (St (concat (write_tag name type) ++ b) c) = Ok (St b (S (S c))).
Proof.
  intros Ha Ht. unfold read_tag, write_tag. rewrite concat_app, <- app_assoc, read_name_ok. cbn [bind].
  replace (negb (length asked =? 0)%nat && negb (eqb_string asked (kept name))) with false.
  2:{ destruct Ha as [->| ->]; [reflexivity|]. replace (eqb_string _ _) with true by (symmetry; apply eqb_string_iff; auto). rewrite andb_false_r. reflexivity. }
  cbn [concat]. rewrite app_nil_r, read_word_ok by apply to_word_word. rewrite signed_word by (unfold is_long; lia).
  rewrite Z.eqb_refl. reflexivity.
Qed.
Lemma read_tag_name_reject asked name type type' b c : asked <> [] -> asked <> kept name ->
  read_tag junk asked type (St (concat (write_tag name type') ++ b) c) = Abort.
Proof.
  intros H1 H2. unfold read_tag, write_tag. rewrite concat_app, <- app_assoc, read_name_ok. cbn [bind].
  replace (negb (length asked =? 0)%nat && negb (eqb_string asked (kept name))) with true; [reflexivity|].
  symmetry. apply andb_true_iff. split; [destruct asked; [contradiction|reflexivity]|].
  destruct (eqb_string asked (kept name)) eqn:E; [apply eqb_string_iff in E; contradiction|reflexivity].
Qed.
Lemma read_tag_type_reject asked name type type' b c : 0 <= type < 4 -> 0 <= type' < 4 -> type <> type' ->
  read_tag junk asked type (St (concat (write_tag name type') ++ b) c) = Abort.
Proof.
  intros H1 H2 Hne. unfold read_tag, write_tag. rewrite concat_app, <- app_assoc, read_name_ok. cbn [bind].
  destruct (_ && _); [reflexivity|]. cbn [concat]. rewrite app_nil_r, read_word_ok by apply to_word_word. rewrite signed_word by (unfold is_long; lia).
  replace (negb (type =? type')) with true by lia. unfold tag_to_name.
  replace ((0 <=? type) && (type <? 4)) with true by lia. replace ((0 <=? type') && (type' <? 4)) with true by lia. reflexivity.
Qed.

Lemma load_indices_ok ds b c : Forall is_long ds -> Z.of_nat (length ds) < 2 ^ 59 ->
  load_indices junk (St (concat (dump_vector (length ds) (map to_word ds)) ++ b) c) = Ok (ds, St b (S (S c))).
Proof.
  intros H Hl. unfold load_indices, dump_vector. cbn [concat]. rewrite app_nil_r, <- app_assoc, read_word_ok by (apply small_word; auto).
  rewrite new_vector_ok by auto. cbn [bind]. rewrite <- (map_length to_word ds) at 1. rewrite read_words_ok.
  - f_equal. f_equal. rewrite map_map. rewrite <- (map_id ds) at 2. apply map_ext_in. intros x Hx. apply signed_word. rewrite Forall_forall in H. auto.
  - rewrite Forall_forall. intros w Hw. apply in_map_iff in Hw. destruct Hw as (x & <- & _). apply to_word_word.
Qed.
Lemma load_reals_ok es b c : Forall is_word es -> Z.of_nat (length es) < 2 ^ 59 ->
  load_reals junk (St (concat (dump_vector (length es) es) ++ b) c) = Ok (es, St b (S (S c))).
Proof.
  intros H Hl. unfold load_reals, dump_vector. cbn [concat]. rewrite app_nil_r, <- app_assoc, read_word_ok by (apply small_word; auto).
  rewrite new_vector_ok by auto. cbn [bind]. rewrite read_words_ok by auto. reflexivity.
Qed.
Lemma load_complex_ok es b c : Forall is_cword es -> Z.of_nat (length es) < 2 ^ 59 ->
  load_complex junk (St (concat (dump_vector (length es) (complex_words es)) ++ b) c) = Ok (es, St b (S (S c))).
Proof.
  intros H Hl. unfold load_complex, dump_vector. cbn [concat]. rewrite app_nil_r, <- app_assoc, read_word_ok by (apply small_word; auto).
  rewrite new_vector_ok by auto. cbn [bind]. rewrite <- complex_words_length. rewrite read_words_ok by (apply complex_words_ok; auto). rewrite pairs_complex. reflexivity.
Qed.

Lemma load_R_ok asked name t b c : accepts asked name -> ok_tensor is_word t ->
  exists c', load_R junk asked (St (concat (dump_R t name) ++ b) c) = Ok (t, St b c').
Proof.
  intros Ha (H1 & H2 & H3 & H4 & H5). unfold load_R, dump_R. rewrite !concat_app, <- !app_assoc.
  rewrite (read_tag_ok asked name TAG_RTENSOR) by (auto; unfold TAG_RTENSOR; lia). cbn [bind]. rewrite load_indices_ok by auto. cbn [bind].
  rewrite load_reals_ok by auto. cbn [bind]. rewrite total_size_of, H3, Z.eqb_refl. cbn [assert_ bind]. eexists. destruct t; reflexivity.
Qed.
Lemma load_C_ok asked name t b c : accepts asked name -> ok_tensor is_cword t ->
  exists c', load_C junk asked (St (concat (dump_C t name) ++ b) c) = Ok (t, St b c').
Proof.
  intros Ha (H1 & H2 & H3 & H4 & H5). unfold load_C, dump_C. rewrite !concat_app, <- !app_assoc.
  rewrite (read_tag_ok asked name TAG_CTENSOR) by (auto; unfold TAG_CTENSOR; lia). cbn [bind]. rewrite load_indices_ok by auto. cbn [bind].
  rewrite load_complex_ok by auto. cbn [bind]. rewrite total_size_of, H3, Z.eqb_refl. cbn [assert_ bind]. eexists. destruct t; reflexivity.
Qed.

Lemma load_vec_ok {T} (P : T -> Prop) (ld : list Z -> rstate -> outcome (T * rstate)) (dp : T -> list chunk) type asked name (l : list T) b c :
  (forall t b c, P t -> exists c', ld [] (St (concat (dp t) ++ b) c) = Ok (t, St b c')) ->
  accepts asked name -> 0 <= type < 4 -> Forall P l -> Z.of_nat (length l) < 2 ^ 56 ->
  exists c', load_vec junk ld type asked (St (concat (write_tag name type ++ [write_words [Z.of_nat (length l)]] ++ flat_map dp l) ++ b) c) = Ok (l, St b c').
Proof.
  intros Hd Ha Ht Hl Hn. unfold load_vec. rewrite !concat_app, <- !app_assoc. rewrite read_tag_ok by auto. cbn [bind concat]. rewrite app_nil_r.
  rewrite read_word_ok by (unfold is_word; lia). replace (2 ^ 56 <=? Z.of_nat (length l)) with false by lia. rewrite Nat2Z.id.
  set (c0 := S (S (S c))). clearbody c0. clear Hn. revert c0. induction Hl as [|t l Hp Hl IH]; intros c0; cbn [length load_many flat_map concat app].
  - exists c0. reflexivity.
  - rewrite concat_app, <- app_assoc. destruct (Hd t (concat (flat_map dp l) ++ b) c0 Hp) as (c1 & E1). rewrite E1. cbn [bind].
    destruct (IH c1) as (c2 & E2). rewrite E2. cbn [bind]. exists c2. reflexivity.
Qed.

Lemma load_ok asked name v b c : accepts asked name -> ok_value v ->
  exists c', load junk (kind_of v) asked (St (concat (dump v name) ++ b) c) = Ok (v, St b c').
Proof.
  intros Ha Hv. destruct v as [v|v|w|re im|t|t|l|l]; cbn [kind_of dump load ok_value] in *.
  - destruct (double_int v ltac:(lia)) as [E W].
    destruct (load_R_ok asked name (mkST [1] [double_bits v]) b c Ha (one_tensor_ok _ _ W)) as (c' & El).
    unfold load_double. rewrite El. cbn [bind selts length]. change (1 <? 1)%nat with false. cbn [rd nth_error bind]. unfold double_to. rewrite E.
    replace ((- 2 ^ 31 <=? v) && (v <? 2 ^ 31)) with true by lia. exists c'. reflexivity.
  - destruct (double_int v ltac:(lia)) as [E W].
    destruct (load_R_ok asked name (mkST [1] [double_bits v]) b c Ha (one_tensor_ok _ _ W)) as (c' & El).
    unfold load_double. rewrite El. cbn [bind selts length]. change (1 <? 1)%nat with false. cbn [rd nth_error bind]. unfold double_to. rewrite E.
    replace ((0 <=? v) && (v <? 2 ^ 64)) with true by lia. exists c'. reflexivity.
  - destruct (load_R_ok asked name (mkST [1] [w]) b c Ha (one_tensor_ok _ _ Hv)) as (c' & El).
    unfold load_double. rewrite El. exists c'. reflexivity.
  - destruct (load_C_ok asked name (mkST [1] [(re, im)]) b c Ha (one_tensor_ok is_cword (re, im) Hv)) as (c' & El).
    unfold load_cdouble. rewrite El. exists c'. reflexivity.
  - destruct (load_R_ok asked name t b c Ha Hv) as (c' & El). rewrite El. exists c'. reflexivity.
  - destruct (load_C_ok asked name t b c Ha Hv) as (c' & El). rewrite El. exists c'. reflexivity.
  - destruct Hv as [Hv Hn].
    destruct (load_vec_ok (ok_tensor is_word) (load_R junk) (fun t => dump_R t []) TAG_RTENSOR_VECTOR asked name l b c) as (c' & El); auto.
    + intros t b0 c0 Ht. apply load_R_ok; auto. left. reflexivity.
    + unfold TAG_RTENSOR_VECTOR. lia.
    + rewrite El. exists c'. reflexivity.
  - destruct Hv as [Hv Hn].
    destruct (load_vec_ok (ok_tensor is_cword) (load_C junk) (fun t => dump_C t []) TAG_CTENSOR_VECTOR asked name l b c) as (c' & El); auto.
    + intros t b0 c0 Ht. apply load_C_ok; auto. left. reflexivity.
    + unfold TAG_CTENSOR_VECTOR. lia.
    + rewrite El. exists c'. reflexivity.
Qed.

(* all records *)
Definition records (rs : list (list Z * value)) : list Z := concat (flat_map (fun r => dump (snd r) (fst r)) rs).
Lemma load_all_ok (rs : list (list Z * value)) (asks : list (list Z)) b c :
  Forall2 (fun asked r => accepts asked (fst r)) asks rs -> Forall (fun r => ok_value (snd r)) rs ->
  exists c', load_all junk (combine (map (fun r => kind_of (snd r)) rs) asks) (St (records rs ++ b) c) = Ok (map snd rs, St b c').
Proof.
  intros Ha. revert c. induction Ha as [|a [name v] asks rs Ha Hs IH]; intros c Hv; cbn [map combine load_all].
  - exists c. reflexivity.
  - inversion Hv; subst. cbn [fst snd] in *. unfold records. cbn [flat_map fst snd]. rewrite concat_app, <- app_assoc.
    destruct (load_ok a name v (concat (flat_map (fun r => dump (snd r) (fst r)) rs) ++ b) c Ha) as (c1 & E1); auto. rewrite E1. cbn [bind].
    destruct (IH c1) as (c2 & E2); auto. unfold records in E2. rewrite E2. exists c2. reflexivity.
Qed.

Lemma read_header_ok b c : read_header junk (St (concat write_header ++ b) c) = Ok (St b (S c)).
Proof. unfold read_header, write_header. rewrite read_name_ok. reflexivity. Qed.

(* wrong types *)
Definition tag_of (v : value) : Z :=
  match v with VInt _ | VSize _ | VDouble _ | VR _ => 0 | VComplex _ _ | VC _ => 1 | VRs _ => 2 | VCs _ => 3 end.
Definition tag_of_kind (k : kind) : Z :=
  match k with KInt | KSize | KDouble | KR => 0 | KComplex | KC => 1 | KRs => 2 | KCs => 3 end.
Lemma dump_tag v name : exists l, dump v name = write_tag name (tag_of v) ++ l.
Proof. destruct v; cbn [dump tag_of]; eexists; reflexivity. Qed.
Lemma load_tag k asked st : read_tag junk asked (tag_of_kind k) st = Abort -> load junk k asked st = Abort.
Proof. intros H. destruct k; cbn [load tag_of_kind] in *; unfold load_double, load_cdouble, load_vec, load_R, load_C; unfold TAG_RTENSOR, TAG_CTENSOR, TAG_RTENSOR_VECTOR, TAG_CTENSOR_VECTOR; rewrite H; reflexivity. Qed.
Lemma load_reject k asked v name b c :
  (asked <> [] /\ asked <> kept name) \/ tag_of_kind k <> tag_of v ->
  load junk k asked (St (concat (dump v name) ++ b) c) = Abort.
Proof.
  intros H. destruct (dump_tag v name) as (l & El). rewrite El, concat_app, <- app_assoc. apply load_tag. destruct H as [[H1 H2]|H].
  - apply read_tag_name_reject; auto.
  - apply read_tag_type_reject; auto; [destruct k|destruct v]; cbn; lia.
Qed.
End R.
